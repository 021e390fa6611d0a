{"id": "C01", "title": "Buffer-size lookup is exact for every allocation history", "statement": "After any sequence of updateMemoryMap records (address, size) that does not free the address 2^64-1 more often than it was allocated, computeBufferSize(a) for a < 2^64-1 finds the live allocation with the greatest start address k <= a (live = the last record for k has non-zero size v) and returns (k+v) mod 2^64 - a when a <= (k+v) mod 2^64; in every other case, and always for a = 2^64-1, it returns UINT64_MAX. The answer does not depend on the random skip-list levels.", "quantifier": "every finite sequence of records, every outcome of rand(), every query address", "why_tests_cant": "tests sample a handful of records; the answer has to be right for every history and every level assignment the random generator can produce", "anchors": ["cffi-interface/trace-db/MemoryMap.hpp: MemoryMap::updateMemoryMap, computeBufferSize, skipListUpdate, skipListRemove, skipListFind, random_level"]}
{"id": "C02", "title": "The memory map never touches invalid memory, terminates, and frees everything once", "statement": "For every sequence of records that never frees address 2^64-1 without a preceding allocation of it, no operation of MemoryMap reads or writes a freed node, an uninitialised link or past the end of a link array; every loop terminates; and clear()/destruction release every allocated node exactly once, leaving none.", "quantifier": "every finite sequence of records and clear() calls, every outcome of rand()", "why_tests_cant": "pointer-structure invariants over unbounded mutation histories; a test run can only witness some histories and cannot show absence of leaks in the others", "anchors": ["cffi-interface/trace-db/MemoryMap.hpp: skipListRemove, skipListUpdate, skipListFind, construct, destruct, clear"]}
{"id": "C03", "title": "Recording a free of the sentinel address is harmless", "statement": "updateMemoryMap with address 2^64-1 never changes any answer of computeBufferSize and never corrupts the map, whatever came before. (Expected by the unit test comment 'Inserting UINT64_MAX does nothing'.)", "quantifier": "every history containing records for address 2^64-1, with size zero or not", "why_tests_cant": "the dangerous case is one boundary key combined with one operation and a state condition", "anchors": ["cffi-interface/trace-db/MemoryMap.hpp: skipListRemove, skipListUpdate", "test/cffi-interface/trace-db/unit-test.cpp: test_memory_map"]}
{"id": "C04", "title": "A pointer into a live buffer always gets the distance to the end of that buffer", "statement": "If address a lies in a live allocation [k, k+v] then computeBufferSize(a) = k+v-a, provided the live allocations do not overlap (and the region does not wrap, and the answer is not 2^64-1). Without the non-overlap condition the claim fails.", "quantifier": "every history and every address, with and without overlapping live allocations", "why_tests_cant": "quantifies over all layouts of live buffers", "anchors": ["cffi-interface/trace-db/MemoryMap.hpp: computeBufferSize"]}
{"id": "C05", "title": "A written trace reads back as the same trace", "statement": "Writing a Trace with operator<< and reading the bytes back with Trace(istream) gives the same names, type descriptions, and points (counter, statement, buffer sizes, variables with value/format/size/buffer size, aux), for every trace whose names are NUL-free, whose types use the sizes the writer supports, and whose buffer-size annotations agree with its recorded allocations. Fixed-size BLOB types and pointer types that are not 8 bytes are outside the guarantee, and the round trip really fails there.", "quantifier": "all traces (any number of names, types, points, variables, blobs)", "why_tests_cant": "round-trip over an infinite value space", "anchors": ["cffi-interface/trace-db/Trace.hpp: Trace::read, Trace::write", "cffi-interface/trace-db/TracePoint.hpp: TracePoint::read, write", "cffi-interface/trace-db/TraceVarInfo.hpp: TraceVarInfo::read, write", "cffi-interface/trace-db/TypeDescription.hpp: read, write"]}
{"id": "C06", "title": "Every well-formed trace file is decoded to exactly what it describes", "statement": "If a byte string is the concatenation of a name dictionary, a type dictionary and trace points in the documented binary format, reading succeeds and yields exactly the described names, types and points: entries in any order and number, the last statement id winning, variables, buffer sizes and aux values in file order, counters 0,1,2,...", "quantifier": "all well-formed files of any size, any entry order inside points", "why_tests_cant": "infinite input space, entry order is free", "anchors": ["cffi-interface/trace-db/Trace.hpp: Trace::read", "cffi-interface/trace-db/TracePoint.hpp: TracePoint::read", "cffi-interface/trace-db/TraceVarInfo.hpp: TraceVarInfo::read", "doc/trace-database-component.texi: Binary Trace Format"]}
{"id": "C07", "title": "Whatever the reader accepts is a well-formed file plus at most one incomplete tail", "statement": "If reading a byte string succeeds (no point limit), then the bytes are a well-formed header and complete points followed by an unfinished last point made of complete entries, and the result is exactly the decoding of the complete points; the only other accepted inputs are headers cut inside the type count or inside the size of the last type, and those yield no points.", "quantifier": "all byte strings", "why_tests_cant": "soundness over all inputs, including all malformed ones", "anchors": ["cffi-interface/trace-db/Trace.hpp: Trace::read", "cffi-interface/trace-db/TracePoint.hpp: TracePoint::read", "cffi-interface/trace-db/Utils.hpp: BINARY_READ"]}
{"id": "C08", "title": "A truncated trace never yields wrong points", "statement": "If a readable trace file is cut at any byte, reading the rest either fails or succeeds with the same names, a prefix of the points and (whenever a point is returned) the same types. Failing is an exception except if the cut is inside the name dictionary (uninitialised memory is read) or inside the size field of a buffer record for address 2^64-1 (invalid free).", "quantifier": "every well-formed file and every cut position", "why_tests_cant": "crash points: every byte offset of every file", "anchors": ["cffi-interface/trace-db/Trace.hpp: Trace::read", "cffi-interface/trace-db/TracePoint.hpp: TracePoint::read"]}
{"id": "C09", "title": "Completed points survive a crash of the traced program", "statement": "If the traced program dies so that the file is cut in the middle of a point, all points completed before the cut can still be read.", "quantifier": "every well-formed file and every cut position", "why_tests_cant": "crash points: every byte offset of every file", "anchors": ["cffi-interface/trace-db/TracePoint.hpp: TracePoint::read", "cffi-interface/trace-db/Utils.hpp: BINARY_READ", "cffi-interface/trace.cpp: read_trace"]}
{"id": "C10", "title": "max_points yields exactly the first max_points points", "statement": "If reading a file without limit succeeds with points P, reading it with limit m > 0 succeeds with the same names and types and the first m points of P; a limit of 0 means no limit; bytes after the m-th point are never examined.", "quantifier": "all byte strings, all limits", "why_tests_cant": "relates two runs on arbitrary inputs", "anchors": ["cffi-interface/trace-db/Trace.hpp: Trace::read", "cffi-interface/trace.cpp: read_trace", "cffi-interface/trace-db.cpp: add_trace"]}
{"id": "C11", "title": "Indices and formats inside an accepted trace are valid", "statement": "In every accepted trace each variable's name index is below the number of names and its type index below the number of types; its format is the one of its type; its size is that of the type unless the type is a variable-sized blob; every type format is one of the five valid formats; blob values have exactly the recorded size; no variable value is indeterminate.", "quantifier": "all byte strings that are accepted, any limit", "why_tests_cant": "invariant over all inputs; later code indexes arrays unchecked with these values", "anchors": ["cffi-interface/trace-db/TraceVarInfo.hpp: TraceVarInfo::read", "cffi-interface/trace-db/TypeDescription.hpp: TypeDescription::read", "cffi-interface/trace.cpp: points_to_array"]}
{"id": "C12", "title": "get_types is memory-safe on every trace that was read successfully", "statement": "For every trace accepted by read_trace/add_trace, get_types returns the names of all types without reading outside the name table.", "quantifier": "all accepted byte strings", "why_tests_cant": "a single malformed-but-accepted header suffices to break it", "anchors": ["cffi-interface/trace.cpp: get_types, points_to_array", "cffi-interface/trace-db/Trace.hpp: Trace::read", "cffi-interface/trace-db/TypeDescription.hpp: TypeDescription(std::istream&)"]}
{"id": "C13", "title": "Reading arbitrary bytes is memory-safe: it succeeds or throws", "statement": "For every byte string whose name dictionary is complete and NUL-terminated and whose unsigned/float/pointer types are at most 8 bytes wide (and which does not free the sentinel address), reading terminates and either succeeds or throws; outside these conditions the reader really does perform out-of-bounds or uninitialised accesses.", "quantifier": "all byte strings", "why_tests_cant": "memory safety over all inputs", "anchors": ["cffi-interface/trace-db/Trace.hpp: Trace::read", "cffi-interface/trace-db/TraceVarInfo.hpp: TraceVarInfo::read"]}
{"id": "C14", "title": "Variable values are decoded by their type", "statement": "A SIGNED value of 1, 2, 4 or 8 bytes is decoded as the two's complement integer it encodes (sign-extended to 64 bits), an UNSIGNED or POINTER value of n <= 8 bytes as the little-endian natural number, FLOAT as its raw bits, and BLOB as its exact bytes; writing any in-range value and reading it gives it back.", "quantifier": "all values and all byte patterns of each width", "why_tests_cant": "2^64 values per type", "anchors": ["cffi-interface/trace-db/TraceVarInfo.hpp: TraceVarInfo::read, write"]}
{"id": "C15", "title": "Pointer variables carry the buffer size valid at that moment of the trace", "statement": "In an accepted trace every POINTER variable has has_buffer_size = 1 and buffer_size = s iff the allocation records that precede the variable in the file (in all earlier points and earlier in the same point) give size s for its address; all other variables have no buffer size.", "quantifier": "all well-formed files: any interleaving of BUFFER_SIZE and VARIABLE entries over all points", "why_tests_cant": "depends on the entire history of the file", "anchors": ["cffi-interface/trace-db/TracePoint.hpp: TracePoint::read", "cffi-interface/trace-db/TraceVarInfo.hpp: TraceVarInfo::read", "cffi-interface/trace-db/MemoryMap.hpp: computeBufferSize"]}
{"id": "C16", "title": "Every point of an accepted trace has a defined statement id", "statement": "Reading the same bytes always yields the same statement ids: the id of every point is determined by the file. This holds iff every point contains a STATEMENT_ID entry; otherwise the reader returns an uninitialised id.", "quantifier": "all accepted byte strings", "why_tests_cant": "uninitialised memory often happens to look right in a test run", "anchors": ["cffi-interface/trace-db/TracePoint.hpp: TracePoint(std::istream&, ...), TracePoint::read"]}
{"id": "C17", "title": "add_trace is all-or-nothing and only ever appends", "statement": "For every history of API calls, add_trace returns 1 and appends exactly the trace read from the file, or returns 0 and leaves the database unchanged; n_traces is the number of successful additions; a trace once stored at an index is never changed or moved to another index by later additions or queries.", "quantifier": "all sequences of add_trace/add_trace_points/query_trace calls, all file contents", "why_tests_cant": "history quantification", "anchors": ["cffi-interface/trace-db.cpp: add_trace, add_trace_points, n_traces, get_trace", "cffi-interface/trace-db/TraceDB.hpp: TraceDB::addTrace"]}
{"id": "C18", "title": "Queries have no memory: results depend only on the trace and the query", "statement": "The per-trace cache of points by (mask, statement) is invisible: at any moment of any history a query returns what it would return on a freshly loaded copy of the trace.", "quantifier": "all histories of queries and additions", "why_tests_cant": "cache coherence over all histories", "anchors": ["cffi-interface/trace-db/Trace.hpp: Trace::getPoints(mask, statement), Trace::query", "cffi-interface/trace-db/TraceDB.hpp: addTrace"]}
{"id": "C19", "title": "Query results are sound and complete", "statement": "query returns, for each trace point with (statement & mask) = statement_arg in trace order, exactly one result per assignment of the free variables to variables of that point such that each variable's type is allowed and the hard predicate is true, and nothing else; the result carries the point's counter, statement, buffer sizes and aux values and the bound variables in free-variable order.", "quantifier": "all traces, all free-variable lists, all well-typed predicates", "why_tests_cant": "combinatorial space of bindings", "anchors": ["cffi-interface/trace-db/Trace.hpp: Trace::query, collectResultsAtPoint, typeCompatible, cartesian", "cffi-interface/trace-db.h: query_trace"]}
{"id": "C20", "title": "Bindings are enumerated in mixed-radix order without repetition", "statement": "The combinations tried at a point are the full Cartesian product of the candidate lists, each combination exactly once, first free variable varying fastest, whenever the number of combinations is below 2^64; an empty candidate list gives no combination. Beyond 2^64 combinations the count wraps and combinations are silently lost.", "quantifier": "all lists of candidate lists", "why_tests_cant": "unbounded product sizes; the wrap-around needs astronomically many combinations", "anchors": ["cffi-interface/trace-db/Trace.hpp: Trace::cartesian"]}
{"id": "C21", "title": "A query without free variables yields one result per trace point", "statement": "If there are no free variables, each trace point (matching the mask) generates exactly one result (documented in trace-db.h and Trace.hpp).", "quantifier": "all traces, both settings of keep_duplicate_bindings", "why_tests_cant": "stated for all traces", "anchors": ["cffi-interface/trace-db/Trace.hpp: collectResultsAtPoint", "cffi-interface/trace-db.h: query_trace"]}
{"id": "C22", "title": "Integer predicates are evaluated in exact integer arithmetic", "statement": "A predicate built from integer constants, values of signed/unsigned/pointer variables, buffer sizes, +, -, *, comparisons, and, or, not, distinct is true exactly when the corresponding statement about mathematical integers is: no overflow and no signed/unsigned confusion can change the outcome.", "quantifier": "all predicate trees of any depth, all variable values", "why_tests_cant": "infinitely many trees and 64-bit values", "anchors": ["cffi-interface/trace-db/QueryObjects.hpp: EvaluatePredicate::evaluate, predicateSatisfied, PredicateValue"]}
{"id": "C23", "title": "Missing values make comparisons false instead of failing", "statement": "The buffer size of a variable without one, the value of a blob, and any quotient with zero divisor are 'invalid'; any arithmetic on an invalid value is invalid; every comparison with an invalid operand (including >= and =) is false, and its negation true.", "quantifier": "all expressions containing an invalid subexpression at any depth", "why_tests_cant": "arbitrary nesting", "anchors": ["cffi-interface/trace-db/QueryObjects.hpp: PredicateValue::operation, operator/"]}
{"id": "C24", "title": "Well-typed predicates always evaluate; ill-typed ones stop at an assertion", "statement": "If a predicate is well-typed (arities, kinds, variable indices in range) evaluation never aborts and never reads out of range, for any variable values. A tree that has the wrong kind or arity at the node being evaluated aborts by assertion. A variable index out of range is not checked.", "quantifier": "all predicate trees, all bindings", "why_tests_cant": "all trees of any depth", "anchors": ["cffi-interface/trace-db/QueryObjects.hpp: EvaluatePredicate::evaluate, predicateSatisfied, evaluate_binary_op"]}
{"id": "C25", "title": "Predicates on floating-point variables use the variable's value", "statement": "For a FLOAT variable, v/value in a predicate denotes the recorded number: the 4-byte float for size 4 and the 8-byte double for size 8.", "quantifier": "all float and double bit patterns", "why_tests_cant": "2^64 bit patterns; coincidental agreement on samples", "anchors": ["cffi-interface/trace-db/QueryObjects.hpp: EvaluatePredicate::evaluate (VAR_VALUE)"]}
{"id": "C26", "title": "Soft predicates select exactly the maximisers at each point", "statement": "With soft predicates, the results at each point are exactly those hard results that satisfy the maximal number of soft predicates among the hard results at that point, in their original order, all of them; if there is any hard result there is a soft result.", "quantifier": "all traces, all lists of soft predicates", "why_tests_cant": "optimality over all bindings", "anchors": ["cffi-interface/trace-db/Trace.hpp: collectResultsAtPoint"]}
{"id": "C27", "title": "A seeded query returns the results of exactly one matching point", "statement": "With a non-zero seed, query returns precisely the results of one point among those matching the mask (none if no point matches), the same point for the same seed; hence its results are a contiguous part of the unseeded results. Seed 0 means all points.", "quantifier": "all seeds, all traces", "why_tests_cant": "all seeds and trace sizes", "anchors": ["cffi-interface/trace-db/Trace.hpp: Trace::query"]}
{"id": "C28", "title": "Statement filtering is exact", "statement": "A query only returns results for points whose statement id satisfies (id & mask) = statement, and considers every such point; mask 0 with statement 0 selects every point; a statement with bits outside the mask selects none.", "quantifier": "all masks, statements and traces", "why_tests_cant": "2^128 mask/statement pairs", "anchors": ["cffi-interface/trace-db/Trace.hpp: Trace::getPoints(mask, statement)"]}
{"id": "C29", "title": "Duplicate removal keeps exactly the first result of each binding", "statement": "With keep_duplicate_bindings = 0 the returned list is the list of results from which every result is removed that has the same statement and the same (name, type) list as an earlier one; order is kept, no two remaining results agree, and nothing else is removed - whatever the hash function does.", "quantifier": "all result lists, all hash functions", "why_tests_cant": "hash collisions cannot be provoked systematically", "anchors": ["cffi-interface/trace-db.cpp: deduplicate_results, query_trace"]}
{"id": "C30", "title": "Caching predicate results is transparent", "statement": "The process-wide cache of predicate results never changes an answer: every evaluation returns what evaluating the predicate on the bound variables would return.", "quantifier": "all histories of queries, all hash functions", "why_tests_cant": "the cache keeps references to dead objects, so failures depend on stack/heap reuse", "anchors": ["cffi-interface/trace-db/TracePoint.hpp: TracePointData::cachedSatisfiesPredicate, satisfiesPredicate", "cffi-interface/trace-db/QueryObjects.hpp: EvaluatePredicate"]}
{"id": "C31", "title": "A database survives serialisation", "statement": "deserialize_trace_db(serialize_trace_db(db)) yields a database with the same traces in the same order: names, types and all fields of all points; the serialised text contains no NUL byte, so passing it as a C string loses nothing.", "quantifier": "all databases whose names are NUL-free (all databases the C API can build)", "why_tests_cant": "round trip over an infinite space, incl. sharing of equal point data through the flyweight table", "anchors": ["cffi-interface/trace-db.cpp: serialize_trace_db, deserialize_trace_db", "cffi-interface/trace-db/Trace.hpp: Trace::save, load", "cffi-interface/trace-db/TracePoint.hpp: TracePointData::save, load, TracePoint::serialize", "cffi-interface/trace-db/TraceVarInfo.hpp: save, load"]}
{"id": "C32", "title": "Sharing of variables and point data is invisible", "statement": "Storing variables and point data in shared flyweight pools never changes an observable value: each stored object reads back with exactly the fields it was created with, whatever else is in the pools.", "quantifier": "all histories of object creation through the C API", "why_tests_cant": "depends on everything ever interned in the process", "anchors": ["cffi-interface/trace-db/TraceVarInfo.hpp: operator==, hash_value", "cffi-interface/trace-db/TracePoint.hpp: FlyweightTracePointData"]}
{"id": "C33", "title": "Equality and hashing agree", "statement": "For variables, types, buffer sizes, point data, points, traces and predicates, == is an equivalence relation, equal objects have equal hashes, and == distinguishes objects that differ in an observable field.", "quantifier": "all pairs (and triples) of objects", "why_tests_cant": "relational laws over all objects", "anchors": ["cffi-interface/trace-db/TraceVarInfo.hpp: operator==, hash_value", "cffi-interface/trace-db/TracePoint.hpp: operator==, hash_value", "cffi-interface/trace-db/Trace.hpp: operator==, hash_value", "cffi-interface/trace-db/QueryObjects.hpp: Predicate::operator=="]}
{"id": "C34", "title": "operator< is a strict weak order consistent with ==", "statement": "operator< on TypeDescription, TraceBufferSize and TraceVarInfo is irreflexive and transitive, and two incomparable objects are equal.", "quantifier": "all triples of objects", "why_tests_cant": "relational laws over all triples", "anchors": ["cffi-interface/trace-db/TraceVarInfo.hpp: operator<", "cffi-interface/trace-db/TypeDescription.hpp: operator<", "cffi-interface/trace-db/TraceBufferSize.hpp: operator<"]}
{"id": "C35", "title": "add_trace_points stores exactly the given points", "statement": "For points without aux data, add_trace_points appends one trace whose points are the given ones in order (counter = position, same statement, same variables with value, name index, buffer size); variables with the same type-name index share one type, types are ordered by name index, and a type is SIGNED iff one of its values is negative as int64, else UNSIGNED, size 8.", "quantifier": "all point arrays, all name arrays", "why_tests_cant": "unbounded arrays and type maps", "anchors": ["cffi-interface/trace-db.cpp: add_trace_points"]}
{"id": "C36", "title": "add_trace_points accepts aux data", "statement": "add_trace_points stores the aux values of each point.", "quantifier": "all point arrays with aux data", "why_tests_cant": "needs a point with at least one aux value", "anchors": ["cffi-interface/trace-db.cpp: add_trace_points"]}
{"id": "C37", "title": "Query results are converted and released without loss, leak or double free", "statement": "The C array built from a result list has one struct per result with the same statement, aux values and for each variable its name index, the name index of its type, value, format, size and buffer size; the array fits its allocation; free_trace_points releases each block allocated for it exactly once.", "quantifier": "all result lists over traces with valid indices", "why_tests_cant": "memory accounting over unbounded results", "anchors": ["cffi-interface/trace.cpp: points_to_array, free_trace_points, get_points"]}
{"id": "C38", "title": "C predicates are converted faithfully and freed exactly once", "statement": "create_predicate_obj yields the same tree (kinds, constants, order of children) minus children of kind NULL_PREDICATE; free_c_predicate releases every block of a predicate tree exactly once.", "quantifier": "all predicate trees", "why_tests_cant": "trees of any depth", "anchors": ["cffi-interface/trace-db.cpp: create_predicate_obj, free_c_predicate, free_c_predicate_helper"]}
{"id": "C39", "title": "Concurrent additions all arrive intact", "statement": "When several threads call add_trace on one database at the same time, after all calls finished the database contains exactly the traces of the successful calls, each equal to what a sequential read of its file yields, in some order, whatever the schedule.", "quantifier": "all schedules, any number of threads, all files", "why_tests_cant": "interleavings", "anchors": ["cffi-interface/trace-db/TraceDB.hpp: TraceDB::addTrace", "cffi-interface/trace-db/TracePoint.hpp: TracePoint::read (static uint64_t value)"]}
{"id": "C40", "title": "Points logged by concurrent threads are never interleaved", "statement": "For every number of threads of an instrumented program and every schedule, the bytes written are the header followed by whole points, each thread's points in its program order; reading the file yields exactly these points.", "quantifier": "all schedules, any number of threads and points", "why_tests_cant": "interleavings", "anchors": ["instrumentation/c-cpp.lisp: __write_trace_header, __write_trace_id, __write_trace_variables, __write_trace_blobs, __write_buffer_size, __write_end_entry"]}
{"id": "C41", "title": "Instrumentation output is readable by the database", "statement": "Everything the instrumented program writes for values of the instrumented C types (1/2/4/8-byte integers, float, double, pointers, strings) is decoded by the reader to the same values, names and types.", "quantifier": "all values, names, types, points", "why_tests_cant": "writer and reader live in different languages; agreement has to hold for all values", "anchors": ["instrumentation/c-cpp.lisp: +write-trace-implementation+", "cffi-interface/trace-db/TraceVarInfo.hpp: TraceVarInfo::read"]}
{"id": "C42", "title": "Trace id packing is lossless", "statement": "For file id < 2^23 and AST id < 2^40 the packed statement id is below 2^64 and unpacking returns the same file and AST ids; ids without file are returned unchanged when below 2^63; distinct pairs give distinct ids.", "quantifier": "all file and AST ids", "why_tests_cant": "2^63 pairs", "anchors": ["binary-trace-db.lisp: expand-from-foreign (c-trace-point-struct), add-trace-points", "instrumentation/c-cpp.lisp: get-ast-ids-ht"]}
{"id": "C43", "title": "Restricting a query to a file returns only and all points of that file", "statement": "query-trace with :file-id f returns exactly the results of points whose file id is f.", "quantifier": "all traces, all file ids", "why_tests_cant": "all ids; the failing case is one particular id combined with unflagged points", "anchors": ["binary-trace-db.lisp: query-trace, restrict-to-file"]}
{"id": "C44", "title": "Metadata stays aligned with traces", "statement": "For every history of add-trace and add-trace-points on a binary-trace-db, the metadata returned with trace i is the metadata given when trace i was added.", "quantifier": "all histories of additions (including failing ones)", "why_tests_cant": "history quantification", "anchors": ["binary-trace-db.lisp: add-trace, add-trace-points, get-trace, query-trace"]}
{"id": "C45", "title": "Opening a trace returns within the timeout", "statement": "openWithTimeout returns a stream only if the file could be opened and became readable, and otherwise fails with an error within the timeout; read_trace/add_trace never hang on a file that cannot be opened.", "quantifier": "all outcomes of open(2) and select(2), all timeouts", "why_tests_cant": "depends on OS outcomes", "anchors": ["cffi-interface/trace-db/Utils.hpp: openWithTimeout", "cffi-interface/trace.cpp: read_trace"]}
{"id": "C46", "title": "Every predicate can be printed", "statement": "Printing a well-typed predicate with operator<< terminates without aborting and produces balanced parentheses.", "quantifier": "all predicate trees", "why_tests_cant": "all kinds and nesting", "anchors": ["cffi-interface/trace-db/QueryObjects.hpp: writePredicate"]}
{"id": "C47", "title": "A trace pointer obtained from get_trace stays valid", "statement": "The pointer returned by get_trace(db, i) refers to trace i as long as the database exists, also while more traces are added.", "quantifier": "all histories of additions", "why_tests_cant": "depends on vector reallocation", "anchors": ["cffi-interface/trace-db.cpp: get_trace", "cffi-interface/trace-db/TraceDB.hpp: TraceDB::addTrace"]}
{"id": "C48", "title": "Name and type indices assigned during instrumentation are consistent", "statement": "For every sequence of names and types requested from the instrumenter, equal names get equal indices, distinct names distinct indices, and the emitted name array contains each name at its index (single-file instrumentation).", "quantifier": "all request sequences", "why_tests_cant": "history quantification", "anchors": ["instrumentation/c-cpp.lisp: get-name-index, get-type-index, names-initialization-str, types-initialization-str"]}
{"id": "C49", "title": "A query depends only on the trace and its arguments", "statement": "After any history of API calls, query_trace on trace i returns the same results as on a fresh database containing only that trace; for a well-typed predicate they are exactly the assignments of matching points that satisfy it, and the returned array shows them.", "quantifier": "all histories of calls, all traces and queries", "why_tests_cant": "The caches of a trace depend on all earlier queries and on reallocations caused by later additions; tests see a few histories only.", "anchors": ["cffi-interface/trace-db.cpp: query_trace", "cffi-interface/trace-db/TraceDB.hpp: query", "cffi-interface/trace-db/Trace.hpp: getPoints"]}
{"id": "C50", "title": "Names keep their indices when files are instrumented in parallel", "statement": "When a project is instrumented with several threads, every name and type requested gets one index, distinct names get distinct indices, and the emitted arrays contain each name at its index.", "quantifier": "all interleavings of the instrumenting threads", "why_tests_cant": "A race between two look-ups; tests see a few schedules only.", "anchors": ["instrumentation/c-cpp.lisp: get-name-index, get-type-index, instrument (c-project)"]}
{"id": "C51", "title": "A query filter selects among all results and removes duplicate bindings", "statement": "query-trace with a filter returns, for every distinct variable binding that has a result accepted by the filter, exactly one such result, and nothing else; a filter accepting everything returns what the query returns without filter.", "quantifier": "all traces, queries and filters", "why_tests_cant": "The result depends on the order of all candidates and on which duplicates are dropped.", "anchors": ["binary-trace-db.lisp: query-trace, keep-duplicate-bindings"]}
{"id": "C52", "title": "With :pick the results come from a single point", "statement": "query-trace with :pick t returns only results of one of the points, for every random draw.", "quantifier": "all traces, queries and random draws", "why_tests_cant": "Some draws are too rare for tests (one in 2^32).", "anchors": ["binary-trace-db.lisp: query-trace (:pick, seed)", "cffi-interface/trace-db/Trace.hpp: query"]}
{"id": "C53", "title": "An s-expression predicate restricts the results as it reads", "statement": "Every well-formed integer predicate expression over the free variables is translated and passed to the library such that exactly the assignments for which the expression is true satisfy it; unknown variables or operators are rejected.", "quantifier": "all predicate expressions, all assignments", "why_tests_cant": "Unbounded nesting of expressions.", "anchors": ["binary-trace-db.lisp: build-predicate", "cffi-interface/trace-db.cpp: create_predicate"]}
{"id": "C54", "title": "Points added from Lisp come back unchanged", "statement": "get-trace on a trace created with add-trace-points returns the given points: ids, file ids, and variables with names, types, values and sizes.", "quantifier": "all lists of points", "why_tests_cant": "All names, types and integer values; index tables of any size.", "anchors": ["binary-trace-db.lisp: add-trace-points, get-trace", "cffi-interface/trace-db.cpp: add_trace_points"]}
{"id": "C55", "title": "The s-expression trace database behaves like the binary one", "statement": "For every history of additions, sexp-trace-db numbers traces in order of addition with their metadata, and queries honour file id and predicate; the limit on points keeps a prefix.", "quantifier": "all histories, traces and queries", "why_tests_cant": "History quantification; equivalence of two implementations.", "anchors": ["sexp-trace-db.lisp: add-trace, add-trace-points, get-trace, query-trace, read-trace-stream"]}
{"id": "C56", "title": "Statement ids of an instrumented project identify file and statement", "statement": "When a project is instrumented, all statements of all files (with and without main) get different 64-bit ids, and the Lisp client decodes each logged id to the file's place in instrumentation-files and the statement's number in that file.", "quantifier": "all projects with at most 2^23 files of at most 2^40 ASTs, any mixture of files with and without main", "why_tests_cant": "uniqueness over all projects; files are numbered by two different loops that must agree", "anchors": ["instrumentation/c-cpp.lisp: get-ast-ids-ht, instrumentation-files, instrument (c/cpp-project)", "binary-trace-db.lisp: expand-from-foreign (c-trace-point-struct)"]}
{"id": "C57", "title": "Looking at traces while others are added", "statement": "While one thread adds traces to a database, another thread that looks at a trace which was in the database before (get_trace, query_trace) sees that trace unchanged.", "quantifier": "all schedules, any number of adding and looking threads, all files", "why_tests_cant": "interleavings; the failure needs a reallocation of the vector between two instructions of the other thread", "anchors": ["cffi-interface/trace-db/TraceDB.hpp: TraceDB::addTrace, getTraces, query", "cffi-interface/trace-db.cpp: get_trace, n_traces, query_trace"]}
{"id": "C58", "title": "Deserialising an arbitrary text", "statement": "deserialize_trace_db, given any C string whatsoever (damaged, cut short, not an archive), either returns a database or ends the process through an uncaught exception; it never loops forever and never reads or writes out of bounds. (A shortened text is however not always recognised as such.)", "quantifier": "all texts, all library versions, given that memory suffices", "why_tests_cant": "all texts: counts, table references and lengths in the text may be arbitrary", "anchors": ["cffi-interface/trace-db.cpp: deserialize_trace_db", "cffi-interface/trace-db/TraceDB.hpp: load", "cffi-interface/trace-db/Trace.hpp: load", "cffi-interface/trace-db/TracePoint.hpp: load", "cffi-interface/trace-db/TraceVarInfo.hpp: load"]}
{"id": "C59", "title": "Predicates mixing integers and fractions mean what arithmetic says", "statement": "A predicate built from integer and floating-point constants, values of integer and 4-byte float variables, buffer sizes, +, -, *, /, comparisons, and, or, not, distinct: integer +, -, * are exact; every other operation or comparison is the one operation of the floating-point arithmetic it names, on the operands in the order given, integers being converted; a number is missing only through a missing operand or a zero divisor. If the floating-point operations are exact the verdict is the one of rational arithmetic on the recorded numbers.", "quantifier": "all predicate trees of any depth, all variable values, all floating point arithmetics", "why_tests_cant": "infinitely many trees; sampled floats agree by coincidence (e.g. > and >= differ only on ties)", "anchors": ["cffi-interface/trace-db/QueryObjects.hpp: EvaluatePredicate::evaluate, predicateSatisfied, PredicateValue::operation, float_operation, operator/"]}
{"id": "C60", "title": "Each collected trace is the log of one execution", "statement": "While the traces of a test case are collected, each trace added to the database is the log of exactly one execution of the instrumented program (or a beginning of it, if the reader had enough or the execution died); different traces come from different executions, in the order in which they ran.", "quantifier": "all interleavings of collector, test process and executions; all logs, readers, deaths and timeouts", "why_tests_cant": "races between file creation, probing, removal and pipe opening depend on the schedule", "anchors": ["traceable.lisp: collect-test-case-traces", "instrumentation/c-cpp.lisp: __bi_setup (handshake)"]}
{"id": "C61", "title": "Collection misses no execution", "statement": "If nothing goes wrong, collecting the traces of a test case yields one trace for every execution the test case starts, in order, up to num-traces or the first log that cannot be read, whatever the interleaving.", "quantifier": "all interleavings, all sequences of executions and logs, all limits", "why_tests_cant": "a lost execution needs a particular schedule", "anchors": ["traceable.lisp: collect-test-case-traces", "instrumentation/c-cpp.lisp: __bi_setup (handshake)"]}
{"id": "C62", "title": "Collection always ends", "statement": "Collecting the traces of a test case ends, even if executions overlap or die: the number of steps is bounded in terms of the logs, and nothing waits for ever except until a timeout. Afterwards the database no longer changes.", "quantifier": "all interleavings, deaths, overlaps", "why_tests_cant": "termination for all schedules", "anchors": ["traceable.lisp: collect-test-case-traces, *trace-open-timeout*", "instrumentation/c-cpp.lisp: __bi_setup (handshake)"]}
{"id": "C63", "title": "Collection does not harm the program under test", "statement": "An execution whose traces are collected never crashes in the handshake and never writes its log to a stray file.", "quantifier": "all interleavings and executions", "why_tests_cant": "crash needs another process to act between two system calls", "anchors": ["instrumentation/c-cpp.lisp: __bi_setup (handshake)", "traceable.lisp: collect-test-case-traces"]}
{"id": "C64", "title": "num-traces limits the traces of a test suite", "statement": "collect-traces with num-traces n replaces the traces of the object by the first n of the traces that the test cases can supply, in order; never more than n. An error is signalled only if a test case supplies no trace.", "quantifier": "all test suites, limits, numbers of executions per test case, error handling decisions", "why_tests_cant": "all combinations of limits and failing test cases", "anchors": ["traceable.lisp: collect-traces, collect-test-case-traces, reset-traces"]}
{"id": "C65", "title": "Collection leaves the compiled program as it was", "statement": "If the binary existed before trace collection it is left alone, otherwise it is removed, however the collection ends (normally, skipped through a restart, or by an error).", "quantifier": "all test suites, all ways of leaving", "why_tests_cant": "every exit path, including non-local ones", "anchors": ["traceable.lisp: with-possibly-existing-bin, collect-traces, collect-test-case-traces"]}
{"id": "C66", "title": "No test process is left behind", "statement": "Every test process started by trace collection has been finished when the collection ends, normally or by an error.", "quantifier": "all test suites, all ways of leaving", "why_tests_cant": "every exit path", "anchors": ["traceable.lisp: collect-test-case-traces (start-test, finish-test)"]}
{"id": "C67", "title": "Instrumented programs behave like the original", "statement": "Running any function of an instrumented C/C++ program ends the same way and in the same state as in the original program; the calls inserted for a statement are executed each time this statement is started (and completed, for calls after it), at no other time.", "quantifier": "all programs (ifs, loops, switches, labels, gotos, calls, conditional text), all meanings of headers and simple statements, all filters, all inserted calls", "why_tests_cant": "every program and every control flow; braces and dangling labels only go wrong in rare shapes", "anchors": ["instrumentation/c-cpp.lisp: instrument, can-be-made-traceable-p, traceable-stmt-p, wrap-before-after-asts"]}
{"id": "C68", "title": "Every executed statement is logged", "statement": "Without a filter, the log of an instrumented program names exactly the executed statements, in the order of execution.", "quantifier": "all programs and runs", "why_tests_cant": "every statement in every context", "anchors": ["instrumentation/c-cpp.lisp: instrument, can-be-made-traceable-p, traceable-stmt-p, wrap-before-after-asts", "instrumentation/c-cpp.lisp: possibly-incomplete-ast-p, misidentified-ast-p"]}
{"id": "C69", "title": "uninstrument undoes instrument", "statement": "uninstrument applied to an instrumented program gives back the original program.", "quantifier": "all programs, filters and inserted calls", "why_tests_cant": "every program", "anchors": ["instrumentation/c-cpp.lisp: uninstrument, instrument, inject-instrumentation-setup-code"]}
{"id": "C70", "title": "The trace read back is the run", "statement": "After instrumenting a program, running it and reading its log file, the trace has one point per pass of an instrumented statement, in order, with the id of this statement and the values its variables had at that time.", "quantifier": "all programs, runs, sites and values", "why_tests_cant": "composition of instrumenter, log writer and reader for every program and run", "anchors": ["instrumentation/c-cpp.lisp: instrument, can-be-made-traceable-p, traceable-stmt-p, wrap-before-after-asts", "instrumentation/c-cpp.lisp: +write-trace-implementation+", "src/Trace.hpp: Trace::Trace", "src/TracePoint.hpp"]}
{"id": "C71", "title": "The type read from a trace is the type written", "statement": "The type that type-from-trace-string makes of a type text of a trace has the pointers, array sizes, qualifiers, storage classes and base type of the variable's type that the instrumenter wrote; asking again gives the same answer.", "quantifier": "all types of variables, all sequences of requests", "why_tests_cant": "unbounded declarators and specifiers, every history of the cache", "anchors": ["instrumentation/c-cpp.lisp: type-from-trace-string-common, type-from-trace-string, type-trace-string, *type-from-trace-string-cache*"]}
{"id": "C72", "title": "Reading and freeing traces returns the memory", "statement": "After any sequence of traces has been read and freed, or a database has been filled and freed, all memory that reading obtained with new and malloc has been given back and no block was freed twice, also when files cannot be opened or are rejected.", "quantifier": "all sequences of files with any contents and limits, all allocation outcomes", "why_tests_cant": "unbounded histories of calls and files, every point at which a file can be rejected", "anchors": ["trace.cpp: read_trace, free_trace", "trace-db.cpp: create_db, add_trace, free_db", "Trace.hpp: Trace(std::istream&, uint64_t)", "TraceVarInfo.hpp: TraceVarInfo(std::istream&, ...)"]}
{"id": "C73", "title": "Evaluating a predicate leaves no memory and does not depend on temporary copies", "statement": "Evaluating any predicate on any variables releases every number it allocates exactly once, and its result is the same whichever copies of temporary values the compiler makes or elides.", "quantifier": "all predicates, variables, arithmetic of floats and choices of copies to elide", "why_tests_cant": "a test runs one compiler's choice of copies on finitely many predicates", "anchors": ["QueryObjects.hpp: PredicateValue, EvaluatePredicate::evaluate, EvaluatePredicate::evaluate_binary_op", "Makefile: -std=c++11"]}
{"id": "C74", "title": "Database objects never use freed databases, and dropping them releases their databases", "statement": "Whatever databases a Lisp program makes, restricts to files, uses, stores, restores and drops, and whenever the garbage collector runs, no object that the program holds refers to a freed database and no database is freed twice; a database that the program no longer holds can be released by the collector.", "quantifier": "all histories of operations on any number of objects, all moments and choices of the collector", "why_tests_cant": "a test sees few histories, and the collector decides when finalizers run", "anchors": ["binary-trace-db.lisp: initialize-instance, defstore-cl-store, defrestore-cl-store, restrict-to-file, n-traces, add-trace", "trace-db.cpp: create_db, free_db, serialize_trace_db"]}
{"id": "C75", "title": "A stored database comes back equal and independent", "statement": "Storing a database object with cl-store and restoring it, later or in another process, gives an object with the same traces and the same metadata; traces added to the one are not seen through the other, and what a program sees of an object changes only by adding traces through an object of the same database.", "quantifier": "all histories before and after the store, all traces whose numbers fit their types, all metadata", "why_tests_cant": "a test stores few databases in few states and observes few of the other objects", "anchors": ["binary-trace-db.lisp: defstore-cl-store, defrestore-cl-store, restrict-to-file, trace-metadata, add-trace, add-trace-points", "trace-db.cpp: serialize_trace_db, deserialize_trace_db"]}
{"id": "C76", "title": "Lisp and the library agree on the foreign interface", "statement": "What the library writes into memory for Lisp (trace points with their variables and sizes) is what Lisp reads with its own declarations of the structures, and what Lisp writes for a query (predicates, free variables) is what the library reads; arguments and results of every call arrive unchanged, and Lisp accepts every argument that the library accepts.", "quantifier": "all points, predicates, free variables and argument values that fit their C types, all placements of blocks in memory, all contents of unspecified bytes", "why_tests_cant": "the two sides declare the layout separately, and a wrong width or order shows only for some values, placements or stale bytes", "anchors": ["trace.h: c_trace_var_info_struct, c_trace_point_struct, read_trace", "TypeDescription.hpp: type_format", "QueryObjects.hpp: predicate_kind", "trace-db.h: c_predicate, c_free_variable, add_trace, query_trace", "binary-trace-db.lisp: defcstruct, defcenum, defcfun, expand-from-foreign, build-predicate, query-trace"]}
{"id": "C77", "title": "Names and strings survive the passage between Lisp and the library", "statement": "Points added from Lisp with names in any script arrive in the library with those names and are fetched with the same names; different names stay different; every trace in the database, whatever bytes its names and blobs contain, can be fetched from Lisp without losing them.", "quantifier": "all strings of Unicode characters, all byte sequences, all points, all placements of blocks in memory", "why_tests_cant": "tests use a few ASCII names; the encoding must be injective and total over all strings and all byte sequences", "anchors": ["binary-trace-db.lisp: expand-from-foreign, convert-trace-points, add-trace-points, create-foreign-array, c-get-names", "trace.cpp: get_names", "trace-db.cpp: add_trace_points"]}
{"id": "C78", "title": "The support code of an instrumented file is complete and in place", "statement": "In an instrumented file, read from top to bottom, the declarations of the tracing functions come before every inserted call and their implementation after every call; each occurs exactly once; the initialisation follows exactly if the file has a main function, and every declarator of main is directly preceded by the entry macro, which occurs nowhere else.", "quantifier": "all source files (also with parse errors and directives), all choices of statements and of calls to insert", "why_tests_cant": "where the code goes depends on the first and last AST of the file, on nested parse errors and on which statements were chosen; tests instrument a few well-formed files", "anchors": ["instrumentation/c-cpp.lisp: instrument, prepend-instrumentation-setup-code, append-instrumentation-setup-code, concretize-error-ast, inject-instrumentation-setup-code, initialize-tracing, main-declarators"]}
{"id": "C79", "title": "Operations from Lisp give back the foreign memory they take", "statement": "Listing types, getting a trace and querying from Lisp never free foreign memory twice, never use freed memory and never touch memory that was live before; when they return, exactly the memory from before is live. When they signal an error nothing is lost exactly if the index was out of range, predicates came without variables, the library rejected the arguments, or only the metadata was missing. Any other error (undefined variable, unknown operator or type, constant out of range, undecodable name, error in the filter) loses blocks each time. Reading a trace always loses the trace object; adding points by hand always loses all arrays and strings it made.", "quantifier": "all operations with all arguments, predicates of any depth, all numbers of results, all points at which an error is signalled, all sessions", "why_tests_cant": "tests check results, not the foreign heap, and an error can come at every sub-expression of a predicate and at every converted point", "anchors": ["binary-trace-db.lisp: convert-trace-points, read-binary-trace, add-trace-points, trace-types, get-trace, create-foreign-array, build-predicate, query-trace", "cffi-interface/trace.cpp: free_trace_points", "cffi-interface/trace-db.cpp: free_c_predicate"]}
{"id": "C80", "title": "Queries about a traced run answer questions about the run", "statement": "A program is instrumented, run (with any number of threads), its log is added to a database with add_trace, and query_trace is called with a condition on the values of variables, for variables of given types, at statements given by id and mask. The results are exactly the choices of logged variables of these types that made the condition true in the program: for each pass of such a statement, in an order of the passes that respects each thread's order, one result for each choice, in ascending order of the positions, showing the number of the pass, the id of the statement, and name, type and value of each chosen variable. In particular the query finds nothing iff the condition was never true. The same holds after a crash for the passes whose points were finished, and every condition on integer values with 64-bit constants can be asked.", "quantifier": "all programs (sites, variables, C types), all values of the variables, all numbers of threads and schedules, all crash points, all databases the log is added to, all conditions built from comparisons, arithmetic, and, or, not, all lists of wanted types, masks and ids", "why_tests_cant": "It composes the instrumenter, the run-time library, the file format, the reader and the query engine; a test checks one program, one schedule and one query, not all conditions on all runs, nor that nothing is missing.", "anchors": ["instrumentation/c-cpp.lisp: +write-trace-implementation+", "instrumentation/c-cpp.lisp: var-instrument", "cffi-interface/trace-db.cpp: add_trace", "cffi-interface/trace-db.cpp: query_trace", "cffi-interface/trace-db/Trace.hpp: Trace::query"]}
{"id": "C81", "title": "Logging a variable is safe exactly when the variable can be read", "statement": "The calls inserted into a C program to log variables have no undefined behaviour if, when they run, every logged variable is initialised and every variable logged as a C string points to initialised, NUL-terminated characters within one live object; otherwise their behaviour is undefined. Safe passes write exactly what the log reader reads back. If strings are not logged, the memory that pointers point to is never touched, so null and dangling pointers are logged harmlessly.", "quantifier": "all programs and places that log, all memories, all contents of the variables (uninitialised, null, dangling or unterminated included), all numbers of threads and schedules", "why_tests_cant": "Whether a pass is undefined depends on the memory of the instrumented program at that moment; tests run a handful of small programs whose variables are initialised, and undefined behaviour need not show.", "anchors": ["instrumentation/c-cpp.lisp: instrument-c-exprs (strlen(~a), ~a), type-format-and-size", "instrumentation/c-cpp.lisp: __write_trace_variables, __write_trace_blobs"]}
{"id": "C82", "title": "The C text inserted into a program is read by the compiler as the calls and tables intended", "statement": "The text inserted by the C/C++ instrumenter is well-formed C for every program: at each place it is the call that writes the id, at most one call per group that logs numbers and at most one that logs strings, and the call that ends the entry; each logged variable appears with the index of its name and type, the size, the format constant and an expression that denotes the variable (strlen and the pointer for C strings, length() and c_str() for C++ strings). The setup code contains the arrays of names and types these indices refer to (whatever characters the texts have), passes their lengths to the header, opens the log at the place asked for and reads the handshake variable asked for.", "quantifier": "all programs (places, groups of variables, identifiers, types), all orders in which hash tables are listed, both hash table tests, all log files (stderr, stdout, any path without newline, environment, handshake) and handshake variables", "why_tests_cant": "The text is put together from parts with format strings; whether the commas, quotes, indices and counts fit for every combination of variables, types and file names can only be sampled by compiling a few instrumented programs.", "anchors": ["instrumentation/c-cpp.lisp: instrument-c-exprs, make-instrumentation-function-call, get-name-index, get-type-index, type-description-struct, write-trace-id, write-end-entry", "instrumentation/c-cpp.lisp: initialize-tracing, +write-trace-initialization+, +write-trace-forward-declarations+"]}
{"id": "C83", "title": "The variables logged at a statement are the variables of the program", "statement": "Of the variables in scope that are offered for a statement, exactly those are logged that are declared as variables or parameters under an identifier (not enumerators, not names that begin with __attribute, not the parameters of function pointers), in order, each with the type of its own declarator. Parameters of a function are logged, parameters mentioned in the declarators of its function pointer parameters or of local function pointers and prototypes are not. (False for functions whose result is declared with stars or as a function pointer: their parameters are not logged.)", "quantifier": "all syntax trees, all lists of variables in scope, all function declarators and declarations of C (any nesting of pointers, arrays, parentheses and parameter lists)", "why_tests_cant": "The choice looks at the chain of parents in the syntax tree; declarators nest without bound, and the tests only have functions with simple declarators.", "anchors": ["instrumentation/c-cpp.lisp: var-instrument, var-instrument-p, get-canonicalized-type, +identifier-regex+"]}
{"id": "C84", "title": "Queries by several threads return what they return alone", "statement": "If several threads query traces at the same time, each query returns what it returns when nothing else runs, and later queries are not affected. (False for two queries of the same trace, mask and statement when these points were not queried before: one may find nothing, both may return every result twice and so do all later queries of these points, or one reads freed memory. True, for all schedules, when the points are in the cache or the queries ask for different points.)", "quantifier": "all traces, all numbers of threads and queries, all schedules, all states of the cache that earlier queries leave", "why_tests_cant": "The failure needs a particular interleaving; the tests query from one thread.", "anchors": ["cffi-interface/trace-db/Trace.hpp: Trace::getPoints, Trace::query, m_getpoints_cache", "cffi-interface/trace-db.h: query_trace"]}
{"id": "C85", "title": "A view of an s-expression database shows the points of its file with the right metadata", "statement": "An s-expression database has the traces added to it with their metadata, newest first; restrict-to-file gives a view that shows, for each trace of the database, exactly the points of that file with the metadata of that trace; views of views likewise. (False after a trace is added to the database or through the view: the view keeps the old traces but shows the current metadata of the database, one position off; a trace added through a view is shown unrestricted with metadata of another trace.)", "quantifier": "all histories of creating databases, adding traces and making views, any number of objects, any depth of views, all traces", "why_tests_cant": "The misalignment appears only for particular orders of operations on several objects.", "anchors": ["sexp-trace-db.lisp: single-file-sexp-trace-db, initialize-instance, restrict-to-file, trace-metadata, get-trace, add-trace-points, n-traces, trace-size"]}
{"id": "C86", "title": "Reading and querying an s-expression trace", "statement": "With a limit of n points, add-trace of the s-expression database stores the first n points whatever follows them; trace-types lists each type of a variable of the trace once; query-trace returns exactly the assignments of variables of allowed types at the points of the trace (with :pick at one point) that pass the filter, one for each binding. (The first is false: the object after the last point wanted is read too, and if it is malformed nothing is stored, if it does not come the reader waits.)", "quantifier": "all streams of objects, malformed or not, all limits, all traces, lists of types, filters and choices of the random generator", "why_tests_cant": "Streams, traces and type lists are unbounded; the tests read complete files.", "anchors": ["sexp-trace-db.lisp: read-trace-stream, read-sexp-trace, add-trace, trace-types, query-trace"]}
{"id": "C87", "title": "Instrumented programs that fork log to one readable file", "statement": "When an instrumented program forks, all its processes log to one file. At any moment, whatever the processes do, also if some are killed, the file can be read and shows whole points of all processes, in an order in which they can have been passed, and every pass finished is among them; in the end all passes are; no process waits for another. (False if a process forks before its first point: the header is written twice; if a point does not fit into the buffer of the stream: points of several processes are mixed; if a process forks while another of its threads is inside a logging statement: the child writes half a point when it exits, and waits for ever at its own first point.)", "quantifier": "all instrumented programs, all trees of processes and threads, all schedules, all moments at which processes are killed, all buffer sizes", "why_tests_cant": "The failures depend on the moment of the fork and on the interleaving of processes and threads; the orders of passes of several processes cannot be enumerated.", "anchors": ["instrumentation/c-cpp.lisp: +write-trace-implementation+ (__write_trace_header, __write_trace_id, __write_end_entry), +write-trace-initialization+ (__bi_setup)"]}
{"id": "C88", "title": "Buffer sizes a program logs are attached to the pointers it logs", "statement": "When an instrumented program, with any number of threads, logs the sizes of buffers next to variables, reading its log yields for each pass the sizes logged in it, and for each pointer variable what is left of its buffer according to the sizes logged before it in the order of the log, by any thread. If these sizes are those of the program's buffers, a pointer into a buffer has the number of bytes to the buffer's end, a pointer just after a buffer has 0 bytes, and a pointer into no buffer has no size.", "quantifier": "all places and variables of all programs, all values, all numbers of threads and schedules, all sizes and addresses", "why_tests_cant": "The size of a pointer depends on all sizes logged before it by all threads, in an order the schedule decides.", "anchors": ["instrumentation/c-cpp.lisp: __write_buffer_size, instrument", "cffi-interface/trace-db/TracePoint.hpp: TracePoint(std::istream&, ...)", "cffi-interface/trace-db/MemoryMap.hpp: MemoryMap::updateMemoryMap, MemoryMap::computeBufferSize"]}
{"id": "C89", "title": "Each program of an instrumented project logs with arrays that cover its files", "statement": "When a project with several files and several entry points is instrumented, each program built from it logs with names and types that cover every file linked into it: every pass of every thread through an instrumented place of any of these files runs without error, and reading the log of a finished program yields exactly these passes, with the numbers of file and AST and the variables, and their names, types and values. (Fails for a file that has an entry point of its own, left out by the preprocessor, and is instrumented after the entry of the program.)", "quantifier": "all projects, orders of files, programs linked from their files, entry points among instrumented and other files, threads, schedules and values", "why_tests_cant": "Which indices the arrays cover depends on the order in which files are instrumented and on which file is the entry; tests build one program from a few files.", "anchors": ["instrumentation/c-cpp.lisp: instrument (c/cpp-project), instrumentation-files, initialize-tracing, get-ast-ids-ht"]}
{"id": "C90", "title": "Opening an s-expression trace returns within the timeout", "statement": "add-trace on an s-expression database returns within the timeout, up to delays of scheduling, whatever the file does. A file that can be opened within the timeout is read, and closed afterwards even if reading fails. A file that cannot be opened within the timeout leaves the database as it is, and no descriptor stays open. (The last part, and reading every file that opens in time, fail when opening coincides with the timeout; timeout 0 never waits, unlike for binary databases.)", "quantifier": "all files (regular, pipes without writers, files that cannot be opened), all times at which opening succeeds or fails, all timeouts, all delays of threads and sleeps", "why_tests_cant": "The result depends on how the opening thread and the polling loop interleave in time.", "anchors": ["sexp-trace-db.lisp: open-file-timeout, read-sexp-trace, add-trace"]}
{"id": "C91", "title": "Instrumentation can be recognised and removed however often it was applied, also in projects", "statement": "instrumented-p is true of every file (that is not empty) after any number of calls of instrument, with any functions and filters. One call of uninstrument then restores the text exactly, after which instrumented-p says what it said of the original and instrumenting has the same effect as on the original. The same holds for the files of a project. An instrumented file can be instrumented again, and uninstrument of a project leaves no inserted code. (The last sentence is false: other files of the project with a main keep the support code, and a file with a main that is instrumented twice defines the initialisation twice.)", "quantifier": "all programs, projects, filters and inserted calls, all numbers of repetitions", "why_tests_cant": "A test can only try some programs and some numbers of repetitions; restoring must work for every nesting of inserted blocks.", "anchors": ["instrumentation/instrument.lisp: instrumented-p, uninstrument, instrumentation-files", "instrumentation/c-cpp.lisp: instrumented-p, uninstrument, instrument (c/cpp-project)"]}
{"id": "C92", "title": "The log of an instrumented program goes where it was told", "statement": "A program instrumented without a trace file, and started with the handshake variable, waits until the collector has written the name of a pipe to the handshake file and then logs to exactly that pipe; without the variable it logs to /dev/null. A program instrumented for a file or stream logs there, whatever the handshake file contains. Nothing the handshake file contains makes the program write outside its buffer. (The first sentence is true only for names below 1024 bytes without newline that the program sees in one piece; where the end of a file is sticky the program waits for ever if it looks too early; an unset trace-env variable makes fopen take a null pointer.)", "quantifier": "all names, all contents of the handshake file, all ways in which it grows while the program reads it, all environments and destinations", "why_tests_cant": "A test writes one name at one time; what is read depends on every possible interleaving of writes and reads, and on names of every length.", "anchors": ["instrumentation/c-cpp.lisp: +c/cpp-log-initialization-code+ (__bi_setup), initialize-tracing (file-open-str)", "instrumentation/traceable.lisp: collect-traces (handshake file)"]}
{"id": "C93", "title": "Instrumented programs with signal handlers do not hang and log every point", "statement": "If instrumented signal handlers interrupt an instrumented program, in any thread and also nested, the log is as if the threads had called the handlers at that place: whole points in an order respecting each thread and handler, readable at the end; and the program can go on. (True only if no signal whose handler logs arrives inside a logging statement of its own thread; such a signal stops the thread and all logging for ever, since the mutex is not recursive.)", "quantifier": "all programs, all threads and handlers, all moments at which signals arrive, all schedules", "why_tests_cant": "The moment at which a signal arrives cannot be chosen in a test; the window in which the program hangs is a few instructions wide.", "anchors": ["instrumentation/c-cpp.lisp: +write-trace-implementation+ (__write_trace_id, __write_end_entry), +write-trace-initialization+ (__bi_setup)"]}
{"id": "C94", "title": "A trace file written as the manual says is read as the trace it describes", "statement": "A program that writes a binary trace in the format of the manual (counts of 16 bits, statement ids of 32 bits, sizes of 16 bits) produces a file the database reads as the trace described. (False: every such file with a non-empty first name is refused or read from uninitialised memory. True for files with 64 bits for the count of characters and the statement id and 32 bits for the other counts, sizes and indices.)", "quantifier": "all traces, all widths of indices, all behaviours of memory allocation, all limits on the number of points", "why_tests_cant": "The tests use files written by the project's own instrumentation; that no file of another writer following the manual is accepted is a statement about all files.", "anchors": ["doc/trace-database-component.texi: Binary Trace Format", "cffi-interface/trace-db/Trace.hpp: Trace::read", "cffi-interface/trace-db/TracePoint.hpp: TracePoint::read", "cffi-interface/trace-db/TraceVarInfo.hpp: TraceVarInfo::read"]}
{"id": "C95", "title": "Objects that contain databases can be stored and restored", "statement": "A Lisp object in which databases occur anywhere (for example a program with its traces) can be stored with cl-store and restored: databases come back with the same traces and metadata, views restricted to a file as nil, everything else as it was, and whatever follows in the file can be read. (False for every object in which a view of a binary database occurs: its type code, 256, does not fit in the byte cl-store writes, and restoring signals an error. True for all others, and for all objects if codes were written in full.)", "quantifier": "all objects, whatever databases and views occur in them and how deeply, and everything else in the file", "why_tests_cant": "The tests store no objects with views; whether an object can be restored depends on what occurs anywhere inside it.", "anchors": ["sexp-trace-db.lisp: *single-file-sexp-trace-db-obj-code*, defstore-cl-store, defrestore-cl-store", "binary-trace-db.lisp: *binary-trace-db-obj-code*, *single-file-binary-trace-db-obj-code*, defstore-cl-store, defrestore-cl-store"]}
{"id": "C96", "title": "The variable arguments of the logging calls arrive as they were passed", "statement": "A call inserted into a program passes any number of indices, sizes, formats and values, integers and doubles mixed, through the ... of __write_trace_variables or __write_trace_blobs. On x86-64 the function fetches exactly these, in order, however many there are and whatever the unused halves of registers and stack slots contain, so the log says what the variables held. (By the C standard every such call with arguments is undefined, because size_t sizes are fetched as uint32_t; with a cast it would be defined exactly for small indices, unsigned values that fit the signed type, and pointers to void or characters.)", "quantifier": "all lists of variables of any length, types and values, all contents of unused halves of slots, all instrumented programs and threads", "why_tests_cant": "A test calls with a few arguments, on one machine, with one content of the unused register halves; the claim is about every number and mixture of arguments, beyond the registers, and about every compiler the standard allows", "anchors": ["instrumentation/c-cpp.lisp: __write_trace_variables, __write_trace_blobs, instrument-c-exprs, make-instrumentation-function-call"]}
{"id": "C97", "title": "Translation units of an instrumented project: support code once, setup code exactly once per executable", "statement": "However the files of an instrumented project include each other and however its preprocessor conditions come out: in every translation unit with an instrumented file the logging functions are declared exactly once, above every inserted call, and defined exactly once; units without instrumented files are untouched; the program's own text, the files included and the conditions met are as before instrumentation. The setup code (log variable, lock and constructor) is in an executable exactly once if exactly one of its units contains a main.", "quantifier": "all projects (files, directives, which files are instrumented, filters, inserted calls), all nestings of includes, all outcomes of conditions, all sets of units", "why_tests_cant": "Which copies of the guarded support code survive depends on the inclusion structure, on repeated inclusion and on every combination of preprocessor conditions; a test fixes one configuration.", "anchors": ["instrumentation/c-cpp.lisp:31-97 +write-trace-forward-declarations+", "instrumentation/c-cpp.lisp:100-282 +write-trace-implementation+", "instrumentation/c-cpp.lisp:291-341 +write-trace-entry-macro+, +write-trace-initialization+", "instrumentation/c-cpp.lisp:434-512 instrument", "instrumentation/c-cpp.lisp:1059-1147 initialize-tracing, main-declarators", "instrumentation/c-cpp.lisp:1181-1213 prepend/append-instrumentation-setup-code"]}
{"id": "C98", "title": "Inserted code uses only names that are declared where it is inserted", "statement": "Every identifier in the code that instrumentation inserts at a place of a program is declared above it: by the declarations that are put at the top of each instrumented file, by the language, or by the program itself (the variables logged at that place, the words of their types, the members length and c_str of logged C++ strings). The declarations at the top take no name that a program may use. The same holds of the code that is appended to the file: its names come from the language, from headers that it includes itself, from the declarations at the top, from its own declarations (before their use) or from the types of logged variables; its calls have as many arguments as the functions have parameters.", "quantifier": "all programs: sets of places, groups of variables with or without strings, variable names, types, hash table tests", "why_tests_cant": "Whether the inserted code compiles depends on the combination of types and string settings at each place and on what the program's file itself includes; a test compiles a few programs, which usually include string.h.", "anchors": ["instrumentation/c-cpp.lisp:31-97 +write-trace-forward-declarations+", "instrumentation/c-cpp.lisp:907-1034 instrument-c-exprs", "instrumentation/c-cpp.lisp:1038-1058 write-trace-id, write-end-entry"]}
{"id": "C99", "title": "The log is set up before any instrumented code runs, and code that runs at exit is still logged", "statement": "When an instrumented program is started, the log is open and its header written before any instrumented code runs; everything instrumented that runs from then on, in initialisation functions, constructors of C++ variables, main and functions called at exit, is in the log, in the order in which it ran.", "quantifier": "all instrumented programs, all sets of initialisation functions of the executable and of its shared libraries, with all priorities, and every order in which linker and C library may run them", "why_tests_cant": "The order of initialisation functions depends on priorities, on the linker and on the order of files on the command line; a test sees one order of one program.", "anchors": ["instrumentation/c-cpp.lisp:299-341 +write-trace-initialization+", "instrumentation/c-cpp.lisp:1065-1134 initialize-tracing", "instrumentation/c-cpp.lisp:101-165 __write_trace_header, __write_trace_id"]}
{"id": "C100", "title": "The C code that writes the log, as it stands in the instrumented file, writes the documented format", "statement": "The C functions put into an instrumented file write, for every header, point, variable, blob and buffer, exactly the bytes of the documented log format, take and release the lock and flush as they should, and return; so the log of an instrumented program is read back as what the program did.", "quantifier": "all name and type tables, statement ids, numbers and values of logged variables and blobs, all ways in which the variable arguments are fetched, all threads and schedules", "why_tests_cant": "The functions loop over argument lists of any length and switch over formats and sizes; counters, casts and integer widths only go wrong for some sizes and values, e.g. tables of 2^32 entries that no test can build.", "anchors": ["instrumentation/c-cpp.lisp:100-283 +write-trace-implementation+", "instrumentation/c-cpp.lisp:31-98 +write-trace-forward-declarations+", "instrumentation/c-cpp.lisp:125-174 __write_trace_header, __write_trace_id, __write_end_entry", "instrumentation/c-cpp.lisp:176-279 __write_trace_variables, __write_trace_blobs, __write_buffer_size"]}
{"id": "C101", "title": "The setup code appended to an instrumented file, run as C, opens the log, initialises the lock and writes the header", "statement": "When a program starts whose main file was instrumented, the code appended to that file takes part in the handshake if its environment variable is set, opens the log that was asked for, makes the log and an initialised lock available to all instrumented code, and writes a header with exactly the names and types the inserted statements refer to; then the log is read back as what the program did.", "quantifier": "all instrumented sites, tables, handshake variables, log destinations and environments, all contents and growth of the handshake file, all waiting times, all threads and schedules", "why_tests_cant": "The code is generated text that depends on the tables, on quoting of paths and on the destination; what it does depends on the environment, on when the handshake file appears and how it grows, and on whether files can be opened.", "anchors": ["instrumentation/c-cpp.lisp:299-343 +write-trace-initialization+", "instrumentation/c-cpp.lisp:1065-1134 initialize-tracing", "instrumentation/traceable.lisp:172-176 handshake", "instrumentation/c-cpp.lisp:101-130 __write_trace_header"]}
{"id": "C102", "title": "Threads of an instrumented program may leave code early (jumps out of handlers, cancellation)", "statement": "When a thread of an instrumented program leaves the code it runs in another way than by reaching its end (a signal handler jumps away, the thread is cancelled or ends, an exception leaves functions), the log stays a readable log of what the threads really did, and the other threads go on logging.", "quantifier": "all instrumented programs, numbers of threads, schedules, sequences of handlers, jumps and cancellations at all moments, all crash points", "why_tests_cant": "whether the log and the other threads survive depends on the moment at which control leaves, relative to the lock and to every other thread", "anchors": ["instrumentation/c-cpp.lisp:132-175 functions that take and release the lock", "instrumentation/c-cpp.lisp:313-333 the mutex", "instrumentation/c-cpp.lisp:457-471 instrument-ast"]}
{"id": "C103", "title": "Reading a trace takes memory in proportion to the file", "statement": "A file can be read whenever blocks of memory as large as the file can be had; the trace that is read holds no more than the file, and no file makes the reader ask for much more memory than its size.", "quantifier": "all files (any bytes), limits on the number of points, allocators, ways in which the input ends, sequences of files", "why_tests_cant": "the sizes that are requested are read from the file; tests read a few files written by the library itself", "anchors": ["Trace.hpp:51-98 Trace::read", "TraceVarInfo.hpp:167-178 blobs", "TypeDescription.hpp:49-63", "trace_db read_trace, add_trace"]}
{"id": "C104", "title": "Logs do not depend on the machine of the program", "statement": "An instrumented program compiled for a machine with addresses and longs of four bytes writes logs that the library on x86-64 reads back exactly: every variable with the value it had, and every pointer with the size of the buffer it points into. Logs are read back also when program and library both run on a machine with the most significant byte first.", "quantifier": "all tables, instrumented places, values of the variables, threads, schedules, histories of allocations, compilers (gcc, clang), byte orders and sizes of long", "why_tests_cant": "the tests run on one machine; sizes, promotions, the layout of variadic arguments and the conversion of addresses differ between machines, compilers and values", "anchors": ["instrumentation/c-cpp.lisp:125-280 +write-trace-implementation+", "instrumentation/c-cpp.lisp:942-972 type-format-and-size", "Trace.hpp:51-98 Trace::read", "TraceVarInfo.hpp:120-190"]}
{"id": "C105", "title": "A full disk costs points, not the trace", "statement": "When writes to the log of an instrumented program fail, for example because the disk is full for a while, the program goes on as before, the points logged until then can still be read, and what is read of the log shows only passes that happened, with the values that the variables had.", "quantifier": "all instrumented programs, threads, schedules, values, places where writes fail, numbers of bytes that arrive, and later successes", "why_tests_cant": "no test makes a write fail; which write fails and how many bytes of it arrive is up to the system", "anchors": ["instrumentation/c-cpp.lisp:125-280 +write-trace-implementation+ (results of fwrite, fputc and fflush are not looked at)", "instrumentation/c-cpp.lisp:1060-1150 initialize-tracing", "Trace.hpp:51-98 Trace::read"]}
{"id": "C106", "title": "Characters keep their values", "statement": "Variables of type char and wchar_t are read from a trace with the values that they had, whether the compiler of the program treats these types as signed or unsigned.", "quantifier": "all instrumented programs, threads, schedules and values, and both choices for char and wchar_t", "why_tests_cant": "the tests run with one compiler on one machine, and with ASCII characters", "anchors": ["instrumentation/c-cpp.lisp:942-972 type-format-and-size", "instrumentation/c-cpp.lisp:195-248 __write_trace_variables", "TraceVarInfo.hpp:120-190"]}
{"id": "C107", "title": "Integer variables are logged however their types are spelled", "statement": "Every variable of an integer type of C that a program asks to log is logged with the signedness and size of its type, whichever of the spellings that C allows for the type (unsigned, unsigned int, int unsigned, ...) the program uses.", "quantifier": "all spellings of all integer types of C in all orders of the words, all qualifiers, programs and values", "why_tests_cant": "the tests use int and a few others; a variable that is not logged is not an error anywhere", "anchors": ["instrumentation/c-cpp.lisp:907-972 instrument-c-exprs (base-typename, type-format-and-size)", "instrumentation/c-cpp.lisp:1002-1025"]}
{"id": "C108", "title": "Looking up and recording buffers takes little work", "statement": "Whatever allocations a trace records and whatever random numbers the map draws, looking up the buffer of an address compares the address at most once with each live buffer that starts at or below it plus once for each of 32 levels; recording an allocation or a free costs at most twice that; lookups take logarithmic work.", "quantifier": "all histories of allocations and frees, all addresses, all sequences of random numbers", "why_tests_cant": "the work depends on random numbers and on the number of live buffers; tests have a few buffers and do not measure", "anchors": ["cffi-interface/trace-db/MemoryMap.hpp:26-110 random_level, skipListRemove, skipListUpdate, skipListFind", "cffi-interface/trace-db/MemoryMap.hpp:150-173 updateMemoryMap, computeBufferSize"]}
{"id": "C109", "title": "Collecting traces for one software object does not change the traces of another", "statement": "Whatever software objects are made and copied, in whatever order and with whatever results traces are collected for them, the traces of each object are those it would have if it shared nothing with other objects, and a database of traces obtained earlier is not changed by later collections.", "quantifier": "all histories of making, copying and collecting, all test suites, all outcomes of compilation and of the tests", "why_tests_cant": "copies refer to the same database; whether this shows depends on the order of copies and collections, and tests collect once for one object", "anchors": ["traceable.lisp:34-38 traceable, traces", "traceable.lisp:95-132 reset-traces, collect-traces", "traceable.lisp:134-266 collect-test-case-traces"]}
