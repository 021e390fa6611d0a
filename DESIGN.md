# Formal model of trace-db in Rocq: design

Sources modelled: `/repo/cffi-interface/**` (the C++ trace database and its C
API), the embedded C trace writer and the index assignment in
`/repo/instrumentation/c-cpp.lisp`, and the id/metadata logic of
`/repo/binary-trace-db.lisp`.  The code is modelled function by function as
total Gallina functions; each definition cites the lines it models.

## Conventions

* `outcome A = Ok a | Throw e | UB k | Abort | Diverge`.  C++ exceptions, failed
  `assert`s, undefined behaviour (out-of-bounds, uninitialised read, dangling
  pointer, bad free) and non-termination (fuel exhausted) are *distinct*
  results.  Loops without a structural measure take fuel; theorems show that
  `Diverge` never happens.
* Bytes are `Coq.Init.Byte.byte`, so every byte list is a legal input.
  Machine integers are `N` with explicit `mod 2^64` / `mod 2^32` wherever C++
  wraps; well-formedness predicates bound the fields of *stored* objects.
* Random numbers, memory allocation success, hash functions, OS results,
  thread schedules, floating-point operations are parameters (oracles) over
  which the theorems quantify.  No axioms.
* Files `*.v`: `Model*`-style files contain definitions only; proofs live in
  `*Proofs.v`; `P_*.v` contains only the property theorems, each closed by
  `exact`, followed by `Print Assumptions` and by `Example`s showing that the
  hypotheses are met by a concrete non-trivial case.
* When a property users expect is false of the code, the theorem
  `Cxx_..._refuted` exhibits a concrete witness, and a second theorem proves the
  strongest true version.

## Layers

Model and specification files (definitions only):

| file | content |
|---|---|
| `Base.v` | outcomes, little-endian coding, N-indexed list helpers |
| `MemMapSpec.v` | specification: allocation history, live regions, answer relation |
| `SkipList.v`, `AMap.v` | heap-level model of `MemoryMap.hpp`; abstract map used in the refinement |
| `Types.v`, `Stream.v`, `Reader.v`, `Writer.v` | istream, `read`/`write` of all classes |
| `FormatSpec.v`, `FormatUB.v`, `CanonSpec.v` | specification: grammar and meaning of the binary format; inputs with undefined behaviour; representable traces |
| `Predicate.v`, `PredSpec.v`, `FloatQ.v`, `FloatSpec.v` | predicate evaluation; typed expression semantics over integers and over mixed numbers; exact rational instance of the float oracle |
| `Query.v`, `QuerySpec.v` | cartesian, collectResultsAtPoint, query, caches, dedup |
| `Compare.v`, `Order.v`, `OrderSpec.v` | ==, <, hash of the data classes |
| `Flyweight.v`, `FlyweightSpec.v` | shared pools with reference counts; the same without sharing |
| `CHeap.v`, `CApi.v`, `CApiSpec.v` | C heap; add_trace, add_trace_points, get_*, points_to_array, build-predicate, ownership |
| `Lisp.v`, `LispSpec.v` | binary-trace-db.lisp, sexp-trace-db.lisp, trace-db.lisp |
| `OpenFile.v` | openWithTimeout |
| `Dec.v`, `PrintPred.v`, `PrintSpec.v` | decimal numbers, predicate printing |
| `Instr.v`, `InstrRun.v`, `InstrPar.v`, `InstrIds.v`, `InstrSpec.v` | instrumenter tables and inserted calls; the C log writer and its threads; parallel instrumentation; statement ids; specification |
| `Concur.v`, `ConcurSpec.v` | concurrent add_trace |
| `Archive.v`, `ArchiveSpec.v` | text archive serialisation |
| `Handshake.v`, `HandshakeSpec.v` | collector and instrumented executions as concurrent processes (traceable.lisp, handshake of c-cpp.lisp) |
| `Splice.v`, `SpliceSpec.v`, `SpliceTrace.v` | selection of statements, splicing of calls into the AST and their removal; C grammar and execution of statements with marks; logs as passes of sites |
| `TypeText.v`, `TypeTextSpec.v` | type-from-trace-string and its cache |
| `Ledger.v`, `LedgerSpec.v` | the explicit allocations of the reader, read_trace, add_trace and the free functions |
| `Owned.v`, `OwnedSpec.v` | PredicateValue as an object that owns memory; evaluation with optional copy elision |
| `LispObj.v`, `LispObjSpec.v` | Lisp objects that stand for databases: wrappers, finalizers, storing and restoring, garbage collection |
| `Ffi.v`, `FfiSpec.v` | Memory as bytes; the structures, enumerations and functions as each side declares them; reading, writing and calling across the interface |
| `FfiText.v`, `FfiTextSpec.v` | Lisp strings as code points, UTF-8, strings and points that Lisp writes for the library, names and blobs that Lisp reads |
| `Collect.v`, `CollectSpec.v` | collect-traces: limits, errors and restarts, binary, processes |
| `SetupSpec.v` | the text of a file from top to bottom, for the place of the support code (model in `Splice.v`) |
| `LispMem.v`, `LispMemSpec.v` | foreign memory taken and given back by Lisp operations, with conditions and unwind-protect |
| `EndSpec.v`, `EndProofs*.v`, `P_End.v` | questions about runs of the instrumented program, the whole way from the program to query_trace |
| `InstrMem.v` | evaluation of the arguments of the inserted calls in a memory of objects with indeterminate bytes; strlen, fwrite, c-cpp.lisp:178-261, 1006-1026 |
| `CRead.v`, `Emit.v` | C tokens, statements and declarations (specification); the text written by instrument-c-exprs, write-trace-id, write-end-entry, initialize-tracing, c-cpp.lisp:301-345, 940-1136 |
| `Vars.v` | choice of the logged variables: var-instrument, var-instrument-p, get-canonicalized-type, c-cpp.lisp:842-905 |
| `ConcQuery.v` | several threads in Trace::query on the shared cache of selected points, Trace.hpp:282-299 and 326-362 |
| `SexpDb.v` | sexp-trace-db.lisp: reading streams, databases and views as objects, trace-types, queries |
| `Fork.v` | c-cpp.lisp: processes that fork, with the stdio buffer, the shared file and the mutex of each process |
| `InstrSize.v` | c-cpp.lisp: places whose functions also return calls of `__write_buffer_size` |
| `Project.v` | c-cpp.lisp 541-605: instrumentation of a project, the tables at the time each entry is set up |
| `SexpOpen.v` | sexp-trace-db.lisp: open-file-timeout and its use by add-trace |
| `Uninstr.v` | instrument.lisp: instrumented-p and uninstrument of projects; c-cpp.lisp:417-420, 541-605 as far as the text of files is concerned |
| `Dest.v` | c-cpp.lisp:312-327 (the handshake of __bi_setup, down to the buffer), 1075-1085 (file-open-str) |
| `Signal.v` | the functions of c-cpp.lisp:156-279 called from signal handlers |
| `DocSpec.v` | specification: the format of doc/trace-database-component.texi:34-86 with widths as parameters |
| `CLStore.v` | sexp-trace-db.lisp:34-45, binary-trace-db.lisp:256-273, 628-639 and the type codes of cl-store |
| `VaArg.v`, `VaSpec.v`, `VaProofs.v`, `P_VaArg.v` | passing of variable arguments: registers, stack, va_list of the System V ABI, and the rules of the C standard (C96) |
| `TransUnit.v`, `TransUnitSpec.v`, `TransUnitProofs1.v`, `TransUnitProofs2.v`, `P_TransUnit.v` | translation units of instrumented files: conditional groups, includes, the guards of the support code |
| `Names.v`, `NamesSpec.v`, `NamesProofs.v`, `P_Names.v` | declarations at the top of instrumented files; names that C declarations declare; names used by inserted code |
| `Startup.v`, `StartupSpec.v`, `StartupProofs.v`, `P_Startup.v` | start and exit of an instrumented program: order of initialisation functions, the setup constructor, exit functions |
| `CText.v`, `CParse.v`, `CSem.v`, `CTextSpec.v`, `CTextProofs.v`, `CTextRuns.v`, `CTextEnd.v`, `P_CText.v` | the C text of the logging functions, a reader and a semantics for the subset of C it is written in, and that the functions do what `InstrRun.v` and `VaArg.v` say |
| `SetupRead.v`, `SetupSem.v`, `SetupStart.v`, `SetupCode.v`, `SetupRuns.v`, `P_SetupCode.v` | the setup code as C: a reader and a semantics for it, and that the emitted text sets up log, lock and header |
| `SetupNames.v`, `SetupNamesProofs.v`, `P_SetupNames.v` | where the names in the setup code come from: headers, declarations, scopes (C98) |
| `Jump.v`, `JumpProofs.v`, `P_Jump.v` | threads that change their course: handlers that jump, cancelled threads |
| `Need.v`, `NeedProofs.v`, `P_Need.v` | memory that reading takes, relative to the size of the file |
| `Ilp32.v`, `Ilp32Proofs.v`, `P_Ilp32.v` | instrumented programs on machines with addresses of four bytes; byte order of the number of types |
| `Full.v`, `FullProofs.v`, `P_Full.v` | instrumented programs whose writes to the log fail |
| `CharSign.v`, `CharSignProofs.v`, `P_CharSign.v` | compilers whose char or wchar_t is unsigned |
| `Spelling.v`, `SpellingProofs.v`, `P_Spelling.v` | the spellings of the integer types of C and which of them are logged |
| `Cost.v`, `CostRead.v`, `CostProofs.v`, `CostReadProofs.v`, `P_Cost.v` | the functions of MemoryMap with a count of their comparisons, and reading with a map that stops when an operation takes too many |
| `Copies.v`, `CopiesSpec.v`, `CopiesProofs.v`, `CopiesSpecProofs.v`, `P_Copies.v` | software objects whose slots refer to databases, copies of them, and collections with the functions of Collect.v |

`*Proofs*.v`, `ReaderMore.v`, `ReaderProps.v`, `MemMapMore.v`, `InstrConc/Float/Text/Table/End/Req.v`
contain lemmas.  `P_*.v` contain the property theorems.

## Per property plan

* C01, C02, C03: skip list as a heap of nodes with link arrays; ops interpret
  a list of records; invariant: at every level i the links enumerate the nodes
  of level >= i of one sorted node list.  Refinement to a sorted association
  list, refinement of that to the history specification.  C03 is false (free
  of the sentinel deletes the list head): refuted, with the true part proved.
* C04: from C01 plus disjointness; refuted without it.
* C05-C11, C13-C16: stream reader against the grammar `FormatSpec`: completeness by
  induction over entries, soundness by inversion of the reader, truncation as
  a corollary of soundness + unique parsing, safety by invariants.  C09 is
  false (refuted): a cut inside an entry discards everything.
* C12: refuted; proved for headers with valid type name indices.
* C17, C18: API state machine, invariants over op lists (`fold_left`).
* C19-C21, C26-C28: query model against a declarative specification
  (bindings as lists of positions, `flat_map`).  C21 is false: refuted.
* C22-C25: typed expression language with mathematical semantics, compiled to
  the untyped predicate tree that users build; evaluation of the tree is
  proved equal to the semantics.  C25 is false for doubles: refuted.
* C29: dedup with arbitrary hash function against "no earlier equal key".
* C30: cache as association list keyed by references; by-value reading proved
  transparent; the strict reading (dangling references) refuted.
* C31: character-level text archive with flyweight table; round trip.
* C32, C33, C34: comparison functions, pools; C33/C34 partly refuted.
* C35, C36: add_trace_points; C36 refuted (out-of-bounds write).
* C37, C38: allocation traces: list of blocks allocated/freed.
* C39: interleaving semantics of readers and the mutex; refuted when aux entries occur (shared
  static), proved otherwise.
* C40, C41: instrumented program as threads emitting byte chunks under a lock;
  every schedule yields a file of the grammar.
* C42-C44, C48: arithmetic and list machines for the Lisp side; C43, C44 refuted in
  general and proved under the stated restriction.
* C45: openWithTimeout with oracle OS results; refuted for unopenable files.
* C46: printing; refuted for >= and <=, proved otherwise.
* C47: refuted (vector reallocation), proved while capacity suffices.
* C48: request sequences against the emitted arrays, by an invariant of the three
  tables (each table numbers its entries, entries only get appended).
* C49: points_to_array and the array seen by the caller.
* C50: the same requests as sequences of atomic table operations of several
  threads; refuted by two schedules; proved for requests that do not overlap, by
  "what the rest of the request would compute alone".
* C51-C55: filters, pick, sexp database, add-trace-points from Lisp.  C53 also from the
  call of query-trace to the Lisp data of its answer (LispQuerySpec.v, P_LispQuery.v).
* C56: the two loops that number the files of a project; id packing.
* C57: same system as C39 with threads that load the vector pointer and then the element;
  refuted by reallocation, proved while the capacity suffices.
* C58: the archive reader on arbitrary text; every loader throws or consumes, so the loops end.
* C59: expressions mixing integers and floats; a relation gives each its number for any float arithmetic, evaluation is proved equal to it; for exact arithmetic it coincides with rational arithmetic.
* C60-C63: transition system of collector, test process and executions (file
  system, pipe); invariants over all reachable states, a decreasing weight for
  termination; refuted by schedules where the handshake is racy.
* C64-C66: collect-traces as a function of what the test cases supply and of the
  decisions of condition handlers; induction over the test suite.
* C67: the instrumented AST is printed to tokens and parsed by the C grammar; the
  parse is the original statement with calls before and after each mark; execution
  of both is related by induction over statements, for every way to enter them
  (start, case, label).  Refuted for switches without braces and for filters that
  drop a label under an if.
* C68: induction over the AST with the context invariants of traceable-stmt-p;
  ghost history of executed statements.
* C69: relation between an AST and the AST with annotated parts added.
* C70: C67 and C41 composed; the log of a run as passes of marks.
* C71: the text is decomposed into stars, brackets and words; reading is computed on
  this form.
* C72: the reader runs with a ledger of live blocks; the ledger grows by exactly the
  blobs of the entries read, and its results are those of the reader of C07.  For rejected
  files the entries before the refused one are found by induction on the reader; bytes
  divide into entries in one way, so the specification leaves no choice.
* C73: evaluation on objects simulates evaluation on values for every choice of elided
  copies; an object owns at most one live number.
* C74: invariant of histories: a kept object has its database, one object without a
  parent per database; databases split into those with a finalizer and restored ones.
* C75: the round trip of C31 under an arbitrary history; a frame theorem per operation.
* C76: bytes in memory are written with one side's declarations and read with the other's, with an arbitrary allocator; induction over points and predicate trees; refuted for the timeout of add_trace.
* C77: decoding is the exact inverse of encoding (induction over strings, strong induction over bytes); strings and points written to memory; composition with C54; refuted for names that are not UTF-8 and for names with NUL.
* C78: instrumentation as recursion (as for C67); the first and the last AST as chains through error nodes (inductive predicates kept by every insertion elsewhere); counting by permutation; every entry macro adjacent to its declarator by an invariant over the insertions.
* C79: a heap of blocks with addresses, Lisp code as a state monad with conditions. An inductive relation says which blocks belong to a built predicate; freeing removes exactly these wherever they are in the heap. Each operation is followed through every point where it can signal; sessions by induction.
* C80: conditions on program values (EndSpec.v) are defined on the events of InstrSpec.v, without traces; the proof composes C41/C40/C70 (log read back), add_trace and C19/C22 (query results, integer predicates), after showing that a logged variable and the program's variable have the same integer (int_agrees), and that choices of logged variables are assignments (choice_assignment). Counters come from C07.
* C81: memory = live objects with bytes that may be indeterminate, variables may be uninitialised; the inserted calls are run in it (strlen scans, fwrite fetches). Proved: defined iff ready (by cases on the kind of each logged variable, through the invariant of the instrumenter's tables), equal to the abstract run of C40/C41 when ready, composition with the reader, independence of the memory without strings; three refutations.
* C82: model the text itself (byte strings put together with format directives) and, as specification, a C lexer (identifiers, numbers, literals with escapes, comments) and parsers of the inserted calls and declarations. Proved by composing lexer runs (pieces that end in a word need a following delimiter), bracket balance lemmas for splitting at commas and semicolons, and a simulation between the text tables and the abstract tables of Instr.v; then the theorems of C40/C41 apply to what the compiler reads.
* C83: ASTs as trees with paths; parents as the chain of prefixes of a path. The choice is characterised by what lies between scope and declaration; then declarators of C are compiled to trees and parameter positions are followed by induction. Refuted for functions with declared pointer results.
* C84: threads as state machines over shared caches (std::map of vectors with buffers that are reallocated and freed); invariant: an entry is complete or one thread is filling it, buffers of entries are distinct and live. Refuted in general, by schedules given for every trace.
* C85: objects with slots as a list, parents by position; specification in which views are computed from their parents; invariant that relates the slots of a view to what its parent shows; refuted after additions.
* C86: streams as lists of what read does next; queries characterised against assignments, with the library function under its documented specification. Refuted for limits.
* C87: transition system of processes with threads, buffers, mutexes, write(2) calls; invariant that the file is the header and the points of an order of passes; specification by interleavings of a tree of threads; refuted with concrete schedules, the deadlock for all continuations.
* C88: the instrumented program of C41 with calls that log buffer sizes between the variables; the records before a variable, over all threads in the order of the log, determine its size (specification of C04/C09); induction over groups and passes.
* C89: the files in the order of instrumentation, with the tables at each entry; a program's files up to its entry, put one after the other, form a program as in C41, whose theorem applies; the order of passes comes back from the flattened threads.
* C90: the polling loop as a transition system over time, with bounded delays between actions; the opening thread is a parameter (when it has a descriptor, when and how it ends); invariants of the loop and a decreasing measure.
* C91: one relation "dressed" (only annotated fragments and blocks were added) is preserved by each instrumentation and undone by uninstrument; counting of support code in the printed text.
* C92: buffers as byte lists with bounds, fgets over an arbitrary sequence of results of read; the line found is characterised by induction over the pieces.
* C93: a signal puts the handler's actions before what the thread has still to do; a run with signals is a run of a program that makes the handlers' passes itself (what a thread does later does not matter for what it has done), so C40 and C41 apply; the frozen state is an invariant.
* C94: the reader of C05-C16 on files of the documented format; the first name becomes part of the 64-bit count, which then exceeds the length of the file.
* C95: objects as trees, stored as a stream of codes and texts; induction over the object, with the round trip of C31 for the databases; the number a code becomes is a parameter.
* C96: arguments as a flat list, placed in registers and on the stack (`place`); `va_arg` walks the saved registers by offsets. Invariant: the va_list holds the arguments not fetched yet; induction over the variables. The functions are written once, for any implementation of va_arg, and run a second time with the rules of C11 7.16.1.1.
* C97: model the preprocessor (groups with arbitrary conditions, includes) over the texts of instrumented files (Splice.v); prove by induction over lines and nesting an invariant of guards and output, that the program's text is the same as before instrumentation, and count setups by entry macros; refute the unconditional claim by concrete projects.
* C98: read the declarations' text with the lexer of CRead.v and a small reader of declarations; prove piece by piece that the tokens of the text of each place are names of the allowed kinds, and that strlen is among them exactly where a C string is logged. For the setup code: a table of what the headers declare (SetupNames.v), the includes read from the text itself, and a scope check on the statements that SetupRead.v reads.
* C99: a program is what its initialisation functions, main and exit functions do; the setup is one more function with priority 101; an order is any sorted permutation. Prove that the steps of a run begin with the setup when nothing instrumented may come before it, and use the lemmas of C41 for the log; build a bad order otherwise.
* C100: the text of the constant is copied, lexed and parsed in Coq; statements and expressions get a big-step semantics with C integer conversions, struct layout, switch with fall through and va_arg as a parameter. Run the functions symbolically, statement by statement, with one lemma for counting loops; show that the loops count modulo 2^32 when the bound is larger.
* C101: parse the emitted text (token lists of C82, with the symbolic parts handled by lemmas on bracket nesting) into statements; run these with a list of system events as the observable; relate the loops to the handshake model of C92 and the call of the header function to its text (C100).
* C102: a run with changes of course is a run without changes of the program whose threads go these courses (what a thread will do later does not matter for what it has done), to which C40 and C41 apply; an invariant for the lock that is never released.
* C103: the files that are accepted (C07) are well-formed with any allocator that delivers blocks of their size, because each request has its bytes in the file; the blocks that remain are those of C72; witnesses for rejected files by C13 and by running the reader.
* C104: arguments on a stack of four-byte slots; each va_arg of the logging functions pops what the call pushed, so that the bytes written are the format of FormatSpec.v; then C06 and the scheduling lemmas of InstrConc.v. Buffer sizes: the records that are read have the converted addresses; when the sign is extended they lie above every pointer that is read. The size of an address conversion is a parameter (gcc or clang).
* C105: states of InstrRun.v with a FILE buffer and a file; a step may write out any part of the buffer, or fail and lose the rest. Runs project to runs of InstrRun.v; until the first failure file and buffer together are the output; the file only grows; without later successes it is a prefix of the output. With whole writes an invariant says that the file is the header and a sublist of the points in the order of the lock. Then the lemmas of C40 and C41. Refutations by explicit runs for all tables and ids and the exact theorem about the reader (C07).
* C106: the inserted code writes the low bytes of the promoted value, which do not depend on the signedness; so a pass with unsigned values writes what a pass with the values wrapped into the signed range writes, and C41 applies to that pass. A name has one type at each place (assumption `one_type`).
* C107: the table of C11 6.7.2p2 up to order of the words is the specification; each spelling is compared with the list of type-format-and-size by counting words. Programs: by induction over the places, the inserted statements name only variables with a format.
* C108: each search of the skip list is written again with a counter and proved to erase to the model of C01. A walk at level i visits only cells between the last cell of a higher level and the last cell of level i at or below the key; the sum over the levels telescopes to the number of cells at or below the key. For insertion, the pointers of a level are unchanged until its walk is done.
* C109: a heap of databases and one slot per object, against a specification in which every object has a value of its own and a flag. Invariant: slots refer to existing databases with the specified contents, and a database of an object with the flag is referred to by no other object. For all histories, a second specification has families of objects instead of references; objects of a family have the same slot, and objects with the same database are of one family.

## Trusted base

* The Coq 8.16.1 kernel, including its `vm_compute` (used in examples and witnesses).
* `Print Assumptions` follows each theorem in the `P_*.v` files and prints
  "Closed under the global context" for every one of them: no axioms, neither
  ours nor the standard library's.  Only the standard library is imported.
* The correspondence between the Gallina definitions and the source, which is by
  reading; each definition cites the lines it models.
* Oracles (parameters of the theorems): success of allocations (`ok`), random
  levels of the skip list (`coins`, `pos`), kind of end of input, floating-point
  operations (`fops`), hash functions, addresses chosen by the allocator and
  contents of uninitialised memory (`garbage`), growth of vectors (`grow`), the
  value drawn by `pick`, printing of floats, results of system calls, schedules.

### Assumptions made in the model (also stated in the comments)

* x86-64 Linux: little-endian, 64-bit pointers and `size_t`, `unsigned long` 8 bytes.
* Copies of temporaries that C++17 elides are elided, except in `Owned.v`, where any
  choice is possible; containers of the standard library behave as specified.
* Memory that is merely leaked is tracked only where a property speaks of it: `CHeap`
  tracks the C arrays and predicates, `Ledger` what the reader allocates, `Owned` the
  numbers of the evaluator.
* CFFI stores a negative integer into an unsigned slot as its two's complement and
  signals an error for integers that do not fit.
* Boost's text archives and flyweight serialisation (version 1.67) write and read what
  `Archive.v` says: tokens separated by spaces, characters as numbers, class
  information in front of the first object of a class, numbered flyweights.  This
  part was modelled from the library's documented format, its source is not in `/repo`.
* An exception that leaves `deserialize_trace_db` ends the process (no C++ frame is above it).
* Temporary files and pipes get fresh names and are removed when their form is left;
  `start-test` and `finish-test` do what they say; a flush is one write to the pipe;
  sleeping and retrying are not steps.
* The AST library (software-evolution-library, not in `/repo`) behaves as stated at the
  top of `Splice.v`: positions, `lookup`, `with`, before and after lists, the order of
  positions; its parser assigns the classes of `Splice.v`.
* trivial-garbage's `finalize` runs the function after the object became unreachable, and
  the function keeps what it refers to (`strong` in `LispObjSpec.v`; the safety theorems
  hold for both choices); cl-store writes and reads lists and strings faithfully and
  calls the restore method of the class that was stored (for wrappers see `CLStore.v`); addresses are not reused.
* In the instrumented program `fwrite`, `fputs` and `fflush` do not fail, except in
  `Full.v` (C105), where a failed write empties the buffer as in glibc and musl; the
  program's own variables are read without data races.

* `Ffi.v`: x86-64 System V layout and little-endian order; fields are naturally
  aligned; an enum is 32 bits wide on both sides; an allocator returns fresh blocks
  above all earlier ones at arbitrary distances; the Lisp client signals an error
  for a value outside a declared integer type; strings are pointers.
* `FfiText.v`: CFFI converts `:string` with babel's strict UTF-8: ill-formed bytes,
  overlong forms and surrogates are errors.
* `LispMem.v`: which strings can be decoded and which points can be converted is a parameter; with-foreign-object is on the stack; an error inside the cleanup itself cannot occur (proved).
* `InstrMem.v`: the memory and the variables do not change while the inserted calls of one pass run (no data races with the instrumented program's other threads); reading an uninitialised variable is undefined whatever its type.
* `CRead.v`: no trigraphs, line continuations, character constants or preprocessing inside the inserted text; sizeof for x86-64 Linux; names inserted (strlen, sizeof, the logging functions) are not redefined by the instrumented program.
* `Vars.v`: the AST library is not in the repository. The trees of declarators are those of the tree-sitter C grammar; the scope of a parameter is the function definition; variable-declaration-ast comprises declarations, parameter declarations and enumerators. Which variables are offered (get-vars-in-scope) is arbitrary.
* `ConcQuery.v`: each operation on the map or on a vector is atomic; evaluation works on the thread's own copy of the points and is one step without the predicate cache.
* `SexpDb.v`: the Lisp reader is abstract (an item of the stream is a point, NIL, an error or a wait); cartesian-without-duplicates and random-elt belong to another library.
* `Fork.v`: glibc's buffering (fill, write out, whole blocks directly) and the system calls fork, write (pieces of at most PIPE_BUF bytes are atomic), exit are modelled from their documentation; exit() stops the other threads at once.
* `VaArg.v`: the System V ABI for x86-64 (register save area, overflow area, va_arg) and C11 7.16 are modelled from their documents; compilers are assumed to follow the ABI.
* `CLStore.v`: cl-store writes the low eight bits of a type code and reads them back as a byte; a code without restorer is an error; symbols, strings, conses and slots are written and read faithfully; objects that occur twice are not modelled.
* `TransUnit.v`: C11 6.10 as far as conditional groups and #include; conditions are arbitrary; headers of the C library belong to the support code; each declarator of main has a text of its own.
* `NamesSpec.v`: what a C declaration declares, for declarations of the forms in the inserted text; preprocessor directives are left out.
* `Startup.v`: libraries are initialised before the executable, functions with priorities in order of these and before those without, streams are closed after exit functions (GNU/Linux); passes of several threads are taken in the order of their points in the log (C40).
* `CSem.v`: sizes, alignment, unsigned enums and byte order of x86-64 with GCC; fwrite, fputc, fputs, strlen, fflush and the pthread calls do what their manuals say and do not fail; va_start and a missing va_end have no effect; loops run for at most `fuel` rounds (`Diverge` beyond); preprocessor directives are skipped.
* `SetupSem.v`: getenv, access, fopen, fgets, strcspn, fclose, unlink, sleep and pthread_mutex_init do what their manuals say; access and the contents of the handshake file are given by the surroundings; environment variables and paths contain no NUL; loops run for at most `fuel` rounds; the #ifdef around the code is taken as satisfied.

### Not modelled

* The computation of scopes (get-vars-in-scope) and of canonical types from the
  AST, both of the library software-evolution-library: C83 starts from the
  variables in scope that the library offers, C71 and C107 from canonical types;
  the parts of c-cpp.lisp that no definition cites; macro definitions, inclusions and parse errors inside function bodies,
  conditional text in the place of the body of an if or a loop, statements inside
  expressions (lambdas, statement expressions) in `SpliceSpec.v`; `instrument.lisp` (generic functions only).
* Makefiles, package definitions, tests; `trace-db.lisp` beyond its generic functions.
