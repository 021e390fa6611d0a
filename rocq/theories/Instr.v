(** Model of the C/C++ instrumenter, instrumentation/c-cpp.lisp: which name and
    type indices it hands out, which C calls it inserts, and the arrays of names
    and types it emits.
    Not modelled: how statements and variables in scope are found in the AST,
    how the calls are spliced into it, canonicalisation of types. *)
From Coq Require Import Strings.String.
From Verif Require Import Base Types Compare PrintPred.

(** ** Canonical types (class c/cpp-canonical-type of the AST library) *)

Inductive skind := KStorage | KQualifier | KOther.
(** A specifier: its AST class and its source text. *)
Record spec := mkSpec { sp_kind : skind; sp_text : name }.

(** An element of the declarator list: (:pointer), (:array) or (:array ast);
    for the last, the source text of ast and the identity of the AST object. *)
Inductive declr := DPointer | DArray (size : option (name * N)).

Record ctype := mkC { c_decl : list declr; c_spec : list spec }.

(** c-cpp.lisp:924-927, array-type-p and pointer-type-p *)
Definition array_type_p (t : ctype) : bool :=
  existsb (fun d => match d with DArray _ => true | _ => false end) (c_decl t).
Definition pointer_type_p (t : ctype) : bool :=
  existsb (fun d => match d with DPointer => true | _ => false end) (c_decl t).

(** (fmt "~{~a~^ ~}" texts) *)
Fixpoint join (l : list name) : name :=
  match l with
  | [] => []
  | [x] => x
  | x :: r => x ++ x20 :: join r
  end.

(** c-cpp.lisp:916-923, base-typename *)
Definition base_typename (t : ctype) : name :=
  join (map sp_text (filter (fun s => match sp_kind s with KOther => true | _ => false end) (c_spec t))).

(** c-cpp.lisp:928-932, c-string-type-p; 933-937, cpp-string-type-p; 938-941, string-type-p *)
Definition c_string_type_p (t : ctype) : bool :=
  bytes_eqb (base_typename t) (text "char") && xorb (array_type_p t) (pointer_type_p t).
Definition cpp_string_type_p (t : ctype) : bool :=
  bytes_eqb (base_typename t) (text "string") || bytes_eqb (base_typename t) (text "std::string").
Definition string_type_p (t : ctype) : bool := c_string_type_p t || cpp_string_type_p t.

(** sizeof on the modelled machine (x86-64 Linux), for the types of lines 953-966 *)
Definition sizeof_table : list (name * N) :=
  [(text "char", 1); (text "int8_t", 1); (text "wchar_t", 4); (text "short int", 2);
   (text "int16_t", 2); (text "int", 4); (text "int32_t", 4); (text "long int", 8);
   (text "int64_t", 8);
   (text "unsigned char", 1); (text "uint8_t", 1); (text "unsigned short int", 2);
   (text "uint16_t", 2); (text "unsigned int", 4); (text "uint32_t", 4);
   (text "unsigned long int", 8); (text "uint64_t", 8); (text "size_t", 8)].
Definition sizeof (n : name) : N :=
  match find (fun p => bytes_eqb (fst p) n) sizeof_table with
  | Some (_, s) => s
  | None => 0
  end.

(** The lists of lines 954-955 and 961-963. *)
Definition signed_names : list name :=
  [text "char"; text "int8_t"; text "wchar_t"; text "short int"; text "int16_t"; text "int";
   text "int32_t"; text "long int"; text "int64_t"].
Definition unsigned_names : list name :=
  [text "unsigned char"; text "uint8_t"; text "unsigned short int"; text "uint16_t";
   text "unsigned int"; text "uint32_t"; text "unsigned long int"; text "uint64_t"; text "size_t"].
Definition member (n : name) (l : list name) : bool := existsb (bytes_eqb n) l.

(** c-cpp.lisp:942-972, type-format-and-size; [None] is (nil nil).  The size
    is the value of the C expression. *)
Definition type_format_and_size (t : ctype) (print_strings : bool) : option (fmt * N) :=
  let n := base_typename t in
  if print_strings && string_type_p t then Some (BLOB, 0)
  else if pointer_type_p t || array_type_p t then Some (POINTER, 8)
  else if member n signed_names then Some (SIGNED, sizeof n)
  else if member n unsigned_names then Some (UNSIGNED, sizeof n)
  else if bytes_eqb n (text "float") then Some (FLOAT, 4)
  else if bytes_eqb n (text "double") then Some (FLOAT, 8)
  else None.

(** ** type-trace-string, c-cpp.lisp:738-771 *)

(** +integer-regex+ ^[0-9]+$ *)
Definition integer_text (s : name) : bool :=
  match s with
  | [] => false
  | _ => forallb (fun b => (48 <=? N_of_byte b) && (N_of_byte b <=? 57)) s
  end.

(** lines 739-743 *)
Definition pointer_str (t : ctype) : name :=
  concat (map (fun d => match d with DPointer => text "*" | _ => [] end) (c_decl t)).
(** lines 744-753 *)
Definition array_str (t : ctype) : name :=
  concat (map (fun d => match d with
                        | DArray (Some (s, _)) => if integer_text s then x5b :: s ++ [x5d] else text "[]"
                        | DArray None => text "[]"
                        | DPointer => []
                        end) (c_decl t)).

(** trim-whitespace: blank, tab, newline, page and return *)
Definition is_space (b : byte) : bool :=
  match b with x20 | x09 | x0a | x0c | x0d => true | _ => false end.
Fixpoint trim_left (l : name) : name :=
  match l with
  | b :: r => if is_space b then trim_left r else l
  | [] => []
  end.
Definition trim (l : name) : name := rev (trim_left (rev (trim_left l))).
(** (car (split-sequence #\Newline str)) *)
Fixpoint first_line (l : name) : name :=
  match l with
  | [] => []
  | x0a :: _ => []
  | b :: r => b :: first_line r
  end.
(** (drop-suffix "{" str) *)
Definition drop_brace (l : name) : name :=
  match rev l with
  | x7b :: r => rev r
  | _ => l
  end.
(** lines 759-764 *)
Definition trim_to_single_line (l : name) : name := trim (drop_brace (trim (first_line l))).

(** lines 754-758 and 766-771; an empty specifier list is not modelled faithfully *)
Definition type_trace_string (t : ctype) : name :=
  match c_spec t with
  | [] => trim_to_single_line (pointer_str t ++ array_str t)
  | s :: r => trim_to_single_line (join ((pointer_str t ++ array_str t ++ sp_text s) :: map sp_text r))
  end.

(** ** Hash tables: association lists in order of insertion *)

Section Hash.
Context {K V : Type} (eqv : K -> K -> bool).
Fixpoint gethash (k : K) (h : list (K * V)) : option V :=
  match h with
  | [] => None
  | (k', v) :: r => if eqv k' k then Some v else gethash k r
  end.
(** (setf (gethash k h) v) *)
Fixpoint puthash (k : K) (v : V) (h : list (K * V)) : list (K * V) :=
  match h with
  | [] => [(k, v)]
  | (k', v') :: r => if eqv k' k then (k', v) :: r else (k', v') :: puthash k v r
  end.
End Hash.

(** Keys of the tables of types: (cons (and print-strings (string-type-p type))
    c-type), line 984.  The generalised boolean is the value of xor, the element
    found in the declarator list, for C strings; T for C++ strings.  [equal] and
    [equalp] compare AST objects by identity. *)
Inductive sflag := FNil | FTrue | FPointer | FArray (ast : option N).
Definition sflag_eqb (a b : sflag) : bool :=
  match a, b with
  | FNil, FNil | FTrue, FTrue | FPointer, FPointer => true
  | FArray None, FArray None => true
  | FArray (Some x), FArray (Some y) => x =? y
  | _, _ => false
  end.
Definition first_array (l : list declr) : option N :=
  match find (fun d => match d with DArray _ => true | _ => false end) l with
  | Some (DArray (Some (_, i))) => Some i
  | _ => None
  end.
Definition string_flag (t : ctype) (print_strings : bool) : sflag :=
  if negb print_strings then FNil
  else if c_string_type_p t then
    if array_type_p t then FArray (first_array (c_decl t)) else FPointer
  else if cpp_string_type_p t then FTrue else FNil.

Definition tkey : Type := sflag * name.

(** :test of the tables: [equal] for one file (lines 373-381), [equalp], which
    ignores case, for a project (lines 552-554). *)
Definition upcase (b : byte) : byte :=
  let n := N_of_byte b in if (97 <=? n) && (n <=? 122) then byte_of_N (n - 32) else b.
Definition equal_test : name -> name -> bool := bytes_eqb.
Definition equalp_test (a b : name) : bool := bytes_eqb (map upcase a) (map upcase b).
Definition key_test (test : name -> name -> bool) (a b : tkey) : bool :=
  sflag_eqb (fst a) (fst b) && test (snd a) (snd b).

(** State of a c/cpp-instrumenter, lines 370-386. *)
Record istate := mkI {
  i_names : list (name * N);
  i_types : list (tkey * N);
  i_descs : list (tkey * tdesc)
}.
Definition istate0 : istate := mkI [] [] [].

Section Instrument.
Variable test : name -> name -> bool.

(** get-name-index, c-cpp.lisp:973-976: the count is taken before insertion *)
Definition get_name_index (n : name) (st : istate) : N * istate :=
  match gethash test n (i_names st) with
  | Some i => (i, st)
  | None =>
      let i := lenN (i_names st) in
      (i, mkI (puthash test n i (i_names st)) (i_types st) (i_descs st))
  end.

(** type-description-struct, c-cpp.lisp:977-981 *)
Definition type_description_struct (c_type : name) (f : fmt) (size : N) (st : istate) : tdesc * istate :=
  let '(i, st1) := get_name_index c_type st in (mkT i f size, st1).

(** get-type-index, c-cpp.lisp:982-992 *)
Definition get_type_index (t : ctype) (f : fmt) (size : N) (print_strings : bool) (st : istate)
  : N * istate :=
  let c_type := type_trace_string t in
  let key := (string_flag t print_strings, c_type) in
  match gethash (key_test test) key (i_types st) with
  | Some i => (i, st)
  | None =>
      let '(d, st1) := type_description_struct c_type f size st in
      let st2 := mkI (i_names st1) (i_types st1) (puthash (key_test test) key d (i_descs st1)) in
      let i := lenN (i_types st2) in
      (i, mkI (i_names st2) (puthash (key_test test) key i (i_types st2)) (i_descs st2))
  end.

(** Arguments of the inserted calls, lines 1006-1025. *)
Record vararg := mkVA { va_name : N; va_type : N; va_size : N; va_fmt : fmt; va_expr : name }.
Record blobarg := mkBA { ba_name : N; ba_type : N; ba_expr : name }.

(** Inserted statements. *)
Inductive istmt :=
| IId (id : N)                       (* __write_trace_id(log, lock, <id>u); *)
| IVars (args : list vararg)         (* __write_trace_variables(log, n, ...); *)
| IBlobs (args : list blobarg)       (* __write_trace_blobs(log, n, ...); *)
| IEnd.                              (* __write_end_entry(log, lock); *)

(** One round of the loop, lines 1002-1025. *)
Definition instrument_var (n : name) (t : ctype) (print_strings : bool) (st : istate)
  : list vararg * list blobarg * istate :=
  match type_format_and_size t print_strings with
  | None => ([], [], st)
  | Some (f, size) =>
      let '(ti, st1) := get_type_index t f size print_strings st in
      let '(ni, st2) := get_name_index n st1 in
      if print_strings && c_string_type_p t then ([], [mkBA ni ti n], st2)
      else if print_strings && cpp_string_type_p t then ([], [mkBA ni ti n], st2)
      else ([mkVA ni ti size f n], [], st2)
  end.

Fixpoint instrument_vars (l : list (name * ctype)) (print_strings : bool) (st : istate)
  : list vararg * list blobarg * istate :=
  match l with
  | [] => ([], [], st)
  | (n, t) :: r =>
      let '(v1, b1, st1) := instrument_var n t print_strings st in
      let '(v2, b2, st2) := instrument_vars r print_strings st1 in
      (v1 ++ v2, b1 ++ b2, st2)
  end.

(** instrument-c-exprs, c-cpp.lisp:907-1034: the calls without arguments are
    dropped (lines 993-1000, 1028). *)
Definition instrument_c_exprs (l : list (name * ctype)) (print_strings : bool) (st : istate)
  : list istmt * istate :=
  let '(vs, bs, st1) := instrument_vars l print_strings st in
  (match vs with [] => [] | _ => [IVars vs] end ++ match bs with [] => [] | _ => [IBlobs bs] end, st1).

(** (mappend {funcall _ instrumenter ast} functions), lines 477-480: each function
    calls var-instrument (lines 845-865), i.e. instrument-c-exprs on its variables. *)
Fixpoint extra_stmts (groups : list (bool * list (name * ctype))) (st : istate) : list istmt * istate :=
  match groups with
  | [] => ([], st)
  | (ps, l) :: r =>
      let '(s1, st1) := instrument_c_exprs l ps st in
      let '(s2, st2) := extra_stmts r st1 in
      (s1 ++ s2, st2)
  end.

(** The statements inserted before (or after) an AST, instrument-ast, lines
    455-469. *)
Definition instrument_ast (id : N) (groups : list (bool * list (name * ctype))) (st : istate)
  : list istmt * istate :=
  let '(extra, st1) := extra_stmts groups st in (IId id :: extra ++ [IEnd], st1).

(** All places of a program, in the order they are instrumented. *)
Fixpoint instrument_all (sites : list (N * list (bool * list (name * ctype)))) (st : istate)
  : list (list istmt) * istate :=
  match sites with
  | [] => ([], st)
  | (id, groups) :: r =>
      let '(s1, st1) := instrument_ast id groups st in
      let '(s2, st2) := instrument_all r st1 in
      (s1 :: s2, st2)
  end.

(** ** Emitted arrays, c-cpp.lisp:1086-1110.
    hash-table-alist returns the entries in any order; sort is stable or not,
    the indices being distinct. *)
Fixpoint insert_by {A} (key : A -> N) (x : A) (l : list A) : list A :=
  match l with
  | [] => [x]
  | y :: r => if key x <=? key y then x :: l else y :: insert_by key x r
  end.
Definition sort_by {A} (key : A -> N) (l : list A) : list A := fold_right (insert_by key) [] l.

(** The array of names, lines 1086-1087 and 1091-1100, from the alist. *)
Definition emit_names (alist : list (name * N)) : list name := map fst (sort_by snd alist).
(** The array of types, lines 1088-1090 and 1101-1110, from the alist of the
    descriptions and the table of types. *)
Definition emit_types (types : list (tkey * N)) (alist : list (tkey * tdesc)) : list tdesc :=
  map snd (sort_by (fun p => match gethash (key_test test) (fst p) types with Some i => i | None => 0 end) alist).

End Instrument.

(** ** String literals: a name printed with ~s (line 1095), read by C *)

(** Lisp printer: backslash and double quote are escaped. *)
Definition lisp_print (s : name) : list byte :=
  x22 :: concat (map (fun b => match b with
                               | x22 | x5c => [x5c; b]
                               | _ => [b]
                               end) s) ++ [x22].

(** C string literal (without trigraphs, hexadecimal and octal escapes and line
    continuations, which are rejected): its value and the text after it. *)
Fixpoint c_chars (l : list byte) : option (list byte * list byte) :=
  match l with
  | [] => None
  | x22 :: r => Some ([], r)
  | x0a :: _ => None
  | x5c :: x22 :: r => match c_chars r with Some (s, q) => Some (x22 :: s, q) | None => None end
  | x5c :: x5c :: r => match c_chars r with Some (s, q) => Some (x5c :: s, q) | None => None end
  | x5c :: x6e :: r => match c_chars r with Some (s, q) => Some (x0a :: s, q) | None => None end
  | x5c :: _ => None
  | b :: r => match c_chars r with Some (s, q) => Some (b :: s, q) | None => None end
  end.
Definition c_literal (l : list byte) : option (list byte * list byte) :=
  match l with
  | x22 :: r => c_chars r
  | _ => None
  end.
