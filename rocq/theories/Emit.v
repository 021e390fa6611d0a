(** Model of the C text that the instrumenter writes, instrumentation/c-cpp.lisp:
    the calls inserted at each place (lines 977-1058) and the setup code (lines
    299-342, 1065-1134), with the tables of names and types they refer to.
    [Instr.v] models the same functions with the meaning of the text in the
    place of the text. *)
From Coq Require Import Strings.String.
From Verif Require Import Base Types Compare PrintPred Dec Instr.

(** FORMAT directives: ~a of a string is the string, ~d and ~a of an integer its
    decimal digits, ~s of a string [lisp_print], ~a of a keyword its name. *)
Definition dec (n : N) : list byte := show_N n.

(** type-format-and-size, lines 942-972: the keyword and the text of the size *)
Definition type_format_and_size_t (t : ctype) (print_strings : bool) : option (name * name) :=
  let n := base_typename t in
  if print_strings && string_type_p t then Some (text "__GT_TRACEDB_BLOB", text "0")
  else if pointer_type_p t || array_type_p t then Some (text "__GT_TRACEDB_POINTER", text "sizeof(void*)")
  else if member n signed_names then Some (text "__GT_TRACEDB_SIGNED", text "sizeof(" ++ n ++ text ")")
  else if member n unsigned_names then Some (text "__GT_TRACEDB_UNSIGNED", text "sizeof(" ++ n ++ text ")")
  else if bytes_eqb n (text "float") then Some (text "__GT_TRACEDB_FLOAT", text "sizeof(float)")
  else if bytes_eqb n (text "double") then Some (text "__GT_TRACEDB_FLOAT", text "sizeof(double)")
  else None.

(** State of a c/cpp-instrumenter, lines 370-386; descriptions are texts. *)
Record tstate := mkTS {
  t_names : list (name * N);
  t_types : list (tkey * N);
  t_descs : list (tkey * name)
}.
Definition tstate0 : tstate := mkTS [] [] [].

(** +trace-instrument-log-variable-name+ (traceable.lisp:46) and
    +instrument-log-lock-variable-name+ (line 25) *)
Definition log_name : name := text "__sel_trace_file".
Definition lock_name : name := text "__sel_trace_file_lock".

(** (fmt "~{~a~^, ~}" l) *)
Fixpoint comma (l : list name) : name :=
  match l with
  | [] => []
  | [x] => x
  | x :: r => x ++ text ", " ++ comma r
  end.

Section Emit.
Variable test : name -> name -> bool.

(** get-name-index, lines 973-976 *)
Definition get_name_index_t (n : name) (st : tstate) : N * tstate :=
  match gethash test n (t_names st) with
  | Some i => (i, st)
  | None =>
      let i := lenN (t_names st) in
      (i, mkTS (puthash test n i (t_names st)) (t_types st) (t_descs st))
  end.

(** type-description-struct, lines 977-981 *)
Definition type_description_struct_t (c_type f size : name) (st : tstate) : name * tstate :=
  let '(i, st1) := get_name_index_t c_type st in
  (text "{" ++ dec i ++ text ", " ++ f ++ text ", " ++ size ++ text "}", st1).

(** get-type-index, lines 982-992 *)
Definition get_type_index_t (t : ctype) (f size : name) (print_strings : bool) (st : tstate) : N * tstate :=
  let c_type := type_trace_string t in
  let key := (string_flag t print_strings, c_type) in
  match gethash (key_test test) key (t_types st) with
  | Some i => (i, st)
  | None =>
      let '(d, st1) := type_description_struct_t c_type f size st in
      let st2 := mkTS (t_names st1) (t_types st1) (puthash (key_test test) key d (t_descs st1)) in
      let i := lenN (t_types st2) in
      (i, mkTS (t_names st2) (puthash (key_test test) key i (t_types st2)) (t_descs st2))
  end.

(** make-instrumentation-function-call, lines 993-1000 *)
Definition function_call (f : name) (args : list name) : list name :=
  match args with
  | [] => []
  | _ => [f ++ text "(" ++ log_name ++ text ", " ++ dec (lenN args) ++ text ", " ++ comma args ++ text ");"]
  end.

(** One round of the loop, lines 1002-1025 *)
Definition instrument_var_t (n : name) (t : ctype) (print_strings : bool) (st : tstate)
  : list name * list name * tstate :=
  match type_format_and_size_t t print_strings with
  | None => ([], [], st)
  | Some (f, size) =>
      let '(ti, st1) := get_type_index_t t f size print_strings st in
      let '(ni, st2) := get_name_index_t n st1 in
      if print_strings && c_string_type_p t then
        ([], [dec ni ++ text ", " ++ dec ti ++ text ", strlen(" ++ n ++ text "), " ++ n], st2)
      else if print_strings && cpp_string_type_p t then
        ([], [dec ni ++ text ", " ++ dec ti ++ text ", (" ++ n ++ text ").length(), (" ++ n ++ text ").c_str()"], st2)
      else
        ([dec ni ++ text ", " ++ dec ti ++ text ", " ++ size ++ text ", " ++ f ++ text ", " ++ n], [], st2)
  end.
Fixpoint instrument_vars_t (l : list (name * ctype)) (print_strings : bool) (st : tstate)
  : list name * list name * tstate :=
  match l with
  | [] => ([], [], st)
  | (n, t) :: r =>
      let '(v1, b1, st1) := instrument_var_t n t print_strings st in
      let '(v2, b2, st2) := instrument_vars_t r print_strings st1 in
      (v1 ++ v2, b1 ++ b2, st2)
  end.

(** instrument-c-exprs, lines 907-1034: a list of texts *)
Definition instrument_c_exprs_t (l : list (name * ctype)) (print_strings : bool) (st : tstate)
  : list name * tstate :=
  let '(vs, bs, st1) := instrument_vars_t l print_strings st in
  (function_call (text "__write_trace_variables") vs ++ function_call (text "__write_trace_blobs") bs, st1).

(** lines 477-480 *)
Fixpoint extra_stmts_t (groups : list (bool * list (name * ctype))) (st : tstate) : list name * tstate :=
  match groups with
  | [] => ([], st)
  | (ps, l) :: r =>
      let '(s1, st1) := instrument_c_exprs_t l ps st in
      let '(s2, st2) := extra_stmts_t r st1 in
      (s1 ++ s2, st2)
  end.

(** write-trace-id, lines 1038-1048; write-end-entry, lines 1050-1058 *)
Definition write_trace_id_t (id : N) : name :=
  x0a :: text "__write_trace_id(" ++ log_name ++ text ", " ++ lock_name ++ text ", " ++ dec id ++ text "u);".
Definition write_end_entry_t : name :=
  text "__write_end_entry(" ++ log_name ++ text ", " ++ lock_name ++ text ");" ++ [x0a].

(** The text inserted before (or after) an AST, instrument-ast, lines 456-470:
    text fragments one after the other. *)
Definition instrument_ast_t (id : N) (groups : list (bool * list (name * ctype))) (st : tstate) : name * tstate :=
  let '(extra, st1) := extra_stmts_t groups st in
  (concat (write_trace_id_t id :: extra ++ [write_end_entry_t]), st1).

(** All places of a program, in the order they are instrumented. *)
Fixpoint instrument_all_t (sites : list (N * list (bool * list (name * ctype)))) (st : tstate) : list name * tstate :=
  match sites with
  | [] => ([], st)
  | (id, groups) :: r =>
      let '(s1, st1) := instrument_ast_t id groups st in
      let '(s2, st2) := instrument_all_t r st1 in
      (s1 :: s2, st2)
  end.

(** ** Setup code *)

(** names-initialization-str, lines 1091-1100, from the alist of the table *)
Definition names_initialization (alist : list (name * N)) : name :=
  match alist with
  | [] => text "const char **names = NULL"
  | _ => text "const char *names[] = {" ++
         concat (map (fun p => lisp_print (fst p) ++ text ", ") (sort_by snd alist)) ++ text "}"
  end.

(** types-initialization-str, lines 1101-1110, from the alist of the
    descriptions and the table of types *)
Definition types_initialization (types : list (tkey * N)) (alist : list (tkey * name)) : name :=
  match types with
  | [] => text "const __trace_type_description *types = NULL"
  | _ => text "const __trace_type_description types[] = {" ++
         concat (map (fun p => snd p ++ text ", ")
           (sort_by (fun p => match gethash (key_test test) (fst p) types with Some i => i | None => 0 end) alist)) ++
         text "}"
  end.
End Emit.

(** :trace-file and :trace-env *)
Inductive trace_file := FStderr | FStdout | FName (path : name) | FNone.

(** file-open-str, lines 1075-1085 *)
Definition file_open (f : trace_file) (env : option name) : name :=
  match f with
  | FStderr => text "stderr"
  | FStdout => text "stdout"
  | FName p => text "fopen(" ++ lisp_print p ++ text ", ""w"")"
  | FNone =>
      match env with
      | Some e => text "fopen(getenv(" ++ e ++ text "), ""w"")"
      | None => text "fopen(buffer, ""w"")"
      end
  end.

(** +write-trace-initialization+, lines 299-342, cut at the directives; the
    macro is __GT_TRACEDB_ENTRY_POINT (line 28). *)
Definition setup_1 : name := text "
#ifdef __GT_TRACEDB_ENTRY_POINT

#include <pthread.h>
#include <stdio.h>
#include <string.h>
#include <stdlib.h>
#include <unistd.h>

void * __sel_trace_file;
void * __sel_trace_file_lock;

void __attribute__((constructor(101))) __bi_setup() {
  static pthread_mutex_t __static_lock;
  FILE *handshake_file = NULL;
  const char *handshake_file_path = getenv(""".
Definition setup_2 : name := text """);
  char buffer[1024] = ""/dev/null"";

  if (handshake_file_path) {
    while (access(handshake_file_path, 0) != 0) { sleep(1); }
    handshake_file = fopen(handshake_file_path, ""r"");
    do { sleep(1); } while (fgets(buffer, 1024, handshake_file) == NULL);
    buffer[strcspn(buffer, ""\n"")] = 0;
    fclose(handshake_file);
    unlink(handshake_file_path);
  }

  __sel_trace_file = ".
Definition setup_3 : name := text ";
  __sel_trace_file_lock = &__static_lock;
  ".
Definition setup_4 : name := text ";
  ".
Definition setup_5 : name := text ";

  pthread_mutex_init( (pthread_mutex_t *) __sel_trace_file_lock, NULL);
  __write_trace_header(__sel_trace_file,
                       __sel_trace_file_lock,
                       names, ".
Definition setup_6 : name := text ",
                       types, ".
Definition setup_7 : name := text ");
}

#endif
".

(** initialize-tracing, lines 1065-1134 (the part with entry points): the text
    appended to the file.  [nal] and [tal]: the alists of the tables. *)
Definition setup_text (test : name -> name -> bool) (st : tstate) (nal : list (name * N)) (tal : list (tkey * name))
  (handshake : name) (f : trace_file) (env : option name) : name :=
  setup_1 ++ handshake ++ setup_2 ++ file_open f env ++ setup_3 ++ names_initialization nal ++ setup_4 ++
  types_initialization test (t_types st) tal ++ setup_5 ++ dec (lenN (t_names st)) ++ setup_6 ++
  dec (lenN (t_types st)) ++ setup_7.

(** The enumerations of +write-trace-forward-declarations+, lines 31-58. *)
Definition declared_enums : name := text "
enum __type_format {
    __GT_TRACEDB_UNSIGNED,       /* unsigned integer */
    __GT_TRACEDB_SIGNED,         /* signed integer */
    __GT_TRACEDB_FLOAT,          /* floating point */
    __GT_TRACEDB_POINTER,        /* unsigned, interpret as address */
    __GT_TRACEDB_BLOB,           /* arbitrary bytes, do not interpret */
    __GT_TRACEDB_INVALID_FORMAT
};

enum __trace_entry_tag {
    __GT_TRACEDB_END_ENTRY = 0,
    __GT_TRACEDB_STATEMENT_ID,
    __GT_TRACEDB_VARIABLE,
    __GT_TRACEDB_BUFFER_SIZE,
    __GT_TRACEDB_AUXILIARY,
    __GT_TRACEDB_TRACE_TAG_ERROR,
    /* Returned at EOF, should not appear in trace */
    __GT_TRACEDB_END_OF_TRACE
};
".
