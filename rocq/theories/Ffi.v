(** Model of the foreign function interface between the Lisp client and the
    library at the level of bytes: the structures of trace.h:24-40 and
    trace-db.h:78-112 as the C++ compiler lays them out, the defcenum, defcstruct
    and defcfun declarations of binary-trace-db.lisp as CFFI lays them out, and
    the code of both sides that reads and writes these structures.

    The machine is x86-64 with the System V ABI: little endian, the alignment of a
    scalar is its size, a member starts at the next multiple of its alignment, the
    size of a structure is a multiple of its alignment.  CFFI uses the same rule,
    applied to the Lisp declarations.  Addresses do not wrap around. *)
From Coq Require Import Strings.String.
From Verif Require Import Base Types Compare Predicate Query CApi Lisp.

(** ** Memory *)
Definition memory := N -> byte.
Definition load (m : memory) (a : N) (n : nat) : list byte :=
  map (fun i => m (a + N.of_nat i)) (seq 0 n).
Definition put (m : memory) (a : N) (bs : list byte) : memory := fun x =>
  if (a <=? x) && (x <? a + lenN bs) then nth (N.to_nat (x - a)) bs x00 else m x.

(** ** Scalars.  Floats are represented by their bits. *)
Inductive fty := TU8 | TU32 | TI32 | TU64 | TI64 | TF32 | TF64 | TPtr.
Definition size (t : fty) : N :=
  match t with TU8 => 1 | TU32 | TI32 | TF32 => 4 | _ => 8 end.
Definition signed (t : fty) : bool := match t with TI32 | TI64 => true | _ => false end.
Definition modulus (t : fty) : Z := (2 ^ (8 * Z.of_N (size t)))%Z.

(** The values of a type. *)
Definition in_range (t : fty) (z : Z) : bool :=
  if signed t then ((- (modulus t / 2) <=? z) && (z <? modulus t / 2))%Z
  else ((0 <=? z) && (z <? modulus t))%Z.
Definition encode (t : fty) (z : Z) : list byte := le_bytes (N.to_nat (size t)) (Z.to_N (z mod modulus t)).
Definition decode (t : fty) (bs : list byte) : Z :=
  let u := Z.of_N (le_val bs) in
  if signed t && (modulus t / 2 <=? u)%Z then (u - modulus t)%Z else u.
Definition read (t : fty) (m : memory) (a : N) : Z := decode t (load m a (N.to_nat (size t))).
Definition write (t : fty) (z : Z) (m : memory) (a : N) : memory := put m a (encode t z).

(** ** Structures *)
Definition decl := list (string * fty).
Definition round_up (o n : N) : N := (o + n - 1) / n * n.
Fixpoint layout (o : N) (d : decl) : list (string * (N * fty)) :=
  match d with
  | [] => []
  | (f, t) :: r => let a := round_up o (size t) in (f, (a, t)) :: layout (a + size t) r
  end.
Definition struct_align (d : decl) : N := fold_right N.max 1 (map (fun x => size (snd x)) d).
Definition struct_end (d : decl) : N :=
  match rev (layout 0 d) with (_, (a, t)) :: _ => a + size t | [] => 0 end.
Definition sizeof (d : decl) : N := round_up (struct_end d) (struct_align d).
Fixpoint find_field (l : list (string * (N * fty))) (f : string) : option (N * fty) :=
  match l with
  | [] => None
  | (g, x) :: r => if String.eqb f g then Some x else find_field r f
  end.
(** p->f *)
Definition get (d : decl) (m : memory) (a : N) (f : string) : Z :=
  match find_field (layout 0 d) f with Some (o, t) => read t m (a + o) | None => 0%Z end.
Definition set (d : decl) (f : string) (z : Z) (m : memory) (a : N) : memory :=
  match find_field (layout 0 d) f with Some (o, t) => write t z m (a + o) | None => m end.

Local Open Scope string_scope.

(** ** Declarations of the library *)

(** enum type_format, TypeDescription.hpp:28-35 *)
Definition c_type_format : list string :=
  ["UNSIGNED"; "SIGNED"; "FLOAT"; "POINTER"; "BLOB"; "INVALID_FORMAT"].
(** enum predicate_kind, QueryObjects.hpp:32-63 *)
Definition c_predicate_kind : list string :=
  ["NULL_PREDICATE"; "VAR_REFERENCE"; "VAR_SIZE"; "VAR_VALUE"; "DISTINCT_VARS"; "SIGNED_VALUE";
   "UNSIGNED_VALUE"; "FLOAT_VALUE"; "AND"; "OR"; "NOT"; "GREATER_THAN"; "GREATER_THAN_OR_EQUAL";
   "LESS_THAN"; "LESS_THAN_OR_EQUAL"; "EQUAL"; "ADD"; "SUBTRACT"; "MULTIPLY"; "DIVIDE"].
(** c_trace_var_info_struct, trace.h:24-32.  An enum without negative enumerators is
    an unsigned int; the union VarValue (TraceVarInfo.hpp:34-40) has the size and the
    alignment of its 64-bit members, all of its members start at its start. *)
Definition c_var_info : decl :=
  [("value", TU64); ("format", TU32); ("var_name_index", TU32); ("type_name_index", TU32);
   ("size", TU32); ("buffer_size", TU64); ("has_buffer_size", TU8)].
(** c_trace_point_struct, trace.h:34-40 *)
Definition c_trace_point : decl :=
  [("statement", TU64); ("vars", TPtr); ("n_vars", TU32); ("aux", TPtr); ("n_aux", TU32)].
(** c_predicate, trace-db.h:78-91 *)
Definition c_predicate : decl :=
  [("kind", TU32); ("n_children", TU64); ("var_index", TU64); ("unsigned_value", TU64);
   ("signed_value", TI64); ("float_value", TF64); ("children", TPtr)].
(** c_free_variable, trace-db.h:107-112 *)
Definition c_free_variable : decl := [("n_allowed_types", TU32); ("allowed_types", TPtr)].

(** The functions of trace.h:50-98 and trace-db.h:15-63, 96, 144-150: arguments and
    result ([None]: void). *)
Definition signature : Type := string * (list fty * option fty).
Definition c_functions : list signature :=
  [("read_trace", ([TPtr; TU32; TU64], Some TPtr));
   ("trace_size", ([TPtr], Some TU64));
   ("get_points", ([TPtr], Some TPtr));
   ("n_types", ([TPtr], Some TU32));
   ("get_types", ([TPtr], Some TPtr));
   ("n_names", ([TPtr], Some TU32));
   ("get_names", ([TPtr], Some TPtr));
   ("free_trace", ([TPtr], None));
   ("free_trace_points", ([TPtr; TU64], None));
   ("create_db", ([], Some TPtr));
   ("add_trace", ([TPtr; TPtr; TU32; TU64], Some TI32));
   ("add_trace_points", ([TPtr; TPtr; TU64; TPtr; TU32], Some TI32));
   ("get_trace", ([TPtr; TU32], Some TPtr));
   ("n_traces", ([TPtr], Some TU32));
   ("serialize_trace_db", ([TPtr], Some TPtr));
   ("deserialize_trace_db", ([TPtr], Some TPtr));
   ("free_db", ([TPtr], None));
   ("query_trace", ([TPtr; TU64; TPtr; TU32; TPtr; TPtr; TU32; TU32; TU8; TU64; TU64; TPtr; TPtr], None));
   ("free_c_predicate", ([TPtr], None))].

(** ** Declarations of the Lisp client *)

(** defcenum type-format, binary-trace-db.lisp:43-49; the base type is :int *)
Definition l_type_format : list string :=
  ["unsigned"; "signed"; "float"; "pointer"; "blob"; "invalid-format"].
(** defcenum predicate-kind, lines 391-411 *)
Definition l_predicate_kind : list string :=
  ["null-predicate"; "var-reference"; "var-size"; "var-value"; "distinct-vars"; "signed-value";
   "unsigned-value"; "float-value"; "and"; "or"; "not"; "greater-than"; "greater-than-or-equal";
   "less-than"; "less-than-or-equal"; "equal"; "add"; "subtract"; "multiply"; "divide"].
(** defcstruct var-info, lines 51-61 *)
Definition l_var_info : decl :=
  [("value", TU64); ("format", TI32); ("var-name-index", TU32); ("type-name-index", TU32);
   ("size", TU32); ("buffer-size", TU64); ("has-buffer-size", TU8)].
(** defcstruct trace-point, lines 63-68 *)
Definition l_trace_point : decl :=
  [("statement", TU64); ("vars", TPtr); ("n-vars", TU32); ("aux", TPtr); ("n-aux", TU32)].
(** defcstruct c-predicate, lines 413-425 *)
Definition l_predicate : decl :=
  [("kind", TI32); ("n-children", TU64); ("var-index", TU64); ("unsigned-value", TU64);
   ("signed-value", TI64); ("float-value", TF64); ("children", TPtr)].
(** defcstruct c-free-variable, lines 425-427 *)
Definition l_free_variable : decl := [("n-allowed-types", TU32); ("allowed-types", TPtr)].

(** defcfun, lines 136-164, 218-240, 431-447.  :string arguments and results are
    pointers. *)
Definition l_functions : list signature :=
  [("read_trace", ([TPtr; TU32; TU64], Some TPtr));
   ("trace_size", ([TPtr], Some TU64));
   ("get_points", ([TPtr], Some TPtr));
   ("n_types", ([TPtr], Some TU32));
   ("get_types", ([TPtr], Some TPtr));
   ("n_names", ([TPtr], Some TU32));
   ("get_names", ([TPtr], Some TPtr));
   ("free_trace", ([TPtr], None));
   ("free_trace_points", ([TPtr; TU64], None));
   ("create_db", ([], Some TPtr));
   ("add_trace", ([TPtr; TPtr; TI32; TU64], Some TI32));
   ("add_trace_points", ([TPtr; TPtr; TU64; TPtr; TU32], Some TI32));
   ("get_trace", ([TPtr; TU32], Some TPtr));
   ("n_traces", ([TPtr], Some TU32));
   ("serialize_trace_db", ([TPtr], Some TPtr));
   ("deserialize_trace_db", ([TPtr], Some TPtr));
   ("free_db", ([TPtr], None));
   ("query_trace", ([TPtr; TU64; TPtr; TU32; TPtr; TPtr; TU32; TU32; TU8; TU64; TU64; TPtr; TPtr], None));
   ("free_c_predicate", ([TPtr], None))].

(** ** Enumerations *)
Fixpoint index_of (s : string) (l : list string) : option Z :=
  match l with
  | [] => None
  | x :: r => if String.eqb s x then Some 0%Z else option_map (fun i => (i + 1)%Z) (index_of s r)
  end.
(** the enumerator with a code *)
Definition enumerator (l : list string) (z : Z) : option string :=
  if (z <? 0)%Z then None else nthN l (Z.to_N z).
(** value of an enumerator; 0 for an unknown name *)
Definition code (l : list string) (s : string) : Z :=
  match index_of s l with Some z => z | None => 0%Z end.

(** The enumerators of the model's types. *)
Definition c_format_name (f : fmt) : string :=
  match f with
  | UNSIGNED => "UNSIGNED" | SIGNED => "SIGNED" | FLOAT => "FLOAT" | POINTER => "POINTER"
  | BLOB => "BLOB" | INVALID_FORMAT => "INVALID_FORMAT"
  end.
Definition c_kind_of (s : string) : option pkind :=
  if String.eqb s "NULL_PREDICATE" then Some NULL_PREDICATE
  else if String.eqb s "VAR_REFERENCE" then Some VAR_REFERENCE
  else if String.eqb s "VAR_SIZE" then Some VAR_SIZE
  else if String.eqb s "VAR_VALUE" then Some VAR_VALUE
  else if String.eqb s "DISTINCT_VARS" then Some DISTINCT_VARS
  else if String.eqb s "SIGNED_VALUE" then Some SIGNED_VALUE
  else if String.eqb s "UNSIGNED_VALUE" then Some UNSIGNED_VALUE
  else if String.eqb s "FLOAT_VALUE" then Some FLOAT_VALUE
  else if String.eqb s "AND" then Some AND
  else if String.eqb s "OR" then Some OR
  else if String.eqb s "NOT" then Some NOT
  else if String.eqb s "GREATER_THAN" then Some GREATER_THAN
  else if String.eqb s "GREATER_THAN_OR_EQUAL" then Some GREATER_THAN_OR_EQUAL
  else if String.eqb s "LESS_THAN" then Some LESS_THAN
  else if String.eqb s "LESS_THAN_OR_EQUAL" then Some LESS_THAN_OR_EQUAL
  else if String.eqb s "EQUAL" then Some EQUAL
  else if String.eqb s "ADD" then Some ADD
  else if String.eqb s "SUBTRACT" then Some SUBTRACT
  else if String.eqb s "MULTIPLY" then Some MULTIPLY
  else if String.eqb s "DIVIDE" then Some DIVIDE
  else None.
(** The keywords that build-predicate stores, lines 460-503. *)
Definition l_kind_keyword (k : pkind) : string :=
  match k with
  | NULL_PREDICATE => "null-predicate" | VAR_REFERENCE => "var-reference" | VAR_SIZE => "var-size"
  | VAR_VALUE => "var-value" | DISTINCT_VARS => "distinct-vars" | SIGNED_VALUE => "signed-value"
  | UNSIGNED_VALUE => "unsigned-value" | FLOAT_VALUE => "float-value" | AND => "and" | OR => "or"
  | NOT => "not" | GREATER_THAN => "greater-than" | GREATER_THAN_OR_EQUAL => "greater-than-or-equal"
  | LESS_THAN => "less-than" | LESS_THAN_OR_EQUAL => "less-than-or-equal" | EQUAL => "equal"
  | ADD => "add" | SUBTRACT => "subtract" | MULTIPLY => "multiply" | DIVIDE => "divide"
  end.

(** ** Reading trace points in Lisp *)

(** The value of a variable, binary-trace-db.lisp:79-98: the type with which the
    first bytes of the structure are read depends on format and size.  [None]: the
    ecase of lines 80-86 signals an error. *)
Definition l_value_type (format : string) (sz : Z) : option fty :=
  if String.eqb format "unsigned" then Some TU64
  else if String.eqb format "signed" then Some TI64
  else if String.eqb format "float" then Some (if (sz =? 4)%Z then TF32 else TF64)
  else if String.eqb format "pointer" then Some TU64
  else if String.eqb format "blob" then Some TPtr
  else None.
Definition l_read_value (m : memory) (a : N) : outcome lval :=
  match enumerator l_type_format (get l_var_info m a "format") with
  | None => Throw ELisp
  | Some format =>
      let sz := get l_var_info m a "size" in
      match l_value_type format sz with
      | None => Throw ELisp
      | Some t =>
          let z := read t m a in
          if String.eqb format "blob" then Ok (LBlob (load m (Z.to_N z) (Z.to_nat sz)))
          else if String.eqb format "float" then Ok (LFloat (size t) (Z.to_N z))
          else Ok (LInt z)
      end
  end.
(** lines 72-100 and 179-183 *)
Definition l_read_var (names : list name) (m : memory) (a : N) : outcome lvar :=
  x <- l_read_value m a ;;
  n <- aref names (Z.to_N (get l_var_info m a "var-name-index")) ;;
  t <- aref names (Z.to_N (get l_var_info m a "type-name-index")) ;;
  Ok (mkLV n t x (if (get l_var_info m a "has-buffer-size" =? 0)%Z then None
                  else Some (Z.to_N (get l_var_info m a "buffer-size")))).
(** mem-aref: element [i] of an array of elements of [w] bytes *)
Definition elements (a w : N) (n : nat) : list N := map (fun i => a + w * N.of_nat i) (seq 0 n).
(** lines 101-128 *)
Definition l_read_point (names : list name) (m : memory) (a : N) : outcome lpoint :=
  let stmt := Z.to_N (get l_trace_point m a "statement") in
  vs <- mapO (l_read_var names m)
          (elements (Z.to_N (get l_trace_point m a "vars")) (sizeof l_var_info) (Z.to_nat (get l_trace_point m a "n-vars"))) ;;
  Ok (mkLP (unpack_c stmt) (unpack_f stmt) vs
       (map (fun x => Z.to_N (read TU64 m x))
          (elements (Z.to_N (get l_trace_point m a "aux")) 8 (Z.to_nat (get l_trace_point m a "n-aux"))))).
(** lines 184-196, without the filter *)
Definition l_read_points (names : list name) (m : memory) (a : N) (n : nat) : outcome (list lpoint) :=
  mapO (l_read_point names m) (elements a (sizeof l_trace_point) n).

(** ** Writing trace points in the library *)

(** Memory of a process: the bytes, and the first address above all blocks. *)
Record proc := mkProc { pr_mem : memory; pr_brk : N }.

Section Write.
(** The allocator leaves some room before each block: anything. *)
Variable room : N -> N.
Definition alloc_block (n : N) (p : proc) : N * proc :=
  let a := 1 + pr_brk p + room (pr_brk p) in (a, mkProc (pr_mem p) (a + n)).
Definition on_mem (f : memory -> memory) (p : proc) : proc := mkProc (f (pr_mem p)) (pr_brk p).

(** The value: bits, or a pointer to the bytes of a blob.  The blob was allocated
    when the trace was read; here it is allocated on the way. *)
Definition c_put_value (v : value) (p : proc) : N * proc :=
  match v with
  | VBits u => (u, p)
  | VBlob bs => let '(b, p1) := alloc_block (lenN bs) p in (b, on_mem (fun m => put m b bs) p1)
  | VIndet => (0, p)
  end.
(** trace.cpp:126-138 *)
Definition c_put_var (v : cvar) (a : N) (p : proc) : proc :=
  let '(x, p1) := c_put_value (cv_value v) p in
  on_mem (fun m =>
    let m := set c_var_info "value" (Z.of_N x) m a in
    let m := set c_var_info "format" (code c_type_format (c_format_name (cv_format v))) m a in
    let m := set c_var_info "var_name_index" (Z.of_N (cv_name v)) m a in
    let m := set c_var_info "type_name_index" (Z.of_N (cv_tname v)) m a in
    let m := set c_var_info "size" (Z.of_N (cv_size v)) m a in
    let m := set c_var_info "buffer_size" (Z.of_N (cv_bsz v)) m a in
    set c_var_info "has_buffer_size" (Z.of_N (cv_has v)) m a) p1.
Fixpoint c_put_vars (vs : list cvar) (a : N) (p : proc) : proc :=
  match vs with
  | [] => p
  | v :: r => c_put_vars r (a + sizeof c_var_info) (c_put_var v a p)
  end.
Fixpoint c_put_words (us : list N) (a : N) (m : memory) : memory :=
  match us with
  | [] => m
  | u :: r => c_put_words r (a + 8) (write TU64 (Z.of_N u) m a)
  end.
(** trace.cpp:108-141 *)
Definition c_put_point (x : ipoint) (a : N) (p : proc) : proc :=
  let '(va, p1) := alloc_block (sizeof c_var_info * lenN (ip_vars x)) p in
  let '(xa, p2) := alloc_block (8 * lenN (ip_aux x)) p1 in
  let p3 := on_mem (fun m =>
    let m := set c_trace_point "statement" (Z.of_N (ip_stmt x)) m a in
    let m := set c_trace_point "vars" (Z.of_N va) m a in
    let m := set c_trace_point "n_vars" (Z.of_N (lenN (ip_vars x))) m a in
    let m := set c_trace_point "aux" (Z.of_N xa) m a in
    set c_trace_point "n_aux" (Z.of_N (lenN (ip_aux x))) m a) p2 in
  c_put_vars (ip_vars x) va (on_mem (c_put_words (ip_aux x) xa) p3).
Fixpoint c_put_points (xs : list ipoint) (a : N) (p : proc) : proc :=
  match xs with
  | [] => p
  | x :: r => c_put_points r (a + sizeof c_trace_point) (c_put_point x a p)
  end.
(** points_to_array, trace.cpp:97-145 *)
Definition c_points_array (xs : list ipoint) (p : proc) : N * proc :=
  let '(a, p1) := alloc_block (sizeof c_trace_point * lenN xs) p in (a, c_put_points xs a p1).

(** ** Writing queries in Lisp *)

(** build-predicate, binary-trace-db.lisp:455-522, with create-foreign-array, lines
    449-453: the structures of the arguments are built before the array is
    allocated, the array is filled then. *)
Fixpoint l_put_pred (c : cpred) (p : proc) : list (string * Z) * proc :=
  let 'CPred k n vi u s f cs := c in
  let '(children, p') :=
    match cs with
    | None => (0, p)
    | Some l =>
        let '(rows, p1) :=
          (fix go (l : list cpred) (p : proc) : list (list (string * Z)) * proc :=
             match l with
             | [] => ([], p)
             | c :: r => let '(x, p1) := l_put_pred c p in let '(xs, p2) := go r p1 in (x :: xs, p2)
             end) l p in
        let '(a, p2) := alloc_block (sizeof l_predicate * lenN l) p1 in
        (a, on_mem (fun m => fst (fold_left (fun s row =>
               (fold_left (fun m fz => set l_predicate (fst fz) (snd fz) m (snd s)) row (fst s), snd s + sizeof l_predicate))
               rows (m, a))) p2)
    end in
  ([("kind", code l_predicate_kind (l_kind_keyword k)); ("n-children", Z.of_N n); ("var-index", Z.of_N vi);
    ("unsigned-value", Z.of_N u); ("signed-value", s64 s); ("float-value", Z.of_N f);
    ("children", Z.of_N children)], p').
(** lines 517-522; the address of the structure, 0 for NULL *)
Definition l_put_predicate (c : option cpred) (p : proc) : N * proc :=
  match c with
  | None => (0, p)
  | Some c =>
      let '(a, p1) := alloc_block (sizeof l_predicate) p in
      let '(row, p2) := l_put_pred c p1 in
      (a, on_mem (fun m => fold_left (fun m fz => set l_predicate (fst fz) (snd fz) m a) row m) p2)
  end.
(** the array of free variables, lines 539-548 *)
Fixpoint l_put_words32 (us : list N) (a : N) (m : memory) : memory :=
  match us with
  | [] => m
  | u :: r => l_put_words32 r (a + 4) (write TU32 (Z.of_N u) m a)
  end.
Fixpoint l_fill_free (ts : list (list N)) (a : N) (p : proc) : proc :=
  match ts with
  | [] => p
  | us :: r =>
      let '(b, p1) := alloc_block (4 * lenN us) p in
      l_fill_free r (a + sizeof l_free_variable)
        (on_mem (fun m =>
           let m := l_put_words32 us b m in
           let m := set l_free_variable "n-allowed-types" (Z.of_N (lenN us)) m a in
           set l_free_variable "allowed-types" (Z.of_N b) m a) p1)
  end.
Definition l_put_free (ts : list (list N)) (p : proc) : N * proc :=
  let '(a, p1) := alloc_block (sizeof l_free_variable * lenN ts) p in (a, l_fill_free ts a p1).
End Write.

(** ** Reading queries in the library *)

(** create_predicate_obj, trace-db.cpp:199-242: what it finds behind a pointer.
    [fuel] bounds the depth. *)
Fixpoint c_read_pred (fuel : nat) (m : memory) (a : N) : option cpred :=
  match fuel with
  | O => None
  | S fuel' =>
      match enumerator c_predicate_kind (get c_predicate m a "kind") with
      | None => None
      | Some s =>
          match c_kind_of s with
          | None => None
          | Some k =>
              let n := Z.to_N (get c_predicate m a "n_children") in
              let children := Z.to_N (get c_predicate m a "children") in
              match
                (if (children =? 0)%N then Some None
                 else option_map Some
                   ((fix go (l : list N) : option (list cpred) :=
                       match l with
                       | [] => Some []
                       | x :: r => match c_read_pred fuel' m x, go r with
                                   | Some c, Some cs => Some (c :: cs)
                                   | _, _ => None
                                   end
                       end) (elements children (sizeof c_predicate) (N.to_nat n))))
              with
              | None => None
              | Some cs =>
                  Some (CPred k n (Z.to_N (get c_predicate m a "var_index"))
                          (Z.to_N (get c_predicate m a "unsigned_value"))
                          (Z.to_N (get c_predicate m a "signed_value" mod 2 ^ 64))
                          (Z.to_N (get c_predicate m a "float_value")) cs)
              end
          end
      end
  end.
Definition c_read_predicate (fuel : nat) (m : memory) (a : N) : option (option cpred) :=
  if (a =? 0)%N then Some None else option_map Some (c_read_pred fuel m a).
(** create_free_variable_obj, trace-db.cpp:191-197, for each element of the array *)
Definition c_read_free (m : memory) (a : N) (n : nat) : list (list N) :=
  map (fun x => map (fun y => Z.to_N (read TU32 m y))
                  (elements (Z.to_N (get c_free_variable m x "allowed_types")) 4
                     (Z.to_nat (get c_free_variable m x "n_allowed_types"))))
    (elements a (sizeof c_free_variable) n).

(** ** Calls *)

(** An argument in a register or stack slot: the bytes of the value, then bytes that
    the ABI does not specify. *)
Definition pass_word (t : fty) (z : Z) (junk : list byte) : list byte :=
  encode t z ++ firstn (8 - N.to_nat (size t)) junk.
Definition take_word (t : fty) (w : list byte) : Z := decode t (firstn (N.to_nat (size t)) w).

(** The signature of a function on one side. *)
Fixpoint find_sig (l : list signature) (f : string) : option (list fty * option fty) :=
  match l with
  | [] => None
  | (g, x) :: r => if String.eqb f g then Some x else find_sig r f
  end.
(** What the library receives when Lisp calls the function [f]: Lisp signals an
    error if a value does not belong to the declared type. *)
Definition call_args (f : string) (args : list Z) (junk : nat -> list byte) : outcome (list Z) :=
  match find_sig l_functions f, find_sig c_functions f with
  | Some (lt, _), Some (ct, _) =>
      if (length args =? length lt)%nat && forallb (fun x => in_range (fst x) (snd x)) (combine lt args) then
        Ok (map (fun x => take_word (fst x) (pass_word (fst (fst (snd x))) (snd (fst (snd x))) (junk (snd (snd x)))))
              (combine ct (combine (combine lt args) (seq 0 (length args)))))
      else Throw ELisp
  | _, _ => Throw ELisp
  end.
(** What Lisp receives when the library returns [z]. *)
Definition call_result (f : string) (z : Z) (junk : list byte) : option Z :=
  match find_sig l_functions f, find_sig c_functions f with
  | Some (_, Some lt), Some (_, Some ct) => Some (take_word lt (pass_word ct z junk))
  | _, _ => None
  end.
