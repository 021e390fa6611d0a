(** Model of predicate values as objects that own memory (class PredicateValue,
    QueryObjects.hpp:305-503) and of their evaluation with the copies that a
    compiler may or may not elide (the project is compiled as C++11,
    Makefile:43, where elision is optional). *)
From Verif Require Import Base Types Compare Predicate.

Section Owned.
Variable O : fops.

(** A number on the heap: cpp_int or cpp_dec_float_50. *)
Inductive num := NInt (z : Z) | NFloat (x : F O).
(** Live blocks with contents, the next address, and the number of copies that
    could be elided so far. *)
Record heap := mkH { h_next : N; h_live : list (N * num); h_copies : nat }.

(** QueryObjects.hpp:332-334: m_is_valid, m_kind (true: CPP_INT) and the pointer of
    m_value, [None] if null *)
Record obj := mkO { o_valid : bool; o_int : bool; o_ptr : option N }.

Definition own (A : Type) : Type := heap -> outcome (A * heap).
Definition oret {A} (a : A) : own A := fun h => Ok (a, h).
Definition ofail {A} (o : outcome A) : own A := fun h => a <- o ;; Ok (a, h).
Definition obind {A B} (m : own A) (f : A -> own B) : own B := fun h =>
  match m h with
  | Ok (a, h') => f a h'
  | Throw e => Throw e
  | UB k => UB k
  | Abort => Abort
  | Diverge => Diverge
  end.
Notation "x <~ o ;; k" := (obind o (fun x => k)) (at level 61, o at next level, right associativity).

(** new *)
Definition alloc_num (n : num) : own N := fun h =>
  Ok (h_next h, mkH (h_next h + 1) ((h_next h, n) :: h_live h) (h_copies h)).
(** delete *)
Definition delete_num (p : option N) : own unit := fun h =>
  match p with
  | None => Ok (tt, h)
  | Some a => if existsb (fun e => fst e =? a) (h_live h)
              then Ok (tt, mkH (h_next h) (filter (fun e => negb (fst e =? a)) (h_live h)) (h_copies h))
              else UB UBadFree
  end.
(** *p *)
Definition deref (p : option N) : own num := fun h =>
  match p with
  | None => UB UNull
  | Some a => match find (fun e => fst e =? a) (h_live h) with
              | Some (_, n) => Ok (n, h)
              | None => UB UDangling
              end
  end.
(** *m_value.cpp_int and *m_value.cpp_float; the wrong member of the union *)
Definition deref_int (p : option N) : own Z :=
  n <~ deref p ;; match n with NInt z => oret z | NFloat _ => ofail (UB UUninit) end.
Definition deref_float (p : option N) : own (F O) :=
  n <~ deref p ;; match n with NFloat x => oret x | NInt _ => ofail (UB UUninit) end.

(** QueryObjects.hpp:378-382 *)
Definition new_invalid : obj := mkO false true None.
(** QueryObjects.hpp:400-434, the constructors from a number *)
Definition new_int (z : Z) : own obj := a <~ alloc_num (NInt z) ;; oret (mkO true true (Some a)).
Definition new_float (x : F O) : own obj := a <~ alloc_num (NFloat x) ;; oret (mkO true false (Some a)).
(** QueryObjects.hpp:384-398 *)
Definition copy (o : obj) : own obj :=
  if o_int o then z <~ deref_int (o_ptr o) ;; a <~ alloc_num (NInt z) ;; oret (mkO (o_valid o) true (Some a))
  else x <~ deref_float (o_ptr o) ;; a <~ alloc_num (NFloat x) ;; oret (mkO (o_valid o) false (Some a)).
(** QueryObjects.hpp:436-443 *)
Definition destroy (o : obj) : own unit := delete_num (o_ptr o).

(** [elide n]: the compiler elides the [n]-th copy (any choice, also one that
    differs between executions of one statement). *)
Variable elide : nat -> bool.

(** A temporary that is copied to its destination and destroyed, unless elided. *)
Definition pass (o : obj) : own obj := fun h =>
  let h' := mkH (h_next h) (h_live h) (S (h_copies h)) in
  if elide (h_copies h) then Ok (o, h')
  else (o' <~ copy o ;; _ <~ destroy o ;; oret o') h'.

(** QueryObjects.hpp:361-371 (and 486-495): the operands as floats *)
Definition as_float (o : obj) : own (F O) :=
  if o_int o then z <~ deref_int (o_ptr o) ;; oret (f_of_Z O z) else deref_float (o_ptr o).

(** operation, integer_operation and float_operation for values,
    QueryObjects.hpp:336-375: [ReturnType(...)] or [ReturnType()] is returned by the
    inner function, its result returned again by [operation]. *)
Definition operation (iop : Z -> Z -> Z) (fop : F O -> F O -> F O) (a b : obj) : own obj :=
  if negb (o_valid a && o_valid b) then pass new_invalid
  else if o_int a && o_int b then
    x <~ deref_int (o_ptr a) ;; y <~ deref_int (o_ptr b) ;;
    r <~ new_int (iop x y) ;; r <~ pass r ;; pass r
  else
    x <~ as_float a ;; y <~ as_float b ;;
    r <~ new_float (fop x y) ;; r <~ pass r ;; pass r.
(** The same for comparisons: [bool()] is false. *)
Definition comparison (iop : Z -> Z -> bool) (fop : F O -> F O -> bool) (a b : obj) : own bool :=
  if negb (o_valid a && o_valid b) then oret false
  else if o_int a && o_int b then
    x <~ deref_int (o_ptr a) ;; y <~ deref_int (o_ptr b) ;; oret (iop x y)
  else x <~ as_float a ;; y <~ as_float b ;; oret (fop x y).

(** operator+, - and *, QueryObjects.hpp:467-477 *)
Definition o_arith (iop : Z -> Z -> Z) (fop : F O -> F O -> F O) (a b : obj) : own obj :=
  r <~ operation iop fop a b ;; pass r.
(** operator/, QueryObjects.hpp:479-502 *)
Definition o_div (a b : obj) : own obj :=
  if negb (o_valid a && o_valid b) then pass new_invalid
  else
    zero <~ (if o_int b then y <~ deref_int (o_ptr b) ;; oret (y =? 0)%Z
             else y <~ deref_float (o_ptr b) ;; oret (f_is_zero O y)) ;;
    if zero : bool then pass new_invalid
    else x <~ as_float a ;; y <~ as_float b ;; r <~ new_float (f_div O x y) ;; pass r.

Variable vars : list var.

(** evaluate_binary_op, QueryObjects.hpp:521-531: the operands are copied to v0 and
    v1; the result of std::plus etc. (which returns x + y) is returned, then v1 and
    v0 are destroyed. *)
Definition with_operands {A} (e0 e1 : own obj) (f : obj -> obj -> own A) : own A :=
  v0 <~ e0 ;; v0 <~ pass v0 ;;
  v1 <~ e1 ;; v1 <~ pass v1 ;;
  r <~ f v0 v1 ;;
  _ <~ destroy v1 ;; _ <~ destroy v0 ;;
  oret r.
Definition functor (op : obj -> obj -> own obj) (a b : obj) : own obj :=
  r <~ op a b ;; r <~ pass r ;; pass r.

(** QueryObjects.hpp:546-547: the result of ?: is a further temporary *)
Definition o_size (v : var) : own obj :=
  r <~ (if v_has v =? 0 then oret new_invalid else new_int (Z.of_N (v_bsz v))) ;;
  r <~ pass r ;; pass r.
(** QueryObjects.hpp:561-574 *)
Definition o_value (v : var) : own obj :=
  r <~ match v_fmt v with
       | UNSIGNED | POINTER => u <~ ofail (bits_of v) ;; new_int (Z.of_N u)
       | SIGNED => u <~ ofail (bits_of v) ;; new_int (s64 u)
       | FLOAT => u <~ ofail (bits_of v) ;; new_float (f_of_float O (u mod two32))
       | BLOB | INVALID_FORMAT => oret new_invalid
       end ;;
  pass r.

(** EvaluatePredicate::evaluate, QueryObjects.hpp:533-605 *)
Fixpoint o_evaluate (p : pred) : own obj :=
  let 'Pred k d cs := p in
  let binary (op : obj -> obj -> own obj) :=
    match cs with
    | [a; b] => r <~ with_operands (o_evaluate a) (o_evaluate b) (functor op) ;; pass r
    | _ => ofail Abort
    end in
  match k with
  | VAR_SIZE =>
      match cs with
      | [Pred VAR_REFERENCE i _] => v <~ ofail (var_at vars i) ;; o_size v
      | _ => ofail Abort
      end
  | VAR_VALUE =>
      match cs with
      | [Pred VAR_REFERENCE i _] => v <~ ofail (var_at vars i) ;; o_value v
      | _ => ofail Abort
      end
  | UNSIGNED_VALUE => r <~ new_int (Z.of_N d) ;; pass r
  | SIGNED_VALUE => r <~ new_int (s64 d) ;; pass r
  | FLOAT_VALUE => r <~ new_float (f_of_double O d) ;; pass r
  | ADD => binary (o_arith Z.add (f_add O))
  | SUBTRACT => binary (o_arith Z.sub (f_sub O))
  | MULTIPLY => binary (o_arith Z.mul (f_mul O))
  | DIVIDE => binary o_div
  | _ => ofail Abort
  end.

(** EvaluatePredicate::predicateSatisfied, QueryObjects.hpp:607-678 *)
Fixpoint o_satisfied (p : pred) : own bool :=
  let 'Pred k d cs := p in
  let cmp (iop : Z -> Z -> bool) (fop : F O -> F O -> bool) :=
    match cs with
    | [a; b] => with_operands (o_evaluate a) (o_evaluate b) (comparison iop fop)
    | _ => ofail Abort
    end in
  match k with
  | NULL_PREDICATE => oret true
  | AND => (fix all l := match l with
                         | [] => oret true
                         | c :: r => b <~ o_satisfied c ;; if b : bool then all r else oret false
                         end) cs
  | OR => (fix any l := match l with
                        | [] => oret false
                        | c :: r => b <~ o_satisfied c ;; if b : bool then oret true else any r
                        end) cs
  | NOT => match cs with
           | [c] => b <~ o_satisfied c ;; oret (negb b)
           | _ => ofail Abort
           end
  | DISTINCT_VARS =>
      match cs with
      | [Pred VAR_REFERENCE i _; Pred VAR_REFERENCE j _] =>
          a <~ ofail (var_at vars i) ;; b <~ ofail (var_at vars j) ;; oret (negb (var_eqb a b))
      | _ => ofail Abort
      end
  | GREATER_THAN => cmp Z.gtb (f_gt O)
  | GREATER_THAN_OR_EQUAL => cmp Z.geb (f_ge O)
  | LESS_THAN => cmp Z.ltb (f_lt O)
  | LESS_THAN_OR_EQUAL => cmp Z.leb (f_le O)
  | EQUAL => cmp Z.eqb (f_eq O)
  | _ => ofail Abort
  end.
End Owned.
