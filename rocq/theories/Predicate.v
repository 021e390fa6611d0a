(** Model of predicates and their evaluation (QueryObjects.hpp). *)
From Verif Require Import Base Types Compare.

(** enum predicate_kind, QueryObjects.hpp:32-60 *)
Inductive pkind : Set :=
| NULL_PREDICATE
| VAR_REFERENCE | VAR_SIZE | VAR_VALUE | DISTINCT_VARS
| SIGNED_VALUE | UNSIGNED_VALUE | FLOAT_VALUE
| AND | OR | NOT
| GREATER_THAN | GREATER_THAN_OR_EQUAL | LESS_THAN | LESS_THAN_OR_EQUAL | EQUAL
| ADD | SUBTRACT | MULTIPLY | DIVIDE.

(** class Predicate, QueryObjects.hpp:71-76.  The union predicate_data (62-69)
    is its 64 bits; the cached m_hash is a function of the other members. *)
Inductive pred := Pred (k : pkind) (data : N) (children : list pred).

(** Floating point numbers of the evaluator
    (boost::multiprecision::cpp_dec_float_50) are left abstract: every theorem
    about evaluation holds for any such operations. *)
Record fops := mkFops {
  F : Type;
  f_of_float : N -> F;      (* from the 32 bits of a float *)
  f_of_double : N -> F;     (* from the 64 bits of a double *)
  f_of_Z : Z -> F;          (* cpp_int::convert_to *)
  f_add : F -> F -> F; f_sub : F -> F -> F; f_mul : F -> F -> F; f_div : F -> F -> F;
  f_lt : F -> F -> bool; f_le : F -> F -> bool; f_gt : F -> F -> bool; f_ge : F -> F -> bool;
  f_eq : F -> F -> bool;
  f_is_zero : F -> bool     (* == 0 *)
}.

Section Eval.
Variable O : fops.

(** class PredicateValue, QueryObjects.hpp:305-375: a cpp_int (unbounded
    integer), a cpp_dec_float_50, or invalid (default constructed). *)
Inductive pval := PInvalid | PInt (z : Z) | PFloat (x : F O).

(** Operands converted by float_operation, QueryObjects.hpp:361-375. *)
Definition to_float (z : Z) : F O := f_of_Z O z.

(** PredicateValue::operation, QueryObjects.hpp:336-351 (ReturnType() is an
    invalid value, or false). *)
Definition arith (iop : Z -> Z -> Z) (fop : F O -> F O -> F O) (a b : pval) : pval :=
  match a, b with
  | PInvalid, _ | _, PInvalid => PInvalid
  | PInt x, PInt y => PInt (iop x y)
  | PInt x, PFloat y => PFloat (fop (to_float x) y)
  | PFloat x, PInt y => PFloat (fop x (to_float y))
  | PFloat x, PFloat y => PFloat (fop x y)
  end.

Definition compare (iop : Z -> Z -> bool) (fop : F O -> F O -> bool) (a b : pval) : bool :=
  match a, b with
  | PInvalid, _ | _, PInvalid => false
  | PInt x, PInt y => iop x y
  | PInt x, PFloat y => fop (to_float x) y
  | PFloat x, PInt y => fop x (to_float y)
  | PFloat x, PFloat y => fop x y
  end.

(** operators, QueryObjects.hpp:447-477 *)
Definition p_add := arith Z.add (f_add O).
Definition p_sub := arith Z.sub (f_sub O).
Definition p_mul := arith Z.mul (f_mul O).
Definition p_lt := compare Z.ltb (f_lt O).
Definition p_le := compare Z.leb (f_le O).
Definition p_gt := compare Z.gtb (f_gt O).
Definition p_ge := compare Z.geb (f_ge O).
Definition p_eq := compare Z.eqb (f_eq O).

(** PredicateValue::operator/, QueryObjects.hpp:479-502: always a float. *)
Definition p_div (a b : pval) : pval :=
  match a, b with
  | PInvalid, _ | _, PInvalid => PInvalid
  | _, PInt 0%Z => PInvalid
  | PInt x, PInt y => PFloat (f_div O (to_float x) (to_float y))
  | PFloat x, PInt y => PFloat (f_div O x (to_float y))
  | PInt x, PFloat y => if f_is_zero O y then PInvalid else PFloat (f_div O (to_float x) y)
  | PFloat x, PFloat y => if f_is_zero O y then PInvalid else PFloat (f_div O x y)
  end.

Variable vars : list var.       (* m_variables *)

(** m_variables[i]: vector::operator[] does not check the index. *)
Definition var_at (i : N) : outcome var :=
  match nthN vars i with Some v => Ok v | None => UB UOob end.

Definition bits_of (v : var) : outcome N :=
  match v_val v with VBits u => Ok u | _ => UB UUninit end.

(** QueryObjects.hpp:546-547 *)
Definition size_value (v : var) : pval :=
  if v_has v =? 0 then PInvalid else PInt (Z.of_N (v_bsz v)).

(** QueryObjects.hpp:561-574.  Note that a FLOAT is always read through the
    member .f of the union, whatever its size. *)
Definition value_value (v : var) : outcome pval :=
  match v_fmt v with
  | UNSIGNED | POINTER => u <- bits_of v ;; Ok (PInt (Z.of_N u))
  | SIGNED => u <- bits_of v ;; Ok (PInt (s64 u))
  | FLOAT => u <- bits_of v ;; Ok (PFloat (f_of_float O (u mod two32)))
  | BLOB | INVALID_FORMAT => Ok PInvalid
  end.

(** EvaluatePredicate::evaluate, QueryObjects.hpp:533-605, with
    evaluate_binary_op, 521-531.  Temporaries are assumed to be constructed in
    place (copy elision): the copy constructor (384-398) would dereference the
    null pointer of an invalid value. *)
Fixpoint evaluate (p : pred) : outcome pval :=
  let 'Pred k d cs := p in
  let binary (op : pval -> pval -> pval) :=
    match cs with
    | [a; b] => x <- evaluate a ;; y <- evaluate b ;; Ok (op x y)
    | _ => Abort
    end in
  match k with
  | VAR_SIZE =>
      match cs with
      | [Pred VAR_REFERENCE i _] => v <- var_at i ;; Ok (size_value v)
      | _ => Abort
      end
  | VAR_VALUE =>
      match cs with
      | [Pred VAR_REFERENCE i _] => v <- var_at i ;; value_value v
      | _ => Abort
      end
  | UNSIGNED_VALUE => Ok (PInt (Z.of_N d))
  | SIGNED_VALUE => Ok (PInt (s64 d))
  | FLOAT_VALUE => Ok (PFloat (f_of_double O d))
  | ADD => binary p_add
  | SUBTRACT => binary p_sub
  | MULTIPLY => binary p_mul
  | DIVIDE => binary p_div
  | _ => Abort
  end.

(** EvaluatePredicate::predicateSatisfied, QueryObjects.hpp:607-678. *)
Fixpoint satisfied (p : pred) : outcome bool :=
  let 'Pred k d cs := p in
  let cmp (op : pval -> pval -> bool) :=
    match cs with
    | [a; b] => x <- evaluate a ;; y <- evaluate b ;; Ok (op x y)
    | _ => Abort
    end in
  match k with
  | NULL_PREDICATE => Ok true
  | AND => (fix all l := match l with
                         | [] => Ok true
                         | c :: r => b <- satisfied c ;; if b then all r else Ok false
                         end) cs
  | OR => (fix any l := match l with
                        | [] => Ok false
                        | c :: r => b <- satisfied c ;; if b then Ok true else any r
                        end) cs
  | NOT => match cs with
           | [c] => b <- satisfied c ;; Ok (negb b)
           | _ => Abort
           end
  | DISTINCT_VARS =>
      (* != of flyweights compares addresses of pool entries, i.e. (Flyweight.v) values with == *)
      match cs with
      | [Pred VAR_REFERENCE i _; Pred VAR_REFERENCE j _] =>
          a <- var_at i ;; b <- var_at j ;; Ok (negb (var_eqb a b))
      | _ => Abort
      end
  | GREATER_THAN => cmp p_gt
  | GREATER_THAN_OR_EQUAL => cmp p_ge
  | LESS_THAN => cmp p_lt
  | LESS_THAN_OR_EQUAL => cmp p_le
  | EQUAL => cmp p_eq
  | _ => Abort
  end.
End Eval.
Arguments PInvalid {O}.
Arguments PInt {O}.
Arguments PFloat {O}.
