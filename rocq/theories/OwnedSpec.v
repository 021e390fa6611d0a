(** Specification: sub-expressions without a value. *)
From Verif Require Import Base Types Compare Predicate Owned.

(** Kinds whose children are evaluated. *)
Definition has_operands (k : pkind) : Prop :=
  In k [AND; OR; NOT; GREATER_THAN; GREATER_THAN_OR_EQUAL; LESS_THAN; LESS_THAN_OR_EQUAL; EQUAL;
        ADD; SUBTRACT; MULTIPLY; DIVIDE].
(** [within s p]: [s] is [p] or an operand inside it. *)
Inductive within (s : pred) : pred -> Prop :=
| within_self : within s s
| within_child : forall k d cs c, has_operands k -> In c cs -> within s c -> within s (Pred k d cs).

(** Some sub-expression has no value (size of an unknown buffer, value of a blob,
    division by zero, or an operation on such). *)
Definition some_invalid (O : fops) (vars : list var) (p : pred) : Prop :=
  exists s, within s p /\ evaluate O vars s = Ok PInvalid.

(** The run [r] on objects ends as [o] says, and no memory is left. *)
Definition ends_clean {O A} (r : outcome (A * heap O)) (o : outcome A) : Prop :=
  match o with
  | Ok b => exists h, r = Ok (b, h) /\ h_live O h = []
  | Throw e => r = Throw e
  | UB k => r = UB k
  | Abort => r = Abort
  | Diverge => r = Diverge
  end.
(** No numbers on the heap. *)
Definition empty_heap (O : fops) : heap O := mkH O 0 [] 0.

Definition is_comparison (k : pkind) : Prop :=
  In k [GREATER_THAN; GREATER_THAN_OR_EQUAL; LESS_THAN; LESS_THAN_OR_EQUAL; EQUAL].
