(** What collect-traces should do. *)
From Coq Require Import List Bool Arith ZArith.
From Verif Require Import Base Collect.
Import ListNotations.
Open Scope nat_scope.

(** The first [num] elements. *)
Definition upto {T} (num : option nat) (l : list T) : list T :=
  match num with Some n => firstn n l | None => l end.

(** The test case can supply the traces [avail t], in this order. *)
Definition supplies {T} (avail : tcase T -> list T) (t : tcase T) : Prop :=
  forall num, tc_run t num = upto num (avail t).

(** No test case comes after the limit has been reached. *)
Definition within {T} (avail : tcase T -> list T) (num : option nat) (ts : list (tcase T)) : Prop :=
  match num with
  | None => True
  | Some n => forall l1 t l2, ts = l1 ++ t :: l2 -> length (concat (map avail l1)) < n
  end.

(** The compilation leaves no file behind if it signals an error. *)
Definition tidy (ph : phenome) : Prop := match ph with PhErr made _ => made = false | PhOk _ => True end.
