(** Decimal numbers as printed by operator<< for integers. *)
From Verif Require Import Base.

Fixpoint digits (fuel : nat) (n : N) : list byte :=
  match fuel with
  | O => []
  | S f => (if n <? 10 then [] else digits f (n / 10)) ++ [byte_of_N (48 + n mod 10)]
  end.
(** A number below 2^k has at most k digits. *)
Definition show_N (n : N) : list byte := digits (S (N.size_nat n)) n.
Definition show_Z (z : Z) : list byte :=
  if (z <? 0)%Z then byte_of_N 45 :: show_N (Z.to_N (- z)) else show_N (Z.to_N z).
