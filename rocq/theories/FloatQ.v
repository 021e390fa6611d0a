(** An instance of the floating point operations by exact rational arithmetic,
    used in examples and counterexamples: IEEE 754 bits of finite numbers are
    decoded exactly (infinities and NaNs, not used in the examples, decode as if finite). *)
From Verif Require Import Base Predicate.
From Coq Require Import QArith Qreduction.

(** Sign, exponent (eb bits, bias), fraction (mb bits). *)
Definition decode (mb eb : N) (bias : Z) (u : N) : Q :=
  let frac := Z.of_N (u mod 2 ^ mb)%N in
  let ex := Z.of_N ((u / 2 ^ mb) mod 2 ^ eb)%N in
  let neg := N.odd (u / 2 ^ (mb + eb))%N in
  let m := if (ex =? 0)%Z then frac else (frac + 2 ^ Z.of_N mb)%Z in
  let e := ((if (ex =? 0)%Z then 1 else ex) - bias - Z.of_N mb)%Z in
  let q := if (0 <=? e)%Z then inject_Z (m * 2 ^ e) else Qred (Qmake m (Z.to_pos (2 ^ (- e)))) in
  if neg then Qopp q else q.

Definition decode_float : N -> Q := decode 23 8 127.
Definition decode_double : N -> Q := decode 52 11 1023.

Definition qlt (a b : Q) : bool := (Qnum a * QDen b <? Qnum b * QDen a)%Z.

Definition qops : fops := {|
  F := Q; f_of_float := decode_float; f_of_double := decode_double; f_of_Z := inject_Z;
  f_add := Qplus; f_sub := Qminus; f_mul := Qmult; f_div := Qdiv;
  f_lt := qlt; f_le := Qle_bool; f_gt := fun a b => qlt b a; f_ge := fun a b => Qle_bool b a;
  f_eq := Qeq_bool; f_is_zero := Qeq_bool 0 |}.
