(** Promotion of float to double and back. *)
From Verif Require Import BaseProofs Types Instr InstrRun InstrSpec.

Lemma round_even_exact : forall x d, round_even (x * 2 ^ d) d = x.
Proof.
  intros. unfold round_even. assert (H : 2 ^ d <> 0) by (apply N.pow_nonzero; lia).
  rewrite N.div_mul, N.mod_mul by auto.
  assert (X : (2 * 0 <? 2 ^ d) = true) by (apply N.ltb_lt; lia). now rewrite X.
Qed.

(** Sign, exponent and fraction of a double put together. *)
Lemma fields : forall s e m, s <= 1 -> e < 2 ^ 11 -> m < 2 ^ 52 ->
  let b := s * 2 ^ 63 + (e * 2 ^ 52 + m) in
  b / 2 ^ 63 = s /\ (b / 2 ^ 52) mod 2 ^ 11 = e /\ b mod 2 ^ 52 = m.
Proof.
  intros s e m Hs He Hm b. subst b.
  change (2 ^ 63) with 9223372036854775808 in *. change (2 ^ 52) with 4503599627370496 in *. change (2 ^ 11) with 2048 in *.
  assert (E1 : (s * 9223372036854775808 + (e * 4503599627370496 + m)) / 4503599627370496 = s * 2048 + e).
  { symmetry. apply N.div_unique with m; lia. }
  split; [|split].
  - symmetry. apply N.div_unique with (e * 4503599627370496 + m); lia.
  - rewrite E1. symmetry. apply N.mod_unique with s; lia.
  - symmetry. apply N.mod_unique with (s * 2048 + e); lia.
Qed.

Lemma narrow_widen : forall b, b < 2 ^ 32 -> ~ signalling b -> narrow (widen b) = b.
Proof.
  intros b Hb NS. unfold signalling in NS.
  set (s := b / 2 ^ 31). set (e := (b / 2 ^ 23) mod 2 ^ 8). set (m := b mod 2 ^ 23).
  assert (Hs : s <= 1).
  { assert (b / 2 ^ 31 < 2); [|subst s; lia]. apply N.div_lt_upper_bound; [discriminate|].
    change (2 ^ 31 * 2) with (2 ^ 32). exact Hb. }
  assert (He : e <= 255) by (assert (e < 2 ^ 8) by (apply N.mod_lt; discriminate); change (2 ^ 8) with 256 in *; lia).
  assert (Hm : m < 2 ^ 23) by (apply N.mod_lt; discriminate).
  assert (EB : b = s * 2 ^ 31 + (e * 2 ^ 23 + m)).
  { subst s e m. change (2 ^ 31) with (2 ^ 23 * 2 ^ 8). rewrite <- N.div_div by discriminate.
    pose proof (N.div_mod b (2 ^ 23)). pose proof (N.div_mod (b / 2 ^ 23) (2 ^ 8)).
    change (2 ^ 23) with 8388608 in *. change (2 ^ 8) with 256 in *. lia. }
  assert (NS' : e = 255 -> m = 0 \/ 2 ^ 22 <= m).
  { intros E. fold e m in NS. destruct (N.eq_dec m 0); auto. right. apply N.le_ngt. intros L. apply NS. repeat split; auto. lia. }
  clear NS. unfold widen. fold s e m. clearbody s e m.
  destruct (N.eqb_spec e 255) as [E|NE255].
  - (* infinity or NaN *)
    set (q := if m =? 0 then 0 else N.lor m (2 ^ 22)).
    assert (Q : q = m).
    { subst q. destruct (N.eqb_spec m 0); auto. destruct (NS' E) as [|L]; [contradiction|].
      (* bit 22 is set *)
      assert (T : N.testbit m 22 = true).
      { rewrite N.testbit_true. assert (D : m / 2 ^ 22 = 1); [|now rewrite D].
        symmetry. apply N.div_unique with (m - 2 ^ 22); change (2 ^ 22) with 4194304 in *; change (2 ^ 23) with 8388608 in *; lia. }
      apply N.bits_inj. intros i. rewrite N.lor_spec. rewrite N.pow2_bits_eqb.
      destruct (N.eqb_spec 22 i) as [<-|]; [rewrite T; reflexivity|]. now rewrite orb_false_r. }
    rewrite Q. destruct (fields s 2047 (m * 2 ^ 29)) as (F1 & F2 & F3); auto; [reflexivity| |].
    { change (2 ^ 29) with 536870912. change (2 ^ 52) with 4503599627370496. change (2 ^ 23) with 8388608 in *. lia. }
    unfold narrow. rewrite F1, F2, F3. change (2047 =? 2047) with true. cbn iota.
    rewrite N.div_mul by discriminate. rewrite EB, E.
    assert (Z : (m * 2 ^ 29 =? 0) = (m =? 0)).
    { destruct (N.eqb_spec m 0) as [->|]; [reflexivity|]. apply N.eqb_neq. change (2 ^ 29) with 536870912. lia. }
    rewrite Z. fold q. now rewrite Q.
  - destruct (N.eqb_spec e 0) as [->|NE0].
    + destruct (N.eqb_spec m 0) as [->|Nm].
      * subst b. assert (s = 0 \/ s = 1) as [->| ->] by lia; reflexivity.
      * (* subnormal *)
        set (k := N.log2 m).
        assert (Lk : 2 ^ k <= m < 2 ^ (N.succ k)) by (apply N.log2_spec; lia).
        assert (Hk : k < 23) by (apply N.log2_lt_pow2; [lia|exact Hm]).
        assert (P52 : 2 ^ 52 = 2 ^ k * 2 ^ (52 - k)) by (rewrite <- N.pow_add_r; f_equal; lia).
        rewrite N.pow_succ_r' in Lk.
        destruct (fields s (k + 874) ((m - 2 ^ k) * 2 ^ (52 - k))) as (F1 & F2 & F3); auto.
        { change (2 ^ 11) with 2048. lia. }
        { rewrite P52. apply N.mul_lt_mono_pos_r; [apply N.neq_0_lt_0, N.pow_nonzero; discriminate|]. lia. }
        unfold narrow. rewrite F1, F2, F3.
        assert (X1 : (k + 874 =? 2047) = false) by (apply N.eqb_neq; lia). rewrite X1.
        assert (X2 : (k + 874 =? 0) = false) by (apply N.eqb_neq; lia). rewrite X2.
        rewrite N.max_l by lia.
        assert (X3 : (897 <=? k + 874) = false) by (apply N.leb_gt; lia). rewrite X3.
        replace (926 - (k + 874)) with (52 - k) by lia.
        assert (EM : (m - 2 ^ k) * 2 ^ (52 - k) + 2 ^ 52 = m * 2 ^ (52 - k)).
        { rewrite P52. rewrite <- N.mul_add_distr_r. f_equal. lia. }
        rewrite EM, round_even_exact. lia.
    + (* normal *)
      destruct (fields s (e + 896) (m * 2 ^ 29)) as (F1 & F2 & F3); auto.
      { change (2 ^ 11) with 2048. lia. }
      { change (2 ^ 29) with 536870912. change (2 ^ 52) with 4503599627370496. change (2 ^ 23) with 8388608 in *. lia. }
      unfold narrow. rewrite F1, F2, F3.
      assert (X1 : (e + 896 =? 2047) = false) by (apply N.eqb_neq; lia). rewrite X1.
      assert (X2 : (e + 896 =? 0) = false) by (apply N.eqb_neq; lia). rewrite X2.
      rewrite N.max_l by lia.
      assert (X3 : (897 <=? e + 896) = true) by (apply N.leb_le; lia). rewrite X3.
      assert (EM : m * 2 ^ 29 + 2 ^ 52 = (m + 2 ^ 23) * 2 ^ 29).
      { change (2 ^ 52) with (2 ^ 23 * 2 ^ 29). now rewrite N.mul_add_distr_r. }
      rewrite EM, round_even_exact.
      rewrite N.min_l; rewrite ?EB; change (2 ^ 23) with 8388608 in *; lia.
Qed.
