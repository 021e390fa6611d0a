(** Decimal numbers: what they denote. *)
From Verif Require Import BaseProofs Dec.

(** Value of a string of digits. *)
Definition dec_val (l : list byte) : N := fold_left (fun a b => 10 * a + (N_of_byte b - 48)) l 0.
Definition is_digit (b : byte) : Prop := 48 <= N_of_byte b <= 57.

Lemma digit_val : forall d, d < 10 -> N_of_byte (byte_of_N (48 + d)) = 48 + d.
Proof. intros d H. rewrite N_of_byte_of_N. unfold two8. apply N.mod_small. lia. Qed.

Lemma digits_val : forall f n, n < 2 ^ N.of_nat f -> dec_val (digits (S f) n) = n.
Proof.
  induction f as [|f IH]; intros n H.
  - cbn in H. replace n with 0 by lia. reflexivity.
  - change (digits (S (S f)) n) with ((if n <? 10 then [] else digits (S f) (n / 10)) ++ [byte_of_N (48 + n mod 10)]).
    unfold dec_val in *. rewrite fold_left_app. cbn [fold_left]. rewrite digit_val by (apply N.mod_lt; discriminate).
    destruct (N.ltb_spec n 10).
    + cbn [fold_left]. rewrite N.mod_small by lia. lia.
    + rewrite IH; [lia|]. rewrite Nnat.Nat2N.inj_succ, N.pow_succ_r' in H. apply N.div_lt_upper_bound; lia.
Qed.

Lemma size_bound : forall n, n < 2 ^ N.of_nat (N.size_nat n).
Proof. intros n. destruct n as [|p]; [cbn; lia|]. cbn. induction p as [p IH|p IH|]; cbn [Pos.size_nat]; [| |cbn; lia]; rewrite Nnat.Nat2N.inj_succ, N.pow_succ_r'; lia. Qed.

Lemma dec_show : forall n, dec_val (show_N n) = n.
Proof. intro n. apply digits_val. apply size_bound. Qed.

Lemma digits_digit : forall f n, Forall is_digit (digits f n).
Proof.
  induction f as [|f IH]; intro n; cbn [digits]; [constructor|]. apply Forall_app. split; [destruct (n <? 10); [constructor|apply IH]|].
  constructor; [|constructor]. unfold is_digit. 
  assert (n mod 10 < 10) by (apply N.mod_lt; discriminate).
  rewrite digit_val by assumption. lia.
Qed.
Lemma show_digit : forall n, Forall is_digit (show_N n).
Proof. intro n. apply digits_digit. Qed.
Lemma show_nonempty : forall n, show_N n <> [].
Proof. intros n H. unfold show_N in H. cbn [digits] in H. destruct (if n <? 10 then _ else _); discriminate. Qed.
Lemma show_N_inj : forall a b, show_N a = show_N b -> a = b.
Proof. intros a b H. rewrite <- (dec_show a), <- (dec_show b), H. reflexivity. Qed.
Lemma show_Z_inj : forall a b, show_Z a = show_Z b -> a = b.
Proof.
  assert (HD : forall n r, show_N n = byte_of_N 45 :: r -> False).
  { intros n r E. assert (H := show_digit n). rewrite E in H. inversion H; subst. unfold is_digit in *. vm_compute in H2. destruct H2 as [H2 _]. apply H2. reflexivity. }
  intros a b H. unfold show_Z in H. destruct (Z.ltb_spec a 0), (Z.ltb_spec b 0).
  - injection H as H. apply show_N_inj in H. lia.
  - symmetry in H. exfalso. eapply HD. exact H.
  - exfalso. eapply HD. exact H.
  - apply show_N_inj in H. lia.
Qed.
