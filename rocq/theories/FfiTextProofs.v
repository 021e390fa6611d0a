(** Proofs about text at the foreign interface: UTF-8. *)
From Coq Require Import Strings.String ZifyN.
From Verif Require Import Base BaseProofs Types Compare Predicate Query CApi Lisp Ffi FfiText FfiTextSpec.
Local Open Scope N_scope.

Ltac dm := Z.to_euclidean_division_equations; lia.

Lemma nob_small : forall n, n < 256 -> N_of_byte (byte_of_N n) = n.
Proof. intros. rewrite N_of_byte_of_N. apply N.mod_small. exact H. Qed.
Lemma mod_lt : forall x y, y <> 0 -> x mod y < y. Proof. intros. now apply N.mod_upper_bound. Qed.
Lemma cont_is : forall x, is_cont (cont_byte x) = true.
Proof.
  intros. assert (H := mod_lt x 64 ltac:(lia)). unfold is_cont, cont_byte. rewrite nob_small by lia.
  apply andb_true_iff. split; [apply N.leb_le|apply N.ltb_lt]; lia.
Qed.
Lemma low6_cont : forall x, low6 (cont_byte x) = x mod 64.
Proof.
  intros. assert (H := mod_lt x 64 ltac:(lia)). unfold low6, cont_byte. rewrite nob_small by lia. dm.
Qed.

Lemma utf8_char_decode : forall c r, scalar c = true -> utf8_decode (utf8_char c ++ r) = option_map (cons c) (utf8_decode r).
Proof.
  intros c r Hs. unfold utf8_char.
  assert (Hb : c < 1114112).
  { unfold scalar in Hs. apply orb_true_iff in Hs. destruct Hs as [H|H]; [apply N.ltb_lt in H; lia|].
    apply andb_true_iff in H. destruct H as [_ H]. now apply N.ltb_lt in H. }
  destruct (N.ltb_spec c 128).
  { cbn [app utf8_decode]. rewrite nob_small by lia. destruct (N.ltb_spec c 128); [reflexivity|lia]. }
  destruct (N.ltb_spec c 2048).
  { cbn [app utf8_decode]. assert (c / 64 < 32) by dm. assert (2 <= c / 64) by dm. rewrite nob_small by lia.
    destruct (N.ltb_spec (192 + c / 64) 128); [lia|]. destruct (N.ltb_spec (192 + c / 64) 192); [lia|].
    destruct (N.ltb_spec (192 + c / 64) 224); [|lia]. rewrite cont_is, low6_cont.
    replace ((192 + c / 64 - 192) * 64 + c mod 64) with c by dm.
    destruct (N.leb_spec 128 c); [reflexivity|lia]. }
  destruct (N.ltb_spec c 65536).
  { cbn [app utf8_decode]. assert (c / 4096 < 16) by dm. rewrite nob_small by lia.
    destruct (N.ltb_spec (224 + c / 4096) 128); [lia|]. destruct (N.ltb_spec (224 + c / 4096) 192); [lia|].
    destruct (N.ltb_spec (224 + c / 4096) 224); [lia|]. destruct (N.ltb_spec (224 + c / 4096) 240); [|lia].
    rewrite !cont_is, !low6_cont.
    replace ((224 + c / 4096 - 224) * 4096 + (c / 64) mod 64 * 64 + c mod 64) with c.
    2:{ rewrite (N.div_mod c 64) at 1 by lia. rewrite (N.div_mod (c / 64) 64) at 1 by lia. rewrite N.div_div by lia.
        change (64 * 64) with 4096. lia. }
    destruct (N.leb_spec 2048 c); [|lia]. rewrite Hs. reflexivity. }
  cbn [app utf8_decode]. assert (c / 262144 < 5) by dm. rewrite nob_small by lia.
  destruct (N.ltb_spec (240 + c / 262144) 128); [lia|]. destruct (N.ltb_spec (240 + c / 262144) 192); [lia|].
  destruct (N.ltb_spec (240 + c / 262144) 224); [lia|]. destruct (N.ltb_spec (240 + c / 262144) 240); [lia|].
  destruct (N.ltb_spec (240 + c / 262144) 248); [|lia].
  rewrite !cont_is, !low6_cont.
  replace ((240 + c / 262144 - 240) * 262144 + (c / 4096) mod 64 * 4096 + (c / 64) mod 64 * 64 + c mod 64) with c.
  2:{ assert (E1 := N.div_mod c 64 ltac:(lia)). assert (E2 := N.div_mod (c / 64) 64 ltac:(lia)).
      assert (E3 := N.div_mod (c / 4096) 64 ltac:(lia)).
      rewrite N.div_div in E2 by lia. rewrite N.div_div in E3 by lia.
      change (64 * 64) with 4096 in E2. change (4096 * 64) with 262144 in E3. lia. }
  destruct (N.leb_spec 65536 c); [|lia]. rewrite Hs. reflexivity.
Qed.

Lemma utf8_round : forall s, text s -> utf8_decode (utf8 s) = Some s.
Proof.
  induction s as [|c s IH]; intros H; [reflexivity|]. cbn [utf8].
  rewrite utf8_char_decode by exact (Forall_inv H). rewrite IH by exact (Forall_inv_tail H). reflexivity.
Qed.

Lemma byte_is : forall b x, N_of_byte b = x -> byte_of_N x = b.
Proof. intros b x <-. apply byte_of_N_of_byte. Qed.
Lemma cont_back : forall b x, is_cont b = true -> low6 b = x mod 64 -> cont_byte x = b.
Proof.
  intros b x Hc Hl. unfold cont_byte. apply byte_is. unfold is_cont in Hc. unfold low6 in Hl.
  apply andb_true_iff in Hc. destruct Hc as [H1 H2]. apply N.leb_le in H1. apply N.ltb_lt in H2. rewrite <- Hl. dm.
Qed.
Lemma low6_lt : forall b, low6 b < 64. Proof. intros. apply mod_lt. lia. Qed.

Lemma utf8_back : forall n bs s, (length bs <= n)%nat -> utf8_decode bs = Some s -> text s /\ utf8 s = bs.
Proof.
  induction n as [|n IH]; intros [|b r] s Hn H; cbn [length] in Hn; try lia.
  { injection H as <-. split; [constructor|reflexivity]. }
  { injection H as <-. split; [constructor|reflexivity]. }
  cbn [utf8_decode] in H. set (x := N_of_byte b) in *.
  assert (Hb : byte_of_N x = b) by apply byte_of_N_of_byte.
  assert (Step : forall c pre rest s, (length rest <= n)%nat -> option_map (cons c) (utf8_decode rest) = Some s ->
    scalar c = true -> utf8_char c = pre -> text s /\ utf8 s = (pre ++ rest)%list).
  { intros c pre rest s0 Hl Ho Hc Hp. destruct (utf8_decode rest) as [s1|] eqn:E; [|discriminate].
    injection Ho as <-. destruct (IH rest s1 Hl E) as [I1 I2]. split; [constructor; assumption|].
    cbn [utf8]. now rewrite Hp, I2. }
  destruct (N.ltb_spec x 128).
  { apply (Step x [b] r); [lia|exact H| |].
    - unfold scalar. apply orb_true_iff. left. apply N.ltb_lt. lia.
    - unfold utf8_char. destruct (N.ltb_spec x 128); [|lia]. now rewrite Hb. }
  destruct (N.ltb_spec x 192); [discriminate|].
  destruct (N.ltb_spec x 224).
  { destruct r as [|b1 r1]; [discriminate|]. set (c := (x - 192) * 64 + low6 b1) in *.
    destruct (is_cont b1) eqn:C1; [|discriminate]. cbn [andb] in H.
    assert (L1 := low6_lt b1).
    destruct (N.leb_spec 128 c); [|discriminate]. cbn [length] in Hn.
    apply (Step c [b; b1] r1); [lia|exact H| |].
    - unfold scalar. apply orb_true_iff. left. apply N.ltb_lt. subst c. lia.
    - unfold utf8_char. destruct (N.ltb_spec c 128); [lia|]. destruct (N.ltb_spec c 2048); [|subst c; lia].
      f_equal; [|f_equal].
      + rewrite <- Hb. f_equal. subst c. dm.
      + apply cont_back; [exact C1|]. subst c. dm. }
  destruct (N.ltb_spec x 240).
  { destruct r as [|b1 [|b2 r2]]; try discriminate. set (c := (x - 224) * 4096 + low6 b1 * 64 + low6 b2) in *.
    destruct (is_cont b1) eqn:C1; [|discriminate]. destruct (is_cont b2) eqn:C2; [|discriminate]. cbn [andb] in H.
    assert (L1 := low6_lt b1). assert (L2 := low6_lt b2).
    destruct (N.leb_spec 2048 c); [|discriminate]. cbn [andb] in H. destruct (scalar c) eqn:Sc; [|discriminate].
    cbn [length] in Hn.
    apply (Step c [b; b1; b2] r2); [lia|exact H|exact Sc|].
    assert (c < 65536) by (subst c; lia).
    unfold utf8_char. destruct (N.ltb_spec c 128); [lia|]. destruct (N.ltb_spec c 2048); [lia|].
    destruct (N.ltb_spec c 65536); [|lia].
    assert (D1 : c / 64 = (x - 224) * 64 + low6 b1)
      by (symmetry; apply (N.div_unique c 64 _ (low6 b2)); [exact L2|subst c; lia]).
    assert (D2 : c / 4096 = x - 224)
      by (symmetry; apply (N.div_unique c 4096 _ (low6 b1 * 64 + low6 b2)); [lia|subst c; lia]).
    f_equal; [|f_equal; [|f_equal]].
    - rewrite <- Hb. f_equal. lia.
    - apply cont_back; [exact C1|]. rewrite D1. apply (N.mod_unique _ 64 (x - 224)); [exact L1|lia].
    - apply cont_back; [exact C2|]. apply (N.mod_unique _ 64 ((x - 224) * 64 + low6 b1)); [exact L2|subst c; lia]. }
  destruct (N.ltb_spec x 248); [|discriminate].
  destruct r as [|b1 [|b2 [|b3 r3]]]; try discriminate.
  set (c := (x - 240) * 262144 + low6 b1 * 4096 + low6 b2 * 64 + low6 b3) in *.
  destruct (is_cont b1) eqn:C1; [|discriminate]. destruct (is_cont b2) eqn:C2; [|discriminate].
  destruct (is_cont b3) eqn:C3; [|discriminate]. cbn [andb] in H.
  assert (L1 := low6_lt b1). assert (L2 := low6_lt b2). assert (L3 := low6_lt b3).
  destruct (N.leb_spec 65536 c); [|discriminate]. cbn [andb] in H. destruct (scalar c) eqn:Sc; [|discriminate].
  cbn [length] in Hn.
  apply (Step c [b; b1; b2; b3] r3); [lia|exact H|exact Sc|].
  unfold utf8_char. destruct (N.ltb_spec c 128); [lia|]. destruct (N.ltb_spec c 2048); [lia|].
  destruct (N.ltb_spec c 65536); [lia|].
  assert (D1 : c / 64 = (x - 240) * 4096 + low6 b1 * 64 + low6 b2)
    by (symmetry; apply (N.div_unique c 64 _ (low6 b3)); [exact L3|subst c; lia]).
  assert (D2 : c / 4096 = (x - 240) * 64 + low6 b1)
    by (symmetry; apply (N.div_unique c 4096 _ (low6 b2 * 64 + low6 b3)); [lia|subst c; lia]).
  assert (D3 : c / 262144 = x - 240)
    by (symmetry; apply (N.div_unique c 262144 _ (low6 b1 * 4096 + low6 b2 * 64 + low6 b3)); [lia|subst c; lia]).
  f_equal; [|f_equal; [|f_equal; [|f_equal]]].
  - rewrite <- Hb. f_equal. lia.
  - apply cont_back; [exact C1|]. rewrite D2. apply (N.mod_unique _ 64 (x - 240)); [exact L1|lia].
  - apply cont_back; [exact C2|]. rewrite D1. apply (N.mod_unique _ 64 ((x - 240) * 64 + low6 b1)); [exact L2|lia].
  - apply cont_back; [exact C3|]. apply (N.mod_unique _ 64 ((x - 240) * 4096 + low6 b1 * 64 + low6 b2)); [exact L3|subst c; lia].
Qed.

Lemma utf8_inv : forall bs s, utf8_decode bs = Some s <-> text s /\ utf8 s = bs.
Proof.
  split; [intros H; now apply (utf8_back (length bs))|]. intros [H <-]. now apply utf8_round.
Qed.
Lemma utf8_inj : forall s t, text s -> text t -> utf8 s = utf8 t -> s = t.
Proof.
  intros s t Hs Ht H. assert (E := utf8_round s Hs). rewrite H, (utf8_round t Ht) in E. now injection E.
Qed.

(** NUL *)
Lemma utf8_char_nul : forall c, scalar c = true -> c <> 0 -> Forall (fun b => N_of_byte b <> 0) (utf8_char c).
Proof.
  intros c Hs Hc.
  assert (Hb : c < 1114112).
  { unfold scalar in Hs. apply orb_true_iff in Hs. destruct Hs as [H|H]; [apply N.ltb_lt in H; lia|].
    apply andb_true_iff in H. destruct H as [_ H]. now apply N.ltb_lt in H. }
  assert (K : forall x, N_of_byte (cont_byte x) <> 0).
  { intros x. assert (H := mod_lt x 64 ltac:(lia)). unfold cont_byte. rewrite nob_small by lia. lia. }
  unfold utf8_char. destruct (N.ltb_spec c 128); [constructor; [rewrite nob_small by lia; exact Hc|constructor]|].
  destruct (N.ltb_spec c 2048).
  { assert (c / 64 < 32) by dm. repeat constructor; try apply K. rewrite nob_small by lia. lia. }
  destruct (N.ltb_spec c 65536).
  { assert (c / 4096 < 16) by dm. repeat constructor; try apply K. rewrite nob_small by lia. lia. }
  assert (c / 262144 < 5) by dm. repeat constructor; try apply K. rewrite nob_small by lia. lia.
Qed.
Lemma utf8_nul : forall s, c_text s -> Forall (fun b => N_of_byte b <> 0) (utf8 s).
Proof.
  induction s as [|c s IH]; intros H; [constructor|]. cbn [utf8]. destruct (Forall_inv H) as [H1 H2].
  apply Forall_app. split; [now apply utf8_char_nul|apply IH; exact (Forall_inv_tail H)].
Qed.
Lemma c_text_text : forall s, c_text s -> text s.
Proof. intros s H. eapply Forall_impl; [|exact H]. now intros c [Hc _]. Qed.
Lemma c_string_id : forall n, Forall (fun b => N_of_byte b <> 0) n -> c_string n = n.
Proof.
  induction n as [|b n IH]; intros H; [reflexivity|]. cbn [c_string].
  destruct (N.eqb_spec (N_of_byte b) 0) as [E|_]; [now elim (Forall_inv H)|]. f_equal. apply IH. exact (Forall_inv_tail H).
Qed.

(** Positions and duplicates *)
Lemma codes_eqb_eq : forall a b, codes_eqb a b = true <-> a = b.
Proof.
  induction a as [|x a IH]; intros [|y b]; cbn [codes_eqb]; try (split; [discriminate|discriminate]); [split; reflexivity|].
  rewrite andb_true_iff, N.eqb_eq, IH. split; [intros [-> ->]; reflexivity|intros E; now injection E].
Qed.
Lemma bytes_eqb_eq' : forall a b, bytes_eqb a b = true <-> a = b.
Proof.
  induction a as [|x a IH]; intros [|y b]; cbn [bytes_eqb]; try (split; [discriminate|discriminate]); [split; reflexivity|].
  rewrite andb_true_iff, N.eqb_eq, IH. split; [intros [E ->]; f_equal; now apply N_of_byte_inj|].
  intros E. injection E as -> ->. split; reflexivity.
Qed.
Lemma eqb_utf8 : forall s t, text s -> text t -> bytes_eqb (utf8 s) (utf8 t) = codes_eqb s t.
Proof.
  intros s t Hs Ht. destruct (codes_eqb s t) eqn:E.
  - apply codes_eqb_eq in E. subst. now apply bytes_eqb_eq'.
  - destruct (bytes_eqb (utf8 s) (utf8 t)) eqn:E2; [|reflexivity]. apply bytes_eqb_eq' in E2.
    apply utf8_inj in E2; [|assumption|assumption]. apply codes_eqb_eq in E2. congruence.
Qed.
Lemma position_utf8 : forall n l, text n -> Forall text l -> position (utf8 n) (map utf8 l) = text_position n l.
Proof.
  intros n l Hn. induction l as [|m l IH]; intros H; [reflexivity|]. cbn [map position text_position].
  rewrite eqb_utf8 by (assumption || exact (Forall_inv H)). rewrite IH by exact (Forall_inv_tail H). reflexivity.
Qed.
Lemma existsb_utf8 : forall x l, text x -> Forall text l -> existsb (bytes_eqb (utf8 x)) (map utf8 l) = existsb (codes_eqb x) l.
Proof.
  intros x l Hx. induction l as [|m l IH]; intros H; [reflexivity|]. cbn [map existsb].
  rewrite eqb_utf8 by (assumption || exact (Forall_inv H)). rewrite IH by exact (Forall_inv_tail H). reflexivity.
Qed.
Lemma duplicates_utf8 : forall l, Forall text l ->
  remove_duplicates bytes_eqb (map utf8 l) = map utf8 (remove_duplicates codes_eqb l).
Proof.
  induction l as [|x l IH]; intros H; [reflexivity|]. cbn [map remove_duplicates].
  assert (H2 := Forall_inv_tail H). rewrite existsb_utf8 by (assumption || exact (Forall_inv H)).
  destruct (existsb (codes_eqb x) l); rewrite IH by assumption; reflexivity.
Qed.

(** Reading *)
Lemma text_name_ok : forall n s, text_name n = Ok s <-> text s /\ utf8 s = n.
Proof.
  intros n s. unfold text_name. rewrite <- utf8_inv. destruct (utf8_decode n); split; congruence.
Qed.
Lemma schar_byte : forall b, char_byte (schar b) = N_of_byte b.
Proof.
  intros b. assert (H := N_of_byte_lt b). unfold two8 in H. unfold char_byte, schar. cbv zeta.
  destruct (Z.ltb_spec (Z.of_N (N_of_byte b)) 128).
  - rewrite Z.mod_small by lia. lia.
  - replace (Z.of_N (N_of_byte b) - 256)%Z with (Z.of_N (N_of_byte b) + (-1) * 256)%Z by lia.
    rewrite Z.mod_add by lia. rewrite Z.mod_small by lia. lia.
Qed.
