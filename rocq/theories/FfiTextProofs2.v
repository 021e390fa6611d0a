(** Proofs about text at the foreign interface: points and names written by Lisp. *)
From Coq Require Import Strings.String.
From Verif Require Import Base BaseProofs Types Compare Predicate Query CApi Lisp Ffi FfiSpec FfiProofs FfiProofs2
  FfiText FfiTextSpec FfiTextProofs.
Local Open Scope string_scope.
Local Open Scope N_scope.

Lemma el_in : forall n a w b, In b (elements a w n) -> a <= b /\ b + w <= a + w * N.of_nat n.
Proof. exact (elements_in (fun _ => 0)). Qed.

Lemma fill_cons : forall d row rows m a, l_fill d (row :: rows) m a = l_fill d rows (l_set_row d row m a) (a + sizeof d).
Proof. reflexivity. Qed.

Lemma format_code : forall f, code l_type_format (l_format_keyword f) = code c_type_format (c_format_name f).
Proof. destruct f; reflexivity. Qed.
Lemma format_range_i : forall f, in_range TI32 (code l_type_format (l_format_keyword f)) = true.
Proof. destruct f; reflexivity. Qed.

Lemma encode_s64 : forall u, u < two64 -> encode TU64 (s64 u) = encode TU64 (Z.of_N u).
Proof.
  intros u Hu. unfold encode. do 2 f_equal. unfold s64. destruct (u <? two63); [reflexivity|].
  change (modulus TU64) with (2 ^ 64)%Z. replace (Z.of_N two64) with (2 ^ 64)%Z by reflexivity.
  replace (Z.of_N u - 2 ^ 64)%Z with (Z.of_N u + (-1) * 2 ^ 64)%Z by lia. now rewrite Z.mod_add by lia.
Qed.

(** Variables written by Lisp hold integers. *)
Definition l_var_fits (v : cvar) : Prop :=
  fits_var v /\ exists u, cv_value v = VBits u.

Lemma var_row_ok : forall v m a L B, l_var_fits v ->
  var_in (l_set_row l_var_info (l_var_row v) m a) a v L B /\
  (forall x, ~ (a <= x < a + 40) -> l_set_row l_var_info (l_var_row v) m a x = m x).
Proof.
  intros v m a L B [(F0 & F1 & F2 & F3 & F4 & F5) [u Hu]].
  assert (Hu64 : u < two64 /\ cv_format v <> BLOB).
  { rewrite Hu in F0. destruct (cv_format v); try contradiction; split; try assumption; discriminate. }
  destruct Hu64 as [Hu64 Hfm].
  assert (E : l_set_row l_var_info (l_var_row v) m a =
    write TU64 (Z.of_N (cv_bsz v)) (write TU8 (Z.of_N (cv_has v)) (write TU32 (Z.of_N (cv_size v))
      (write TU32 (Z.of_N (cv_tname v)) (write TU32 (Z.of_N (cv_name v))
      (write TI32 (code l_type_format (l_format_keyword (cv_format v))) (write TU64 (l_integer v) m (a + 0)) (a + 8)) (a + 12)) (a + 16)) (a + 20)) (a + 32)) (a + 24))
    by reflexivity.
  assert (Ev : write TU64 (l_integer v) m (a + 0) = write TU64 (Z.of_N u) m (a + 0)).
  { unfold l_integer. rewrite Hu. destruct (cv_format v); try reflexivity. unfold write. now rewrite encode_s64. }
  rewrite E, Ev. split.
  - match goal with |- var_in ?M _ _ _ _ => set (m' := M) end.
    destruct (get_c_var m' a) as (G1 & G2 & G3 & G4 & G5 & G6 & G7).
    unfold var_in. rewrite G1, G2, G3, G4, G5, G6, G7. unfold m'. repeat split.
    + exists u. split; [|split].
      * fields; now apply u64_range.
      * unfold holds_value. rewrite Hu. destruct (cv_format v); try reflexivity. now elim Hfm.
      * now rewrite Hu.
    + rewrite <- format_code. fields; [apply format_range_i|rewrite format_code; apply format_range].
    + fields; now apply u32_range.
    + fields; now apply u32_range.
    + fields; now apply u32_range.
    + fields; now apply u64_range.
    + fields; now apply u8_range.
  - intros x Hx. rewrite !write_out by (cbn [size]; lia). reflexivity.
Qed.

Lemma fill_vars_ok : forall vs m a L B, Forall l_var_fits vs ->
  Forall2 (fun b v => var_in (l_fill l_var_info (map l_var_row vs) m a) b v L B) (elements a 40 (length vs)) vs /\
  (forall x, ~ (a <= x < a + 40 * lenN vs) -> l_fill l_var_info (map l_var_row vs) m a x = m x).
Proof.
  induction vs as [|v vs IH]; intros m a L B Hf.
  - split; [constructor|reflexivity].
  - cbn [map length]. rewrite fill_cons, lenN_cons. change (sizeof l_var_info) with 40.
    destruct (var_row_ok v m a L B (Forall_inv Hf)) as [V1 V2].
    destruct (IH (l_set_row l_var_info (l_var_row v) m a) (a + 40) L B (Forall_inv_tail Hf)) as [I1 I2].
    split.
    + rewrite elements_cons. constructor; [|exact I1].
      destruct (Forall_inv Hf) as [_ [u Hu]].
      (* no blob: only the row matters *)
      assert (K : var_in (l_set_row l_var_info (l_var_row v) m a) a v 0 0) by apply (var_row_ok v m a 0 0 (Forall_inv Hf)).
      assert (K2 : var_in (l_fill l_var_info (map l_var_row vs) (l_set_row l_var_info (l_var_row v) m a) (a + 40)) a v 0 0).
      { eapply var_in_frame; [reflexivity|reflexivity| |intros y Hy; lia|exact K]. intros y Hy. apply I2. lia. }
      unfold var_in in *. now rewrite Hu in *.
    + intros x Hx. rewrite I2 by lia. apply V2. lia.
Qed.

(** A row for a point and the place of its variables. *)
Definition row_point (m : memory) (L B : N) (row : list (string * Z)) (x : ipoint) : Prop :=
  exists va, row = l_point_row x va /\ L <= va /\ va + 40 * lenN (ip_vars x) <= B /\
  Forall2 (fun b v => var_in m b v L B) (elements va 40 (length (ip_vars x))) (ip_vars x).

Lemma row_point_frame : forall m m' L B L' B' row x, L' <= L -> B <= B' -> (forall y, L <= y < B -> m' y = m y) ->
  row_point m L B row x -> row_point m' L' B' row x.
Proof.
  intros m m' L B L' B' row x HL HB Hm (va & -> & H1 & H2 & H3). exists va. split; [reflexivity|].
  split; [lia|]. split; [lia|]. eapply Forall2_imp_in; [|exact H3]. intros b v Hin Hv. cbv beta in *.
  apply el_in in Hin. eapply var_in_frame; [exact HL|exact HB| |exact Hm|exact Hv].
  intros y Hy. apply Hm. unfold lenN in *. lia.
Qed.

Definition l_point_fits (x : ipoint) : Prop :=
  ip_stmt x < two64 /\ lenN (ip_vars x) < two32 /\ Forall l_var_fits (ip_vars x) /\ ip_aux x = [].

Lemma load_app : forall n k m a, load m a (n + k) = (load m a n ++ load m (a + N.of_nat n) k)%list.
Proof.
  intros. unfold load. rewrite seq_app, map_app. f_equal. rewrite <- (Nat.add_0_r n) at 1. cbn [Nat.add].
  generalize 0%nat as i. induction k as [|k IH]; intros i; cbn [seq map]; [reflexivity|]. f_equal; [f_equal; lia|].
  rewrite <- Nat.add_succ_r. apply IH.
Qed.
Lemma app_inv_length : forall A (l1 l2 l3 l4 : list A), (l1 ++ l2)%list = (l3 ++ l4)%list -> length l1 = length l3 ->
  l1 = l3 /\ l2 = l4.
Proof.
  induction l1 as [|x l1 IH]; intros l2 [|y l3] l4 H Hl; try discriminate; [split; [reflexivity|exact H]|].
  cbn [app] in H. injection H as -> H. destruct (IH l2 l3 l4 H ltac:(now injection Hl)) as [-> ->]. split; reflexivity.
Qed.

Section Put.
Variable room : N -> N.

Lemma point_rows_ok : forall xs p rows p', l_point_rows room xs p = (rows, p') -> Forall l_point_fits xs ->
  Forall2 (row_point (pr_mem p') 0 (pr_brk p')) rows xs /\
  pr_brk p <= pr_brk p' /\ (forall x, x < pr_brk p -> pr_mem p' x = pr_mem p x).
Proof.
  induction xs as [|x xs IH]; intros p rows p' H Hf; cbn [l_point_rows] in H.
  - injection H as <- <-. split; [constructor|]. split; [lia|reflexivity].
  - change (sizeof l_var_info) with 40 in H.
    destruct (alloc_block room (40 * lenN (ip_vars x)) p) as [va p1] eqn:E1. apply alloc_spec in E1.
    destruct E1 as (A1 & A2 & A3).
    match type of H with (let '(_, _) := l_point_rows room xs ?q in _) = _ => set (p2 := q) in H end.
    destruct (l_point_rows room xs p2) as [rs p3] eqn:E2. injection H as <- <-.
    destruct (Forall_inv Hf) as (F1 & F2 & F3 & F4).
    destruct (fill_vars_ok (ip_vars x) (pr_mem p1) va 0 (pr_brk p2) F3) as [V1 V2].
    destruct (IH p2 rs p3 E2 (Forall_inv_tail Hf)) as (I1 & I2 & I3).
    assert (K : pr_brk p2 = pr_brk p1) by reflexivity.
    split; [|split; [lia|]].
    + constructor.
      * apply row_point_frame with (m := pr_mem p2) (L := 0) (B := pr_brk p2); [lia|exact I2|intros y Hy; apply I3; lia|].
        exists va. split; [reflexivity|]. split; [lia|]. split; [lia|]. exact V1.
      * eapply Forall2_imp; [|exact I1]. intros r y Hr.
        eapply row_point_frame; [| | |exact Hr]; [lia|lia|reflexivity].
    + intros y Hy. rewrite I3 by lia. cbn [p2 on_mem pr_mem]. rewrite V2 by lia. now rewrite A3.
Qed.

Lemma point_row_ok : forall x va m a, in_range TPtr (Z.of_N va) = true -> l_point_fits x ->
  let m' := l_set_row l_trace_point (l_point_row x va) m a in
  get c_trace_point m' a "statement" = Z.of_N (ip_stmt x) /\ get c_trace_point m' a "vars" = Z.of_N va /\
  get c_trace_point m' a "n_vars" = Z.of_N (lenN (ip_vars x)) /\ get c_trace_point m' a "aux" = 0%Z /\
  get c_trace_point m' a "n_aux" = 0%Z /\
  (forall y, ~ (a <= y < a + 40) -> m' y = m y).
Proof.
  intros x va m a Hva (F1 & F2 & _ & _) m'.
  assert (Em : m' = write TU32 0 (write TPtr 0 (write TU32 (Z.of_N (lenN (ip_vars x)))
       (write TPtr (Z.of_N va) (write TU64 (Z.of_N (ip_stmt x)) m (a + 0)) (a + 8)) (a + 16)) (a + 24)) (a + 32)) by reflexivity.
  destruct (get_c_point m' a) as (G1 & G2 & G3 & G4 & G5). rewrite G1, G2, G3, G4, G5, Em.
  repeat split; try (intros y Hy; rewrite !write_out by (cbn [size]; lia); reflexivity).
  - fields; now apply u64_range.
  - fields; assumption.
  - fields; now apply u32_range.
  - fields; reflexivity.
  - fields; reflexivity.
Qed.

Lemma fill_points_ok : forall xs rows m a B, Forall2 (row_point m 0 B) rows xs -> Forall l_point_fits xs ->
  B <= a -> a + 40 * lenN xs < two64 ->
  Forall2 (fun b x => point_in (l_fill l_trace_point rows m a) b x 0 B) (elements a 40 (length xs)) xs /\
  (forall y, ~ (a <= y < a + 40 * lenN xs) -> l_fill l_trace_point rows m a y = m y).
Proof.
  induction xs as [|x xs IH]; intros rows m a B Hr Hf Ha Hb; inversion Hr as [|row ? rs ? R1 R2]; subst.
  - split; [constructor|reflexivity].
  - rewrite fill_cons. change (sizeof l_trace_point) with 40. rewrite lenN_cons in *. cbn [length].
    destruct R1 as (va & -> & P1 & P2 & P3).
    assert (Hx := Forall_inv Hf).
    assert (Hva : in_range TPtr (Z.of_N va) = true) by (apply ptr_range; lia).
    destruct (point_row_ok x va m a Hva Hx) as (Q1 & Q2 & Q3 & Q4 & Q5 & Q6).
    set (m1 := l_set_row l_trace_point (l_point_row x va) m a) in *.
    destruct (IH rs m1 (a + 40) B) as [I1 I2].
    { eapply Forall2_imp; [|exact R2]. intros r y Hy. eapply row_point_frame; [| | |exact Hy]; [lia|lia|].
      intros z Hz. apply Q6. lia. }
    { exact (Forall_inv_tail Hf). } { lia. } { lia. }
    set (m2 := l_fill l_trace_point rs m1 (a + 40)) in *.
    split.
    + rewrite elements_cons. constructor; [|exact I1].
      assert (K : point_in m1 a x 0 B).
      { destruct Hx as (_ & _ & _ & Haux). exists va, 0. rewrite Haux. cbn [map length].
        repeat split; try assumption; try lia.
        - unfold lenN. cbn [length]. lia.
        - eapply Forall2_imp_in; [|exact P3]. intros b v Hin Hv. cbv beta in *. apply el_in in Hin.
          eapply var_in_frame; [reflexivity|reflexivity| | |exact Hv].
          + intros y Hy. apply Q6. unfold lenN in *; lia.
          + intros y Hy. apply Q6. lia. }
      eapply (point_in_frame room); [reflexivity|reflexivity| | |exact K]; intros y Hy; apply I2; lia.
    + intros y Hy. rewrite I2 by lia. apply Q6. lia.
Qed.

Lemma put_points_ok : forall xs p a p', l_put_points room xs p = (a, p') -> Forall l_point_fits xs -> pr_brk p' < two64 ->
  (forall m, (forall y, y < pr_brk p' -> m y = pr_mem p' y) -> c_points_at m a xs) /\ pr_brk p <= pr_brk p'.
Proof.
  intros xs p a p' H Hf Hb. unfold l_put_points in H.
  destruct (l_point_rows room xs p) as [rows p1] eqn:E1.
  change (sizeof l_trace_point) with 40 in H.
  destruct (alloc_block room (40 * lenN xs) p1) as [b p2] eqn:E2. apply alloc_spec in E2. destruct E2 as (A1 & A2 & A3).
  injection H as <- <-. cbn [on_mem pr_mem pr_brk] in *.
  destruct (point_rows_ok xs p rows p1 E1 Hf) as (R1 & R2 & R3). split; [|lia]. intros m Hm.
  unfold c_points_at. change (sizeof c_trace_point) with 40.
  destruct (fill_points_ok xs rows (pr_mem p1) b (pr_brk p1) R1 Hf) as [K _]; [lia|lia|].
  eapply Forall2_imp_in; [|exact K]. intros c x Hin Hc. cbv beta in *. apply el_in in Hin.
  apply (point_in_at m c x 0 (pr_brk p1)). eapply (point_in_frame room); [reflexivity|reflexivity| | |exact Hc];
    intros y Hy; rewrite Hm by (unfold lenN in *; lia); now rewrite A3.
Qed.

(** ** Strings *)

Lemma put_string_ok : forall s p a p', l_put_string room s p = (a, p') -> c_text s ->
  pr_brk p < a /\ a + lenN (utf8 s) + 1 = pr_brk p' /\ (forall x, x < pr_brk p -> pr_mem p' x = pr_mem p x) /\
  c_string_at (pr_mem p') a (utf8 s).
Proof.
  intros s p a p' H Hs. unfold l_put_string in H. set (bs := (utf8 s ++ [byte_of_N 0])%list) in H.
  assert (Hl : lenN bs = lenN (utf8 s) + 1) by (unfold bs; rewrite lenN_app; reflexivity).
  destruct (alloc_block room (lenN bs) p) as [b p1] eqn:E. apply alloc_spec in E. destruct E as (A1 & A2 & A3).
  injection H as <- <-. cbn [on_mem pr_mem pr_brk].
  assert (L : load (put (pr_mem p1) b bs) b (length bs) = bs) by apply load_put_same.
  assert (Spl : forall l l' m a, load m a (length (l ++ l')) = (l ++ l')%list ->
    load m a (length l) = l /\ load m (a + lenN l) (length l') = l').
  { clear. intros l l' m a H. rewrite app_length, load_app in H. apply app_inv_length in H; [exact H|apply load_length]. }
  destruct (Spl _ _ _ _ L) as [L1 L2].
  split; [exact A1|]. split; [lia|]. split; [|split; [exact L1|split; [|now apply utf8_nul]]].
  - intros x Hx. rewrite put_out by lia. now rewrite A3.
  - unfold load in L2. cbn [length seq map] in L2. injection L2 as L2. rewrite N.add_0_r in L2. rewrite L2. reflexivity.
Qed.

Lemma string_at_frame : forall m m' a bs, (forall x, a <= x <= a + lenN bs -> m' x = m x) ->
  c_string_at m a bs -> c_string_at m' a bs.
Proof.
  intros m m' a bs H (H1 & H2 & H3). split; [|split; [|exact H3]].
  - rewrite <- H1 at 2. apply load_ext. intros x Hx. apply H. unfold lenN. lia.
  - rewrite H by lia. exact H2.
Qed.

Lemma fill_strings_brk : forall ss a p, pr_brk p <= pr_brk (l_fill_strings room ss a p).
Proof.
  induction ss as [|s ss IH]; intros a p; cbn [l_fill_strings]; [lia|].
  destruct (l_put_string room s p) as [b p1] eqn:E. unfold l_put_string in E.
  destruct (alloc_block room (lenN (utf8 s ++ [byte_of_N 0])) p) as [b' p1'] eqn:E2. apply alloc_spec in E2.
  injection E as <- <-. eapply N.le_trans; [|apply IH]. cbn [on_mem pr_brk]. lia.
Qed.

Lemma fill_strings_ok : forall ss a p, Forall c_text ss -> a + 8 * lenN ss <= pr_brk p ->
  pr_brk (l_fill_strings room ss a p) < two64 ->
  Forall2 (fun x bs => c_string_at (pr_mem (l_fill_strings room ss a p)) (Z.to_N (read TPtr (pr_mem (l_fill_strings room ss a p)) x)) bs)
    (elements a 8 (length ss)) (map utf8 ss) /\
  window a (a + 8 * lenN ss) p (l_fill_strings room ss a p).
Proof.
  induction ss as [|s ss IH]; intros a p Hf Ha Hb; cbn [l_fill_strings length map] in *.
  - split; [constructor|apply window_refl].
  - rewrite lenN_cons in *. destruct (l_put_string room s p) as [b p1] eqn:E.
    destruct (put_string_ok s p b p1 E (Forall_inv Hf)) as (S1 & S2 & S3 & S4).
    match type of Hb with pr_brk (l_fill_strings room ss _ ?q) < _ => set (p2 := q) in * end.
    assert (K : pr_brk p2 = pr_brk p1) by reflexivity.
    assert (Hm := fill_strings_brk ss (a + 8) p2).
    destruct (IH (a + 8) p2 (Forall_inv_tail Hf)) as [I1 [I2 I3]]; [lia|exact Hb|].
    set (p3 := l_fill_strings room ss (a + 8) p2) in *.
    assert (Em : pr_mem p2 = write TPtr (Z.of_N b) (pr_mem p1) a) by reflexivity.
    split.
    + rewrite elements_cons. constructor; [|exact I1].
      rewrite (read_ext TPtr (pr_mem p3) (pr_mem p2) a) by (intros y Hy; cbn [size] in Hy; apply I3; lia).
      rewrite Em at 1. rewrite read_write_same; [|reflexivity|apply ptr_range; lia|apply ptr_range; lia].
      rewrite N2Z.id. eapply string_at_frame; [|exact S4]. intros x Hx. rewrite I3 by lia. rewrite Em.
      apply write_out. cbn [size]. lia.
    + split; [lia|]. intros x Hx Hn. rewrite I3 by lia. rewrite Em, write_out by (cbn [size]; lia). apply S3. lia.
Qed.

Lemma put_strings_ok : forall ss p a p', l_put_strings room ss p = (a, p') -> Forall c_text ss -> pr_brk p' < two64 ->
  c_strings_at (pr_mem p') a (map utf8 ss) /\ (forall x, x < pr_brk p -> pr_mem p' x = pr_mem p x) /\ pr_brk p <= pr_brk p'.
Proof.
  intros ss p a p' H Hf Hb. unfold l_put_strings in H.
  destruct (alloc_block room (8 * lenN ss) p) as [b p1] eqn:E. apply alloc_spec in E. destruct E as (A1 & A2 & A3).
  injection H as <- <-. assert (Hm := fill_strings_brk ss b p1).
  destruct (fill_strings_ok ss b p1 Hf) as [F1 [F2 F3]]; [lia|exact Hb|]. split; [|split].
  - unfold c_strings_at. rewrite map_length. exact F1.
  - intros x Hx. rewrite F3 by lia. now rewrite A3.
  - lia.
Qed.

Lemma addition_ok : forall names xs p a b p', l_put_addition room names xs p = (a, b, p') ->
  Forall c_text names -> Forall l_point_fits xs -> pr_brk p' < two64 ->
  c_points_at (pr_mem p') a xs /\ c_strings_at (pr_mem p') b (map utf8 names).
Proof.
  intros names xs p a b p' H Hn Hx Hb. unfold l_put_addition in H.
  destruct (l_put_points room xs p) as [a1 p1] eqn:E1. destruct (l_put_strings room names p1) as [b1 p2] eqn:E2.
  injection H as <- <- <-.
  destruct (put_strings_ok names p1 b1 p2 E2 Hn Hb) as (S1 & S2 & S3).
  destruct (put_points_ok xs p a1 p1 E1 Hx) as [P1 P2]; [lia|]. split; [|exact S1]. apply P1. exact S2.
Qed.
End Put.

(** Points that Lisp encodes fit. *)
Lemma position_bound : forall n l i, position n l = Some i -> i < lenN l.
Proof.
  intros n. induction l as [|m l IH]; intros i H; cbn [position] in H; [discriminate|]. rewrite lenN_cons.
  destruct (bytes_eqb n m); [injection H as <-; lia|]. destruct (position n l) as [j|]; [|discriminate].
  injection H as <-. specialize (IH j eq_refl). lia.
Qed.
Lemma encode_var_fits : forall names v c, lenN names < two32 -> encode_var names v = Ok c -> l_var_fits c.
Proof.
  intros names v c Hn H. unfold encode_var in H. destruct (lv_value v) as [z| |]; try discriminate.
  destruct (position (lv_name v) names) as [n|] eqn:E1; [|discriminate].
  destruct (position (lv_type v) names) as [t|] eqn:E2; [|discriminate].
  apply position_bound in E1. apply position_bound in E2.
  destruct ((- 2 ^ 63 <=? z) && (z <? 2 ^ 64))%Z; [|discriminate].
  destruct ((match lv_size v with Some s => s | None => 0 end) <? two64) eqn:E3; [|discriminate]. apply N.ltb_lt in E3.
  injection H as <-. split; [|eexists; reflexivity].
  assert (B := Z.mod_pos_bound z (2 ^ 64) ltac:(lia)).
  assert (Z.to_N (z mod 2 ^ 64) < two64) by (unfold two64; lia).
  unfold fits_var. cbn [cv_format cv_value cv_name cv_tname cv_size cv_bsz cv_has].
  assert (8 < two32) by reflexivity.
  repeat split; try lia; [destruct (z <? 0)%Z; assumption|destruct (lv_size v); lia].
Qed.
Lemma mapO_each : forall A B (f : A -> outcome B) l r, mapO f l = Ok r -> Forall2 (fun x y => f x = Ok y) l r.
Proof.
  induction l as [|x l IH]; intros r H; cbn [mapO] in H; [injection H as <-; constructor|].
  destruct (f x) eqn:E; try discriminate. cbn [bind] in H. destruct (mapO f l) eqn:E2; try discriminate.
  cbn [bind] in H. injection H as <-. constructor; [exact E|]. now apply IH.
Qed.
Lemma encode_point_fits : forall names p x, lenN names < two32 -> lenN (lp_scopes p) < two32 ->
  encode_point names p = Ok x -> l_point_fits x.
Proof.
  intros names p x Hn Hl H. unfold encode_point in H.
  destruct (mapO (encode_var names) (lp_scopes p)) as [vs| | | |] eqn:E; try discriminate. cbn [bind] in H.
  destruct (pack (lp_f p) (lp_c p) <? two64) eqn:E2; [|discriminate]. apply N.ltb_lt in E2. injection H as <-.
  apply mapO_each in E. unfold l_point_fits. cbn [ip_stmt ip_vars ip_aux]. split; [exact E2|].
  assert (L : length (lp_scopes p) = length vs) by (clear - E; induction E; cbn [length]; lia).
  split; [unfold lenN in *; lia|]. split; [|reflexivity].
  clear - E Hn. induction E; constructor; [now apply (encode_var_fits names x)|assumption].
Qed.
