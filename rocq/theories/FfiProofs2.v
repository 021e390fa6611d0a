(** Proofs about the foreign interface: what the library writes is there. *)
From Coq Require Import Strings.String.
From Verif Require Import Base BaseProofs Types Compare Predicate Query CApi Lisp Ffi FfiSpec FfiProofs.
Local Open Scope string_scope.
Local Open Scope N_scope.

(** Between [p] and [p'] memory was written only in [lo, hi) and above the old break. *)
Definition window (lo hi : N) (p p' : proc) : Prop :=
  pr_brk p <= pr_brk p' /\
  forall x, x < pr_brk p -> ~ (lo <= x < hi) -> pr_mem p' x = pr_mem p x.

Lemma window_refl : forall lo hi p, window lo hi p p.
Proof. split; [lia|reflexivity]. Qed.
Lemma window_trans : forall lo hi p q r, window lo hi p q -> window lo hi q r -> window lo hi p r.
Proof.
  intros lo hi p q r [H1 H2] [H3 H4]. split; [lia|]. intros x Hx Hn. rewrite H4 by lia. now apply H2.
Qed.
Lemma window_wider : forall lo hi lo' hi' p q, lo' <= lo -> hi <= hi' -> window lo hi p q -> window lo' hi' p q.
Proof. intros lo hi lo' hi' p q Hl Hh [H1 H2]. split; [exact H1|]. intros x Hx Hn. apply H2; [exact Hx|lia]. Qed.

Lemma get_c_var : forall m a,
  get c_var_info m a "value" = read TU64 m (a + 0) /\
  get c_var_info m a "format" = read TU32 m (a + 8) /\
  get c_var_info m a "var_name_index" = read TU32 m (a + 12) /\
  get c_var_info m a "type_name_index" = read TU32 m (a + 16) /\
  get c_var_info m a "size" = read TU32 m (a + 20) /\
  get c_var_info m a "buffer_size" = read TU64 m (a + 24) /\
  get c_var_info m a "has_buffer_size" = read TU8 m (a + 32).
Proof. intros. repeat split; reflexivity. Qed.
Lemma get_c_point : forall m a,
  get c_trace_point m a "statement" = read TU64 m (a + 0) /\
  get c_trace_point m a "vars" = read TPtr m (a + 8) /\
  get c_trace_point m a "n_vars" = read TU32 m (a + 16) /\
  get c_trace_point m a "aux" = read TPtr m (a + 24) /\
  get c_trace_point m a "n_aux" = read TU32 m (a + 32).
Proof. intros. repeat split; reflexivity. Qed.
Lemma size_var : sizeof c_var_info = 40. Proof. reflexivity. Qed.
Lemma size_point : sizeof c_trace_point = 40. Proof. reflexivity. Qed.

Ltac fields := repeat (rewrite read_write_other by (cbn [size]; lia));
  try (apply read_write_same; [reflexivity|..]).
Ltac ranges := first [ apply range_u; [reflexivity|]; cbn [size]; first [ assumption | vm_compute; assumption | lia ] ].

Ltac same_reads m m' tac :=
  repeat match goal with |- context[read ?t m ?b] =>
    rewrite (read_ext t m m' b) by (let y := fresh "y" in let Hy := fresh "Hy" in intros y Hy; tac y Hy) end.

Lemma u64_range : forall n, n < two64 -> in_range TU64 (Z.of_N n) = true.
Proof. intros. apply range_u; [reflexivity|]. exact H. Qed.
Lemma ptr_range : forall n, n < two64 -> in_range TPtr (Z.of_N n) = true.
Proof. intros. apply range_u; [reflexivity|]. exact H. Qed.
Lemma u32_range : forall n, n < two32 -> in_range TU32 (Z.of_N n) = true.
Proof. intros. apply range_u; [reflexivity|]. exact H. Qed.
Lemma u8_range : forall n, n < 256 -> in_range TU8 (Z.of_N n) = true.
Proof. intros. apply range_u; [reflexivity|]. exact H. Qed.
Lemma format_range : forall f, in_range TU32 (code c_type_format (c_format_name f)) = true.
Proof. destruct f; reflexivity. Qed.

(** A variable with the place of its blob. *)
Definition var_in (m : memory) (a : N) (v : cvar) (L B : N) : Prop :=
  (exists x, get c_var_info m a "value" = Z.of_N x /\ holds_value m v x /\
     match cv_value v with VBlob bs => L <= x /\ x + lenN bs <= B | _ => True end) /\
  get c_var_info m a "format" = code c_type_format (c_format_name (cv_format v)) /\
  get c_var_info m a "var_name_index" = Z.of_N (cv_name v) /\
  get c_var_info m a "type_name_index" = Z.of_N (cv_tname v) /\
  get c_var_info m a "size" = Z.of_N (cv_size v) /\
  get c_var_info m a "buffer_size" = Z.of_N (cv_bsz v) /\
  get c_var_info m a "has_buffer_size" = Z.of_N (cv_has v).

Lemma var_in_at : forall m a v L B, var_in m a v L B -> c_var_at m a v.
Proof. intros m a v L B ((x & H1 & H2 & _) & H). split; [exists x; split; assumption|exact H]. Qed.

Lemma var_in_frame : forall m m' a v L B L' B', L' <= L -> B <= B' ->
  (forall x, a <= x < a + 40 -> m' x = m x) -> (forall x, L <= x < B -> m' x = m x) ->
  var_in m a v L B -> var_in m' a v L' B'.
Proof.
  intros m m' a v L B L' B' HL HB Ha Hb ((x & H1 & H2 & H3) & H4 & H5 & H6 & H7 & H8 & H9).
  destruct (get_c_var m a) as (E1 & E2 & E3 & E4 & E5 & E6 & E7).
  destruct (get_c_var m' a) as (F1 & F2 & F3 & F4 & F5 & F6 & F7).
  unfold var_in. rewrite F1, F2, F3, F4, F5, F6, F7.
  rewrite E1 in H1. rewrite E2 in H4. rewrite E3 in H5. rewrite E4 in H6. rewrite E5 in H7. rewrite E6 in H8. rewrite E7 in H9.
  same_reads m' m ltac:(fun y Hy => apply Ha; cbn [size] in Hy; lia).
  repeat split; try assumption.
  exists x. split; [exact H1|]. split.
  - unfold holds_value in *. destruct (cv_format v); destruct (cv_value v); try assumption.
    destruct H2 as [H2 Hs]. split; [|exact Hs]. rewrite <- H2 at 2. apply load_ext.
    intros y Hy. apply Hb. unfold lenN in H3. lia.
  - destruct (cv_value v); try exact Logic.I. lia.
Qed.

Section W.
Variable room : N -> N.

Lemma alloc_spec : forall n p a p', alloc_block room n p = (a, p') ->
  pr_brk p < a /\ pr_brk p' = a + n /\ pr_mem p' = pr_mem p.
Proof.
  unfold alloc_block. intros n p a p' H. set (b := 1 + pr_brk p + room (pr_brk p)) in H.
  assert (Hb : pr_brk p < b) by (subst b; lia). clearbody b. inversion H; subst. auto.
Qed.

Lemma put_value_ok : forall v p x p', c_put_value room (cv_value v) p = (x, p') -> fits_var v ->
  (forall lo, window lo lo p p') /\ (x < two64 \/ x < pr_brk p' + 1) /\ holds_value (pr_mem p') v x /\
  match cv_value v with VBlob bs => pr_brk p <= x /\ x + lenN bs <= pr_brk p' | _ => x < two64 end.
Proof.
  intros v p x p' H (Hf & _). unfold c_put_value, holds_value in *.
  destruct (cv_format v); destruct (cv_value v); try contradiction;
    try (inversion H; subst; split; [intros; apply window_refl|]; split; [left; assumption|]; split; [reflexivity|assumption]).
  destruct (alloc_block room (lenN bs) p) as [b p1] eqn:E. apply alloc_spec in E. destruct E as (E1 & E2 & E3).
  inversion H; subst. cbn [on_mem pr_mem pr_brk].
  split; [|split; [right; lia|split; [split; [apply load_put_same|exact Hf]|lia]]].
  intros lo. split; cbn [on_mem pr_mem pr_brk]; [lia|]. intros y Hy _. rewrite put_out by lia. now rewrite E3.
Qed.

Lemma put_var_ok : forall v a p p', c_put_var room v a p = p' -> fits_var v -> a + 40 <= pr_brk p ->
  pr_brk p' < two64 -> var_in (pr_mem p') a v (pr_brk p) (pr_brk p') /\ window a (a + 40) p p'.
Proof.
  intros v a p p' H Hf Ha Hb. unfold c_put_var in H.
  destruct (c_put_value room (cv_value v) p) as [x p1] eqn:E.
  destruct (put_value_ok _ _ _ _ E Hf) as (Hw & Hx & Hv & Hr).
  destruct (Hw 0) as [Hw1 Hw2].
  assert (Hx' : x < two64 \/ cv_value v = VIndet).
  { destruct (cv_value v); [left; exact Hr| |right; reflexivity]. left.
    assert (pr_brk p' = pr_brk p1) by (subst p'; reflexivity).
    lia. }
  destruct Hx' as [Hx'|Hx'].
  2:{ destruct Hf as [Hf _]. rewrite Hx' in Hf. destruct (cv_format v); contradiction. }
  destruct Hf as (_ & F1 & F2 & F3 & F4 & F5).
  subst p'. cbn [on_mem pr_mem pr_brk] in *.
  set (m := pr_mem p1) in *.
  match goal with |- var_in ?M _ _ _ _ /\ _ => set (m' := M) end.
  assert (Hout : forall y, ~ (a <= y < a + 40) -> m' y = m y).
  { intros y Hy. unfold m'.
    repeat match goal with |- context[set c_var_info ?f ?z ?mm a] =>
      first [ change (set c_var_info f z mm a) with (write TU64 z mm (a + 0))
            | change (set c_var_info f z mm a) with (write TU32 z mm (a + 8))
            | change (set c_var_info f z mm a) with (write TU32 z mm (a + 12))
            | change (set c_var_info f z mm a) with (write TU32 z mm (a + 16))
            | change (set c_var_info f z mm a) with (write TU32 z mm (a + 20))
            | change (set c_var_info f z mm a) with (write TU64 z mm (a + 24))
            | change (set c_var_info f z mm a) with (write TU8 z mm (a + 32)) ] end.
    rewrite !write_out by (cbn [size]; lia). reflexivity. }
  split.
  - destruct (get_c_var m' a) as (G1 & G2 & G3 & G4 & G5 & G6 & G7).
    assert (Em : m' = write TU8 (Z.of_N (cv_has v)) (write TU64 (Z.of_N (cv_bsz v)) (write TU32 (Z.of_N (cv_size v))
       (write TU32 (Z.of_N (cv_tname v)) (write TU32 (Z.of_N (cv_name v))
       (write TU32 (code c_type_format (c_format_name (cv_format v))) (write TU64 (Z.of_N x) m (a + 0)) (a + 8)) (a + 12)) (a + 16)) (a + 20)) (a + 24)) (a + 32))
      by reflexivity.
    assert (G : forall f, f = m' -> f = m') by auto. clear G.
    unfold var_in. rewrite G1, G2, G3, G4, G5, G6, G7. repeat split.
    + exists x. split; [|split].
      * rewrite Em. fields; now apply u64_range.
      * unfold holds_value in *. destruct (cv_format v); destruct (cv_value v); try assumption.
        destruct Hv as [Hv1 Hv2]. split; [|exact Hv2]. rewrite <- Hv1 at 2. apply load_ext.
        intros y Hy. apply Hout. unfold lenN in Hr. lia.
      * destruct (cv_value v); try exact Logic.I. exact Hr.
    + rewrite Em. fields; apply format_range.
    + rewrite Em. fields; now apply u32_range.
    + rewrite Em. fields; now apply u32_range.
    + rewrite Em. fields; now apply u32_range.
    + rewrite Em. fields; now apply u64_range.
    + rewrite Em. fields; now apply u8_range.
  - split; [exact Hw1|]. intros y Hy Hn. cbn [on_mem pr_mem pr_brk]. fold m'. rewrite Hout by exact Hn.
    apply Hw2; [exact Hy|lia].
Qed.

Lemma put_vars_ok : forall vs a p p', c_put_vars room vs a p = p' -> Forall fits_var vs ->
  a + 40 * lenN vs <= pr_brk p -> pr_brk p' < two64 ->
  Forall2 (fun b v => var_in (pr_mem p') b v (pr_brk p) (pr_brk p')) (elements a 40 (length vs)) vs /\
  window a (a + 40 * lenN vs) p p'.
Proof.
  induction vs as [|v vs IH]; intros a p p' H Hf Ha Hb; cbn [c_put_vars length] in H |- *.
  - subst. split; [constructor|]. apply window_refl.
  - rewrite size_var in H. rewrite lenN_cons in *.
    assert (Hv := Forall_inv Hf). assert (Hvs := Forall_inv_tail Hf). clear Hf.
    remember (c_put_var room v a p) as p1 eqn:E. symmetry in E.
    assert (B1 : pr_brk p <= pr_brk p1).
    { subst p1. unfold c_put_var. destruct (c_put_value room (cv_value v) p) as [x q] eqn:E.
      destruct (put_value_ok _ _ _ _ E Hv) as (W & _). destruct (W 0). cbn. lia. }
    destruct (IH (a + 40) p1 p' H Hvs) as [I1 I2]; [lia|exact Hb|].
    destruct (put_var_ok _ _ _ _ E Hv) as [V1 V2]; [lia|destruct I2; lia|].
    destruct I2 as [I2 I3]. split.
    + rewrite elements_cons. constructor.
      * eapply var_in_frame; [reflexivity| |..|exact V1]; [exact I2|..]; intros y Hy; apply I3; lia.
      * eapply Forall2_imp; [|exact I1]. intros b w Hw. cbv beta in *.
        eapply var_in_frame; [exact B1|reflexivity|reflexivity|reflexivity|exact Hw].
    + eapply window_trans; [eapply window_wider; [..|exact V2]; lia|].
      eapply window_wider; [..|split; [exact I2|exact I3]]; lia.
Qed.

Lemma put_words_ok : forall us a m, Forall (fun u => u < two64) us ->
  map (read TU64 (c_put_words us a m)) (elements a 8 (length us)) = map Z.of_N us /\
  (forall x, ~ (a <= x < a + 8 * lenN us) -> c_put_words us a m x = m x).
Proof.
  induction us as [|u us IH]; intros a m Hf; cbn [c_put_words length].
  - split; [reflexivity|reflexivity].
  - assert (Hu := Forall_inv Hf). assert (Hus := Forall_inv_tail Hf). rewrite lenN_cons.
    destruct (IH (a + 8) (write TU64 (Z.of_N u) m a) Hus) as [I1 I2]. split.
    + rewrite elements_cons. cbn [map]. f_equal; [|exact I1].
      rewrite (read_ext TU64 _ (write TU64 (Z.of_N u) m a)).
      * apply read_write_same; [reflexivity|now apply u64_range|now apply u64_range].
      * intros x Hx. apply I2. cbn [size] in Hx. lia.
    + intros x Hx. rewrite I2 by lia. apply write_out. cbn [size]. lia.
Qed.

(** A point with the place of its arrays and blobs. *)
Definition point_in (m : memory) (a : N) (x : ipoint) (L B : N) : Prop :=
  exists va xa,
  get c_trace_point m a "statement" = Z.of_N (ip_stmt x) /\
  get c_trace_point m a "vars" = Z.of_N va /\
  get c_trace_point m a "n_vars" = Z.of_N (lenN (ip_vars x)) /\
  get c_trace_point m a "aux" = Z.of_N xa /\
  get c_trace_point m a "n_aux" = Z.of_N (lenN (ip_aux x)) /\
  L <= va /\ va + 40 * lenN (ip_vars x) <= B /\ L <= xa /\ xa + 8 * lenN (ip_aux x) <= B /\
  Forall2 (fun b v => var_in m b v L B) (elements va 40 (length (ip_vars x))) (ip_vars x) /\
  map (read TU64 m) (elements xa 8 (length (ip_aux x))) = map Z.of_N (ip_aux x).

Lemma point_in_at : forall m a x L B, point_in m a x L B -> c_point_at m a x.
Proof.
  intros m a x L B (va & xa & H1 & H2 & H3 & H4 & H5 & _ & _ & _ & _ & H6 & H7).
  unfold c_point_at. rewrite H2, H4, !N2Z.id, size_var. repeat split; try assumption.
  eapply Forall2_imp; [|exact H6]. cbv beta. intros b v Hv. exact (var_in_at _ _ _ _ _ Hv).
Qed.

Lemma elements_in : forall n a w b, In b (elements a w n) -> a <= b /\ b + w <= a + w * N.of_nat n.
Proof.
  induction n; intros a w b H; [destruct H|]. rewrite elements_cons in H. destruct H as [<-|H]; [nia|].
  apply IHn in H. nia.
Qed.
Lemma Forall2_imp_in : forall A B (P Q : A -> B -> Prop) l l',
  (forall a b, In a l -> P a b -> Q a b) -> Forall2 P l l' -> Forall2 Q l l'.
Proof. induction 2; constructor; [apply H; [now left|assumption]|apply IHForall2; intros; apply H; [now right|assumption]]. Qed.

Lemma point_in_frame : forall m m' a x L B L' B', L' <= L -> B <= B' ->
  (forall y, a <= y < a + 40 -> m' y = m y) -> (forall y, L <= y < B -> m' y = m y) ->
  point_in m a x L B -> point_in m' a x L' B'.
Proof.
  intros m m' a x L B L' B' HL HB Ha Hb (va & xa & H1 & H2 & H3 & H4 & H5 & P1 & P2 & P3 & P4 & H6 & H7).
  exists va, xa.
  destruct (get_c_point m a) as (E1 & E2 & E3 & E4 & E5).
  destruct (get_c_point m' a) as (F1 & F2 & F3 & F4 & F5).
  rewrite F1, F2, F3, F4, F5. rewrite E1 in H1. rewrite E2 in H2. rewrite E3 in H3. rewrite E4 in H4. rewrite E5 in H5.
  same_reads m' m ltac:(fun y Hy => apply Ha; cbn [size] in Hy; lia).
  repeat split; try assumption; try lia.
  - eapply Forall2_imp_in; [|exact H6]. intros b v Hin Hv. cbv beta in *. apply elements_in in Hin.
    eapply var_in_frame; [exact HL|exact HB| |exact Hb|exact Hv].
    intros y Hy. apply Hb. unfold lenN in *. lia.
  - rewrite <- H7. apply map_ext_in. intros b Hin. apply elements_in in Hin. apply read_ext.
    intros y Hy. cbn [size] in Hy. apply Hb. unfold lenN in *. lia.
Qed.

Lemma put_point_ok : forall x a p p', c_put_point room x a p = p' -> fits_point x -> a + 40 <= pr_brk p ->
  (forall vs b q, pr_brk q <= pr_brk (c_put_vars room vs b q)) ->
  pr_brk p' < two64 -> point_in (pr_mem p') a x (pr_brk p) (pr_brk p') /\ window a (a + 40) p p'.
Proof.
  intros x a p p' H (F1 & F2 & F3 & F4 & F5) Ha Hmono Hb. unfold c_put_point in H. rewrite size_var in H.
  destruct (alloc_block room (40 * lenN (ip_vars x)) p) as [va p1] eqn:E1.
  destruct (alloc_block room (8 * lenN (ip_aux x)) p1) as [xa p2] eqn:E2.
  apply alloc_spec in E1. destruct E1 as (A1 & A2 & A3).
  apply alloc_spec in E2. destruct E2 as (B1 & B2 & B3).
  cbv zeta in H.
  match type of H with c_put_vars room _ _ (on_mem _ (on_mem ?f p2)) = _ => set (g := f) in H end.
  set (p3 := on_mem g p2) in H.
  set (p4 := on_mem (c_put_words (ip_aux x) xa) p3) in H.
  assert (K : pr_brk p4 = pr_brk p2) by reflexivity.
  assert (Hbr : pr_brk p4 <= pr_brk p') by (subst p'; apply Hmono).
  destruct (put_words_ok (ip_aux x) xa (pr_mem p3) F5) as [W1 W2].
  destruct (put_vars_ok _ _ _ _ H F4) as [V1 V2]; [lia|exact Hb|].
  destruct V2 as [V2 V3].
  assert (Em : pr_mem p3 = write TU32 (Z.of_N (lenN (ip_aux x))) (write TPtr (Z.of_N xa) (write TU32 (Z.of_N (lenN (ip_vars x)))
       (write TPtr (Z.of_N va) (write TU64 (Z.of_N (ip_stmt x)) (pr_mem p2) (a + 0)) (a + 8)) (a + 16)) (a + 24)) (a + 32))
    by reflexivity.
  assert (Hin : forall y, a <= y < a + 40 -> pr_mem p' y = pr_mem p3 y).
  { intros y Hy. rewrite V3 by lia. cbn [p4 on_mem pr_mem]. apply W2. lia. }
  split.
  - exists va, xa.
    destruct (get_c_point (pr_mem p') a) as (G1 & G2 & G3 & G4 & G5). rewrite G1, G2, G3, G4, G5.
    same_reads (pr_mem p') (pr_mem p3) ltac:(fun y Hy => apply Hin; cbn [size] in Hy; lia).
    rewrite Em. repeat split; try lia.
    + fields; now apply u64_range.
    + fields; apply ptr_range; lia.
    + fields; now apply u32_range.
    + fields; apply ptr_range; lia.
    + fields; now apply u32_range.
    + eapply Forall2_imp; [|exact V1]. intros b v Hv. cbv beta in *.
      eapply var_in_frame; [|reflexivity|reflexivity|reflexivity|exact Hv]. lia.
    + rewrite <- W1. apply map_ext_in. intros b Hb'. apply elements_in in Hb'. apply read_ext.
      intros y Hy. cbn [size] in Hy. unfold lenN in *. rewrite V3 by lia. reflexivity.
  - split; [lia|]. intros y Hy Hn. rewrite V3 by lia. cbn [p4 on_mem pr_mem]. rewrite W2 by lia.
    rewrite Em, !write_out by (cbn [size]; lia). now rewrite B3, A3.
Qed.

Lemma put_value_brk : forall v q, pr_brk q <= pr_brk (snd (c_put_value room v q)).
Proof. intros. destruct v; cbn [c_put_value]; try (cbn [snd]; lia).
  destruct (alloc_block room (lenN bs) q) as [b p] eqn:E. apply alloc_spec in E. cbn [snd on_mem pr_brk]. lia. Qed.
Lemma put_vars_brk : forall vs b q, pr_brk q <= pr_brk (c_put_vars room vs b q).
Proof.
  induction vs as [|v vs IH]; intros b q; cbn [c_put_vars]; [lia|].
  eapply N.le_trans; [|apply IH]. unfold c_put_var.
  assert (H := put_value_brk (cv_value v) q). destruct (c_put_value room (cv_value v) q). exact H.
Qed.
Lemma put_point_brk : forall x a p, pr_brk p <= pr_brk (c_put_point room x a p).
Proof.
  intros. unfold c_put_point. rewrite size_var.
  destruct (alloc_block room (40 * lenN (ip_vars x)) p) as [va p1] eqn:E1.
  destruct (alloc_block room (8 * lenN (ip_aux x)) p1) as [xa p2] eqn:E2.
  apply alloc_spec in E1. apply alloc_spec in E2.
  eapply N.le_trans; [|apply put_vars_brk]. cbn [on_mem pr_brk]. lia.
Qed.

Lemma put_points_ok : forall xs a p p', c_put_points room xs a p = p' -> Forall fits_point xs ->
  a + 40 * lenN xs <= pr_brk p -> pr_brk p' < two64 ->
  Forall2 (fun b x => point_in (pr_mem p') b x (pr_brk p) (pr_brk p')) (elements a 40 (length xs)) xs /\
  window a (a + 40 * lenN xs) p p'.
Proof.
  induction xs as [|x xs IH]; intros a p p' H Hf Ha Hb; cbn [c_put_points length] in H |- *.
  - subst. split; [constructor|]. apply window_refl.
  - rewrite size_point in H. rewrite lenN_cons in *.
    assert (Hv := Forall_inv Hf). assert (Hvs := Forall_inv_tail Hf). clear Hf.
    remember (c_put_point room x a p) as p1 eqn:E. symmetry in E.
    assert (B1 : pr_brk p <= pr_brk p1) by (subst p1; apply put_point_brk).
    destruct (IH (a + 40) p1 p' H Hvs) as [I1 I2]; [lia|exact Hb|].
    destruct (put_point_ok _ _ _ _ E Hv) as [V1 V2]; [lia|apply put_vars_brk|destruct I2; lia|].
    destruct I2 as [I2 I3]. split.
    + rewrite elements_cons. constructor.
      * eapply point_in_frame; [reflexivity| |..|exact V1]; [exact I2|..]; intros y Hy; apply I3; lia.
      * eapply Forall2_imp; [|exact I1]. intros b w Hw. cbv beta in *.
        eapply point_in_frame; [exact B1|reflexivity|reflexivity|reflexivity|exact Hw].
    + eapply window_trans; [eapply window_wider; [..|exact V2]; lia|].
      eapply window_wider; [..|split; [exact I2|exact I3]]; lia.
Qed.

Lemma points_written : forall xs p a p', c_points_array room xs p = (a, p') -> Forall fits_point xs ->
  pr_brk p' < two64 -> c_points_at (pr_mem p') a xs.
Proof.
  intros xs p a p' H Hf Hb. unfold c_points_array in H. rewrite size_point in H.
  destruct (alloc_block room (40 * lenN xs) p) as [b p1] eqn:E. apply alloc_spec in E. inversion H; subst.
  destruct (put_points_ok xs a p1 _ eq_refl Hf) as [H1 _]; [lia|exact Hb|].
  unfold c_points_at. rewrite size_point. eapply Forall2_imp; [|exact H1]. cbv beta. intros b v Hv. exact (point_in_at _ _ _ _ _ Hv).
Qed.
End W.
