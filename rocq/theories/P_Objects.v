(** Properties C32 - C34: sharing, equality, hashing and ordering of the data classes. *)
From Verif Require Import BaseProofs Types Compare Predicate PredSpec PredProofs Query QueryProofs2 Order OrderSpec OrderProofs Flyweight FlyweightSpec FlyweightProofs.

(** C32.  A program that uses shared variables and point data sees exactly
    what it would see if every object had its own copy; all objects remain
    valid; the pools keep nothing that is no longer referenced; two shared
    objects are the same entry iff their values are equal.  For every hash
    function and every choice of addresses for new entries. *)
Theorem C32_sharing_invisible : forall new hv hd ops p,
  (forall l, ~ In (new l) l) -> Forall var_ok (created ops) -> run_plain (mkPl [] []) ops = Some p ->
  exists s, run_shared new hv hd (mkSh [] [] [] []) ops = Ok s /\
    see_vars (sh_vp s) (sh_vars s) = Ok (pl_vars p) /\
    Forall2 (fun a d => see_data s a = Ok d) (sh_data s) (pl_data p).
Proof.
  intros new hv hd ops p Hnew HC H. destruct (run_ok new hv hd Hnew ops _ _ _ minv_empty HC H) as (s & E & HI). exists s. split; [exact E|].
  destruct HI as (_ & _ & RV & RD). split; [apply see_vars_ok; exact RV|]. eapply F2_imp; [exact RD|]. intros. apply see_data_ok. assumption.
Qed.
Print Assumptions C32_sharing_invisible.

Theorem C32_same_entry_iff_equal : forall new hv hd ops p s,
  (forall l, ~ In (new l) l) -> Forall var_ok (created ops) -> run_plain (mkPl [] []) ops = Some p ->
  run_shared new hv hd (mkSh [] [] [] []) ops = Ok s ->
  (forall i j a b v w, nth_error (sh_vars s) i = Some a -> nth_error (sh_vars s) j = Some b ->
     nth_error (pl_vars p) i = Some v -> nth_error (pl_vars p) j = Some w -> (a = b <-> v = w)) /\
  (forall i j a b d e, nth_error (sh_data s) i = Some a -> nth_error (sh_data s) j = Some b ->
     nth_error (pl_data p) i = Some d -> nth_error (pl_data p) j = Some e -> (a = b <-> d = e)).
Proof.
  intros new hv hd ops p s Hnew HC H Hs. destruct (run_ok new hv hd Hnew ops _ _ _ minv_empty HC H) as (s' & E & HI). rewrite E in Hs. inversion Hs; subst s'.
  pose proof HI as (V & _ & RV & RD). split.
  - intros i j a b v w Ha Hb Hv Hw. destruct (F2_nth _ _ _ _ _ _ _ RV Hv) as (a' & Ea & Ga). destruct (F2_nth _ _ _ _ _ _ _ RV Hw) as (b' & Eb & Gb).
    rewrite Ha in Ea. rewrite Hb in Eb. inversion Ea; inversion Eb; subst. split; [intros <-; congruence|intros <-; eapply get_inj; eauto].
  - intros i j a b d e Ha Hb Hd He. destruct (F2_nth _ _ _ _ _ _ _ RD Hd) as (a' & Ea & Ga). destruct (F2_nth _ _ _ _ _ _ _ RD He) as (b' & Eb & Gb).
    rewrite Ha in Ea. rewrite Hb in Eb. inversion Ea; inversion Eb; subst. eapply denotes_inj; eauto.
Qed.
Print Assumptions C32_same_entry_iff_equal.

Theorem C32_no_leak : forall new hv hd ops, (forall l, ~ In (new l) l) -> Forall var_ok (created ops) ->
  run_plain (mkPl [] []) ops = Some (mkPl [] []) -> run_shared new hv hd (mkSh [] [] [] []) ops = Ok (mkSh [] [] [] []).
Proof.
  intros new hv hd ops Hnew HC H. destruct (run_ok new hv hd Hnew ops _ _ _ minv_empty HC H) as ([vp dp cv cd] & E & (V & Dp & RV & RD)). cbn in *.
  inversion RV; inversion RD; subst. rewrite E. f_equal.
  assert (dp = []). { destruct dp as [|e dp]; [reflexivity|]. exfalso. apply (get_live _ _ _ (f_adr e) (f_val e) Dp). cbn. rewrite N.eqb_refl. reflexivity. }
  subst dp. destruct vp as [|e vp]; [reflexivity|]. exfalso. apply (get_live _ _ _ (f_adr e) (f_val e) V). cbn. rewrite N.eqb_refl. reflexivity.
Qed.
Print Assumptions C32_no_leak.

(** For values with bits beyond the variable's size, which neither the reader nor add_trace_points produces, sharing is visible. *)
Theorem C32_excess_bits_refuted : forall new hv hd, hv (mkV (VBits 1) 0 0 UNSIGNED 4 0 0) = hv (mkV (VBits 0x100000001) 0 0 UNSIGNED 4 0 0) ->
  exists ops p s, run_plain (mkPl [] []) ops = Some p /\ run_shared new hv hd (mkSh [] [] [] []) ops = Ok s /\
    exists vs, see_vars (sh_vp s) (sh_vars s) = Ok vs /\ vs <> pl_vars p.
Proof.
  intros new hv hd Hh. exists [NewVar (mkV (VBits 1) 0 0 UNSIGNED 4 0 0); NewVar (mkV (VBits 0x100000001) 0 0 UNSIGNED 4 0 0)].
  eexists _, _. split; [vm_compute; reflexivity|]. cbn [run_shared step_shared sh_vp]. unfold intern at 1. cbn [pool_find find bind sh_vp sh_dp sh_vars sh_data app].
  unfold intern. cbn [pool_find find f_val]. unfold pool_find. cbn [find f_val]. rewrite Hh, N.eqb_refl.
  replace (var_eqb (mkV (VBits 1) 0 0 UNSIGNED 4 0 0) (mkV (VBits 0x100000001) 0 0 UNSIGNED 4 0 0)) with true by reflexivity. cbn [andb retain f_adr]. rewrite N.eqb_refl. cbn [bind].
  split; [reflexivity|]. eexists. cbn [sh_vp sh_vars see_vars fold_right app pool_get f_adr f_val]. rewrite N.eqb_refl. split; [reflexivity|]. discriminate.
Qed.
Print Assumptions C32_excess_bits_refuted.

Definition ex_new (l : list N) : N := 1 + fold_right N.max 0 l.
Lemma ex_new_fresh : forall l, ~ In (ex_new l) l.
Proof.
  intros l H. unfold ex_new in H. assert (G : forall m x, In x m -> x <= fold_right N.max 0 m).
  { intros m x. induction m as [|y m IH]; cbn; [contradiction|]. intros [->|Hx]; [lia|]. apply IH in Hx. lia. }
  apply G in H. lia.
Qed.
Definition ov (u : N) : var := mkV (VBits u) 0 0 UNSIGNED 4 0 0.
Definition ex_ops : list fop :=
  [NewVar (ov 1); NewVar (ov 2); NewVar (ov 1); NewData [] [0; 1]%nat [7]; NewData [] [2; 1]%nat [7]; DropVar 0; DropVar 0; DropVar 0; DropData 0; VarOfData 0 1].
Example C32_ex : Forall var_ok (created ex_ops) /\ run_plain (mkPl [] []) ex_ops = Some (mkPl [ov 2] [mkDV [] [ov 1; ov 2] [7]]) /\
  run_shared ex_new (fun _ => 0) (fun _ => 0) (mkSh [] [] [] []) ex_ops =
    Ok (mkSh [mkF 2 (ov 2) 2; mkF 1 (ov 1) 1] [mkF 1 (mkSD [] [1; 2] [7]) 1] [2] [1]).
Proof.
  split; [|split; vm_compute; reflexivity]. cbn. repeat (apply Forall_cons; [unfold var_ok; cbn [v_fmt v_size v_val ov]; split; [lia|eexists; split; [reflexivity|vm_compute; reflexivity]]|]).
  apply Forall_nil.
Qed.

(** C33.  [hc] is boost::hash_combine, [adr] and [dat] the addresses of shared objects. *)
Theorem C33_equivalence :
  equivalence (fun _ => True) type_eqb /\ equivalence (fun _ => True) bufsz_eqb /\ equivalence has_value var_eqb /\
  equivalence (fun p : point N => Forall has_value (p_vars p)) data_eqb /\
  equivalence (fun p : point N => Forall has_value (p_vars p)) point_eqb /\
  equivalence (fun t : trace N => Forall (fun p => Forall has_value (p_vars p)) (tr_points t)) trace_eqb /\
  equivalence (fun _ => True) pred_eqb /\ equivalence (fun _ => True) fv_eqb.
Proof.
  split; [apply iff_equiv; exact type_eqb_iff|]. split; [apply iff_equiv; exact bufsz_eqb_iff|]. split; [exact var_eqb_equiv|]. split; [apply data_equiv|].
  split; [exact point_equiv|]. split; [exact trace_equiv|]. split; [apply iff_equiv; exact pred_eqb_eq|]. apply iff_equiv. apply list_eqb_iff. exact N.eqb_eq.
Qed.
Print Assumptions C33_equivalence.

Theorem C33_hash_partial : forall hc kc adr, hash_agrees has_value var_eqb adr ->
  hash_agrees (fun _ => True) type_eqb (hash_type hc) /\ hash_agrees (fun _ => True) bufsz_eqb (hash_bufsz hc) /\
  hash_agrees has_value var_eqb (hash_var hc) /\
  hash_agrees (fun p : point N => Forall has_value (p_vars p)) data_eqb (hash_data hc adr) /\
  hash_agrees (fun _ => True) pred_eqb (hash_pred hc kc) /\ hash_agrees (fun _ => True) fv_eqb (hash_fv hc).
Proof.
  intros hc kc adr Hadr. split; [apply iff_hash; exact type_eqb_iff|]. split; [apply iff_hash; exact bufsz_eqb_iff|]. split; [apply var_hash|].
  split; [apply data_hash; exact Hadr|]. split; [apply pred_hash|]. apply iff_hash. apply list_eqb_iff. exact N.eqb_eq.
Qed.
Print Assumptions C33_hash_partial.

Theorem C33_distinguishes_partial :
  distinguishes (fun _ => True) type_eqb /\ distinguishes (fun _ => True) bufsz_eqb /\ distinguishes var_ok var_eqb /\
  (forall p q : point N, Forall var_ok (p_vars p) -> Forall var_ok (p_vars q) -> data_eqb p q = true ->
     p_sizes p = p_sizes q /\ p_vars p = p_vars q /\ p_aux p = p_aux q) /\
  distinguishes (fun _ => True) pred_eqb /\ distinguishes (fun _ => True) fv_eqb.
Proof.
  split; [apply iff_dist; exact type_eqb_iff|]. split; [apply iff_dist; exact bufsz_eqb_iff|]. split; [exact var_dist|]. split.
  { intros p q Hp Hq H. apply data_eqb_parts in H. destruct H as (H1 & H2 & H3). conj_split; auto. apply (list_eqb_dist _ _ _ var_dist); assumption. }
  split; [apply iff_dist; exact pred_eqb_eq|]. apply iff_dist. apply list_eqb_iff. exact N.eqb_eq.
Qed.
Print Assumptions C33_distinguishes_partial.

(** == of points compares the counter and the statement only ... *)
Theorem C33_point_equality : forall p q, Forall has_value (p_vars p) ->
  (point_eqb p q = true <-> p_counter p = p_counter q /\ p_stmt p = p_stmt q).
Proof.
  intros p q H. unfold point_eqb. destruct (data_equiv N) as (R & _). rewrite (R p H), andb_true_r, andb_true_iff, !N.eqb_eq. reflexivity.
Qed.
Print Assumptions C33_point_equality.
(** ... so points and traces with different variables are equal, and equal points may have different hashes. *)
Theorem C33_points_refuted : exists p q : point N, Forall var_ok (p_vars p) /\ Forall var_ok (p_vars q) /\ p_vars p <> p_vars q /\
  point_eqb p q = true /\ trace_eqb (mkTr [] [] [p]) (mkTr [] [] [q]) = true /\
  forall hc dat, dat p <> dat q -> (forall s x y, hc s x = hc s y -> x = y) -> hash_point hc dat p <> hash_point hc dat q.
Proof.
  exists (mkP 0 0 [] [ov 1] []), (mkP 0 0 [] [ov 2] []).
  assert (HV : forall u, u < 2 ^ 32 -> Forall var_ok [ov u]).
  { intros u Hu. apply Forall_cons; [|apply Forall_nil]. unfold var_ok. cbn [v_fmt v_size v_val ov]. split; [lia|]. eexists. split; [reflexivity|exact Hu]. }
  split; [apply HV; lia|]. split; [apply HV; lia|]. split; [discriminate|]. split; [reflexivity|]. split; [reflexivity|].
  intros hc dat Hd Hi E. apply Hd. unfold hash_point in E. cbn [p_counter p_stmt] in E. eapply Hi. exact E.
Qed.
Print Assumptions C33_points_refuted.
(** The hash of traces: equal traces have equal hashes if equal points have
    (that is, if they share their data); otherwise they need not. *)
Theorem C33_trace_hash_partial : forall hc dat, 
  hash_agrees (fun p : point N => Forall has_value (p_vars p)) point_eqb (hash_point hc dat) ->
  hash_agrees (fun t : trace N => Forall (fun p => Forall has_value (p_vars p)) (tr_points t)) trace_eqb (hash_trace hc dat).
Proof.
  intros hc dat H a b Ha Hb E. unfold trace_eqb in E. apply andb_prop in E. destruct E as [E E3]. apply andb_prop in E. destruct E as [E1 E2].
  unfold hash_trace. rewrite (list_eqb_hash _ _ _ hc _ H _ _ Ha Hb E1).
  rewrite (iff_hash _ _ (list_eqb_iff _ _ bytes_eqb_eq) (fun _ => True) (hash_range hc (hash_range hc N_of_byte)) _ _ I I E2).
  rewrite (iff_hash _ _ (list_eqb_iff _ _ type_eqb_iff) (fun _ => True) (hash_range hc (hash_type hc)) _ _ I I E3). reflexivity.
Qed.
Print Assumptions C33_trace_hash_partial.
Theorem C33_trace_hash_refuted : exists a b : trace N, trace_eqb a b = true /\ tr_points a <> tr_points b /\
  forall hc dat, (forall p q, dat p = dat q -> p = q) ->
    (forall s x y, hc s x = hc s y -> x = y) -> (forall s s' x, hc s x = hc s' x -> s = s') -> hash_trace hc dat a <> hash_trace hc dat b.
Proof.
  exists (mkTr [] [] [mkP 0 0 [] [ov 1] []]), (mkTr [] [] [mkP 0 0 [] [ov 2] []]). split; [reflexivity|]. split; [discriminate|].
  intros hc dat Hd H1 H2 E. unfold hash_trace, hash_range, hash_point in E. cbn [tr_points tr_names tr_types fold_left p_counter p_stmt] in E.
  do 2 apply H2 in E. do 3 apply H1 in E. apply Hd in E. discriminate E.
Qed.
Print Assumptions C33_trace_hash_refuted.
Example C33_trace_hash_ex : hash_agrees (fun p : point N => Forall has_value (p_vars p)) point_eqb (hash_point (fun s x => 31 * s + x) (fun p => p_stmt p)) /\
  exists a b : trace N, trace_eqb a b = true /\ trace_eqb a (mkTr [] [] []) = false /\
    Forall (fun p => Forall has_value (p_vars p)) (tr_points a) /\ Forall (fun p => Forall has_value (p_vars p)) (tr_points b) /\ a <> b.
Proof.
  split.
  - intros p q Hp Hq E. apply (C33_point_equality p q Hp) in E. unfold hash_point. destruct E as [-> ->]. reflexivity.
  - exists (mkTr [[x61]] [] [mkP 0 7 [] [ov 1] []]), (mkTr [[x61]] [] [mkP 0 7 [] [ov 2] []]).
    repeat match goal with |- _ /\ _ => split end; try reflexivity; try discriminate; repeat constructor; eexists; reflexivity.
Qed.
Example C33_ex : has_value (ov 1) /\ var_eqb (ov 1) (mkV (VBits 0x100000001) 0 0 UNSIGNED 4 0 0) = true /\ var_eqb (ov 1) (ov 2) = false /\
  hash_agrees has_value var_eqb (hash_var (fun s x => 31 * s + x)).
Proof. split; [exists 1; reflexivity|]. split; [reflexivity|]. split; [reflexivity|]. apply var_hash. Qed.

(** C34. *)
Theorem C34_simple : strict_order (fun _ => True) (fun a b => Ok (type_lt a b)) /\ strict_order (fun _ => True) (fun a b => Ok (bufsz_lt a b)).
Proof.
  split; [apply (strict_of _ _ _ type_lt)|apply (strict_of _ _ _ bufsz_lt)]; auto; [exact type_ord|exact bufsz_ord].
Qed.
Print Assumptions C34_simple.
(** Variables that are not blobs, and blobs of one size. *)
Theorem C34_variables_partial : forall adr,
  strict_order no_blob (var_lt adr) /\ forall n, strict_order (blob_of n) (var_lt adr).
Proof.
  intro adr. split.
  - eapply strict_of; [exact var_ltb_ord|]. intros. apply var_lt_no_blob; assumption.
  - intro n. eapply strict_of; [apply (blob_ord n)|]. intros. eapply var_lt_blob; eassumption.
Qed.
Print Assumptions C34_variables_partial.
Theorem C34_points_partial : strict_order no_blobs (fun p q => Ok (point_lt p q)).
Proof. apply (strict_of _ _ _ point_lt); [exact point_ord|auto]. Qed.
Print Assumptions C34_points_partial.

Definition blob (bs : list byte) : var := mkV (VBlob bs) 0 0 BLOB (lenN bs) 0 0.
Lemma blob_ok : forall bs, var_ok (blob bs).
Proof. intro bs. exists bs. split; reflexivity. Qed.
(** Blobs of different sizes: bytes behind the end of one of them are read. *)
Theorem C34_blob_sizes_refuted : forall adr x y, lenN x <> lenN y -> var_lt adr (blob x) (blob y) = UB UOob \/ var_lt adr (blob y) (blob x) = UB UOob.
Proof.
  intros adr x y H. unfold var_lt, blob. cbn [v_fmt v_val v_size]. destruct (N.ltb_spec (lenN x) (lenN y)) as [L|L]; [right|left].
  - replace (lenN y <? lenN y) with false by lia. replace (lenN x <? lenN y) with true by lia. reflexivity.
  - replace (lenN x <? lenN x) with false by lia. replace (lenN y <? lenN x) with true by lia. reflexivity.
Qed.
Print Assumptions C34_blob_sizes_refuted.
(** Blobs among other variables: a cycle. *)
Theorem C34_mixed_refuted : exists adr a b c, var_ok a /\ var_ok b /\ var_ok c /\
  var_lt adr a b = Ok true /\ var_lt adr b c = Ok true /\ var_lt adr c a = Ok true.
Proof.
  exists (fun v => match v_val v with VBlob [x61] => 100 | _ => 10 end), (blob [x61]), (blob [x62]), (ov 50).
  split; [apply blob_ok|]. split; [apply blob_ok|]. split; [unfold var_ok; cbn [v_fmt v_size v_val ov]; split; [lia|]; eexists; split; [reflexivity|vm_compute; reflexivity]|].
  split; [vm_compute; reflexivity|]. split; vm_compute; reflexivity.
Qed.
Print Assumptions C34_mixed_refuted.
Example C34_ex : no_blob (ov 1) /\ blob_of 2 (blob [x61; xff]) /\ var_lt (fun _ => 0) (ov 1) (ov 2) = Ok true /\
  var_lt (fun _ => 0) (blob [x61; xff]) (blob [x61; x00]) = Ok true /\ lenN [x61] <> lenN [x61; x62].
Proof.
  split; [split; [discriminate|eexists; reflexivity]|]. split; [split; [reflexivity|split; [reflexivity|eexists; split; reflexivity]]|].
  split; [vm_compute; reflexivity|]. split; [vm_compute; reflexivity|]. vm_compute. discriminate.
Qed.
