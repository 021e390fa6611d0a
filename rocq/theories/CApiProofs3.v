(** Proofs about add_trace_points. *)
From Verif Require Import BaseProofs Types Query CApi CApiSpec PredSpec.

Lemma fm_find_set : forall m k f k', increasing (map fst m) -> fm_find (fm_set m k f) k' = if k =? k' then Some f else fm_find m k'.
Proof.
  induction m as [|[a g] m IH]; intros k f k' H; [reflexivity|]. destruct H as [H1 H2]. cbn [fm_set].
  destruct (N.ltb_spec k a) as [L|L].
  - cbn [fm_find]. destruct (k =? k'); reflexivity.
  - destruct (N.eqb_spec k a) as [->|Hn].
    + cbn [fm_find]. destruct (a =? k'); reflexivity.
    + cbn [fm_find]. rewrite IH by assumption. destruct (N.eqb_spec a k') as [->|]; [|reflexivity].
      destruct (N.eqb_spec k k'); [contradiction|reflexivity].
Qed.

Lemma fm_set_keys : forall m k f x, In x (map fst (fm_set m k f)) -> x = k \/ In x (map fst m).
Proof.
  induction m as [|[a g] m IH]; intros k f x H; cbn [fm_set] in H.
  - destruct H as [<-|[]]. auto.
  - destruct (k <? a).
    + destruct H as [<-|H]; auto.
    + destruct (N.eqb_spec k a) as [->|].
      * destruct H as [<-|H]; [right; left; reflexivity|right; right; assumption].
      * destruct H as [<-|H]; [right; left; reflexivity|]. apply IH in H. destruct H; [auto|right; right; assumption].
Qed.

Lemma fm_set_inc : forall m k f, increasing (map fst m) -> increasing (map fst (fm_set m k f)).
Proof.
  induction m as [|[a g] m IH]; intros k f H; [split; [constructor|exact I]|]. destruct H as [H1 H2]. cbn [fm_set].
  destruct (N.ltb_spec k a) as [L|L].
  - cbn [map fst increasing]. split; [|split; assumption]. constructor; [assumption|]. eapply Forall_impl; [|exact H1]. intros; cbn in *; lia.
  - destruct (N.eqb_spec k a) as [->|Hn]; [split; assumption|]. cbn [map fst increasing]. split; [|apply IH; assumption].
    apply Forall_forall. intros x Hx. apply fm_set_keys in Hx. destruct Hx as [->|Hx]; [lia|]. rewrite Forall_forall in H1. apply H1. assumption.
Qed.

Lemma fm_find_In : forall m k f, increasing (map fst m) -> In (k, f) m <-> fm_find m k = Some f.
Proof.
  induction m as [|[a g] m IH]; intros k f H; [split; [intros []|discriminate]|]. destruct H as [H1 H2]. cbn [In fm_find].
  destruct (N.eqb_spec a k) as [->|Hn].
  - split; [intros [X|X]; [congruence|]|intro X; left; congruence]. exfalso. rewrite Forall_forall in H1.
    assert (k < k) by (apply H1; apply in_map_iff; exists (k, f); auto). lia.
  - rewrite <- IH by assumption. split; [intros [X|X]; [congruence|assumption]|auto].
Qed.

Definition seen_type (vs : list cvar) (k : N) := exists v, In v vs /\ cv_tname v = k.
Definition seen_neg (vs : list cvar) (k : N) := exists v, In v vs /\ cv_tname v = k /\ negative (cv_value v) = true.
Definition fm_inv (vs : list cvar) (m : list (N * fmt)) : Prop :=
  increasing (map fst m) /\
  forall k, match fm_find m k with
            | None => ~ seen_type vs k
            | Some f => seen_type vs k /\ (f = SIGNED /\ seen_neg vs k \/ f = UNSIGNED /\ ~ seen_neg vs k)
            end.

Lemma note_inv : forall vs m v, fm_inv vs m -> fm_inv (vs ++ [v]) (note_format m v).
Proof.
  intros vs m v [H1 H2].
  assert (T1 : forall k, seen_type (vs ++ [v]) k <-> seen_type vs k \/ cv_tname v = k).
  { intro k. unfold seen_type. split.
    - intros (w & Hw & E). apply in_app_or in Hw. destruct Hw as [Hw|[<-|[]]]; [left; eauto|right; assumption].
    - intros [(w & Hw & E)|E]; [exists w; split; [apply in_or_app; auto|assumption]|exists v; split; [apply in_or_app; right; left; reflexivity|assumption]]. }
  assert (T2 : forall k, seen_neg (vs ++ [v]) k <-> seen_neg vs k \/ (cv_tname v = k /\ negative (cv_value v) = true)).
  { intro k. unfold seen_neg. split.
    - intros (w & Hw & E & F). apply in_app_or in Hw. destruct Hw as [Hw|[<-|[]]]; [left; exists w; auto|right; auto].
    - intros [(w & Hw & E & F)|[E F]]; [exists w; split; [apply in_or_app; auto|auto]|exists v; split; [apply in_or_app; right; left; reflexivity|auto]]. }
  unfold note_format. destruct (negative (cv_value v)) eqn:En.
  - split; [apply fm_set_inc; assumption|]. intro k. rewrite fm_find_set by assumption. destruct (N.eqb_spec (cv_tname v) k) as [E|E].
    + split; [apply T1; auto|]. left. split; [reflexivity|]. apply T2. auto.
    + specialize (H2 k). destruct (fm_find m k) as [f|].
      * destruct H2 as [A B]. split; [apply T1; auto|]. destruct B as [[B C]|[B C]]; [left; split; [assumption|apply T2; auto]|right; split; [assumption|]].
        rewrite T2. intros [X|[X _]]; contradiction.
      * rewrite T1. intros [X|X]; contradiction.
  - destruct (fm_find m (cv_tname v)) as [f0|] eqn:Ef.
    + split; [assumption|]. intro k. specialize (H2 k). destruct (fm_find m k) as [f|] eqn:Ek.
      * destruct H2 as [A B]. split; [apply T1; auto|]. destruct B as [[B C]|[B C]]; [left; split; [assumption|apply T2; auto]|right; split; [assumption|]].
        rewrite T2. intros [X|[_ X]]; [contradiction|discriminate].
      * rewrite T1. intros [X|X]; [contradiction|]. subst k. congruence.
    + split; [apply fm_set_inc; assumption|]. intro k. rewrite fm_find_set by assumption. destruct (N.eqb_spec (cv_tname v) k) as [E|E].
      * split; [apply T1; auto|]. right. split; [reflexivity|]. rewrite T2. intros [X|[_ X]]; [|discriminate].
        specialize (H2 k). rewrite <- E, Ef in H2. apply H2. destruct X as (w & X & Y & _). exists w. split; congruence.
      * specialize (H2 k). destruct (fm_find m k) as [f|].
        -- destruct H2 as [A B]. split; [apply T1; auto|]. destruct B as [[B C]|[B C]]; [left; split; [assumption|apply T2; auto]|right; split; [assumption|]].
           rewrite T2. intros [X|[X _]]; contradiction.
        -- rewrite T1. intros [X|X]; contradiction.
Qed.

Lemma fold_note_inv : forall ws vs m, fm_inv vs m -> fm_inv (vs ++ ws) (fold_left note_format ws m).
Proof.
  induction ws as [|w ws IH]; intros vs m H; [rewrite app_nil_r; exact H|]. cbn [fold_left].
  replace (vs ++ w :: ws) with ((vs ++ [w]) ++ ws) by (rewrite <- app_assoc; reflexivity). apply IH. apply note_inv. exact H.
Qed.

Lemma formats_inv : forall ps, fm_inv (flat_map ip_vars ps) (type_formats ps).
Proof.
  intro ps. unfold type_formats.
  assert (G : forall ps vs m, fm_inv vs m -> fm_inv (vs ++ flat_map ip_vars ps) (fold_left (fun m p => fold_left note_format (ip_vars p) m) ps m)).
  { induction ps0 as [|p ps0 IH]; intros vs m H; [cbn; rewrite app_nil_r; exact H|]. cbn [fold_left flat_map].
    rewrite app_assoc. apply IH. apply fold_note_inv. exact H. }
  apply (G ps []). split; [exact I|]. intro k. cbn. intros (v & [] & _).
Qed.

Lemma negative_spec : forall u, u < 2 ^ 64 -> negative (VBits u) = true <-> (s64 u < 0)%Z.
Proof.
  intros u H. cbn [negative]. unfold s64. change (2 ^ 64) with two64 in H.
  destruct (N.ltb_spec u two63), (N.leb_spec two63 u); split; intro X; try discriminate; try reflexivity; try lia.
Qed.

Lemma types_inferred : forall ps, words_ok ps -> inferred_types ps (types_of_formats (type_formats ps)).
Proof.
  intros ps HW. destruct (formats_inv ps) as [H1 H2]. set (m := type_formats ps) in *.
  assert (EN : map t_name (types_of_formats m) = map fst m) by (unfold types_of_formats; rewrite map_map; reflexivity).
  assert (ET : forall k, seen_type (flat_map ip_vars ps) k <-> type_used ps k).
  { intro k. unfold seen_type, type_used. split.
    - intros (v & Hv & E). apply in_flat_map in Hv. destruct Hv as (p & Hp & Hv). eauto.
    - intros (p & v & Hp & Hv & E). exists v. split; [apply in_flat_map; eauto|assumption]. }
  assert (EG : forall k, seen_neg (flat_map ip_vars ps) k <-> has_negative ps k).
  { intro k. unfold seen_neg, has_negative. split.
    - intros (v & Hv & E & Hn). apply in_flat_map in Hv. destruct Hv as (p & Hp & Hv).
      unfold words_ok in HW. rewrite Forall_forall in HW. specialize (HW p Hp). rewrite Forall_forall in HW. destruct (HW v Hv) as (u & Eu & Lu).
      exists p, v, u. rewrite Eu in Hn. apply negative_spec in Hn; [|assumption]. auto.
    - intros (p & v & u & Hp & Hv & E & Eu & Hn). exists v. split; [apply in_flat_map; eauto|]. split; [assumption|].
      unfold words_ok in HW. rewrite Forall_forall in HW. specialize (HW p Hp). rewrite Forall_forall in HW. destruct (HW v Hv) as (u' & Eu' & Lu).
      rewrite Eu in *. inversion Eu'; subst. apply negative_spec; assumption. }
  split; [rewrite EN; assumption|]. split.
  - intro nm. rewrite EN, <- ET. split.
    + intro Hn. apply in_map_iff in Hn. destruct Hn as ([k f] & <- & Hn). apply fm_find_In in Hn; [|assumption]. cbn [fst]. specialize (H2 k). rewrite Hn in H2. apply H2.
    + intro Hn. specialize (H2 nm). destruct (fm_find m nm) as [f|] eqn:Ef; [|contradiction]. apply fm_find_In in Ef; [|assumption].
      apply in_map_iff. exists (nm, f). auto.
  - apply Forall_forall. intros t Ht. unfold types_of_formats in Ht. apply in_map_iff in Ht. destruct Ht as ([k f] & <- & Hn). cbn [t_size t_fmt t_name fst snd].
    split; [reflexivity|]. apply fm_find_In in Hn; [|assumption]. specialize (H2 k). rewrite Hn in H2. destruct H2 as [_ H2].
    rewrite <- !EG. destruct H2 as [[A B]|[A B]]; auto.
Qed.

Lemma position_ok : forall types nm, In nm (map t_name types) ->
  exists t, nthN types (type_position types nm) = Some t /\ t_name t = nm.
Proof.
  induction types as [|t types IH]; intros nm H; [destruct H|]. cbn [type_position nthN]. destruct (N.eqb_spec (t_name t) nm) as [E|E].
  - exists t. split; [reflexivity|assumption].
  - destruct H as [X|X]; [contradiction|]. destruct (IH nm X) as (t' & E1 & E2). exists t'.
    destruct (N.eqb_spec (1 + type_position types nm) 0); [lia|]. replace (N.pred (1 + type_position types nm)) with (type_position types nm) by lia. auto.
Qed.

Lemma import_vars_ok : forall types vs, Forall (fun t => t_size t = 8) types -> (forall v, In v vs -> In (cv_tname v) (map t_name types)) ->
  exists ws, mapO (import_var types) vs = Ok ws /\ Forall2 (imported_var types) vs ws.
Proof.
  intros types vs H8. induction vs as [|v vs IH]; intro H; [exists []; split; [reflexivity|constructor]|].
  destruct (position_ok types (cv_tname v)) as (t & E1 & E2); [apply H; left; reflexivity|].
  destruct IH as (ws & E & HF); [intros w Hw; apply H; right; assumption|].
  exists (mkV (cv_value v) (cv_name v) (type_position types (cv_tname v)) (t_fmt t) (t_size t) (cv_bsz v) (cv_has v) :: ws). split.
  - cbn [mapO]. unfold import_var at 1. rewrite E1. cbn [bind]. rewrite E. reflexivity.
  - constructor; [|assumption]. unfold imported_var. cbn. conj_split.
    + rewrite Forall_forall in H8. apply H8. apply (nthN_In _ _ _ _ E1).
    + exists t. auto.
Qed.

Lemma import_points_ok : forall types, Forall (fun t => t_size t = 8) types -> forall ps i,
  (forall p v, In p ps -> In v (ip_vars p) -> In (cv_tname v) (map t_name types)) -> Forall (fun p => ip_aux p = []) ps ->
  exists qs, import_points types i ps = Ok qs /\ imported types i ps qs.
Proof.
  intros types H8. induction ps as [|p ps IH]; intros i H HA; [exists []; split; [reflexivity|constructor]|].
  inversion HA as [|? ? HA1 HA2]; subst.
  destruct (import_vars_ok types (ip_vars p) H8) as (ws & E & HF); [intros v Hv; apply (H p); [left; reflexivity|assumption]|].
  destruct (IH (i + 1)) as (qs & E' & HI); [intros q v Hq Hv; apply (H q); [right; assumption|assumption]|assumption|].
  eexists. split.
  - cbn [import_points]. rewrite HA1, E. cbn [bind]. rewrite E'. reflexivity.
  - constructor; auto.
Qed.

Lemma import_ok : forall names ps, words_ok ps -> Forall (fun p => ip_aux p = []) ps ->
  exists tr, import_trace names ps = Ok tr /\ imports names ps tr.
Proof.
  intros names ps HW HA. pose proof (types_inferred ps HW) as HT. destruct HT as (T1 & T2 & T3).
  destruct (import_points_ok (types_of_formats (type_formats ps))) with (ps := ps) (i := 0) as (qs & E & HI); auto.
  - eapply Forall_impl; [|exact T3]. intros t [X _]. exact X.
  - intros p v Hp Hv. apply T2. exists p, v. auto.
  - exists (mkTr (map c_string names) (types_of_formats (type_formats ps)) qs). split.
    + unfold import_trace. rewrite E. reflexivity.
    + split; [reflexivity|]. split; [|exact HI]. split; [assumption|]. split; assumption.
Qed.

(** Aux data are never stored. *)
Lemma import_aux : forall names ps tr, import_trace names ps = Ok tr -> Forall (fun p => ip_aux p = []) ps.
Proof.
  intros names ps tr H. unfold import_trace in H. apply bind_ok in H. destruct H as (qs & H & _). revert qs H. generalize 0 (types_of_formats (type_formats ps)).
  induction ps as [|p ps IH]; intros i ty qs H; [constructor|]. cbn [import_points] in H. destruct (ip_aux p) eqn:E; [|discriminate].
  apply bind_ok in H. destruct H as (vs & _ & H). apply bind_ok in H. destruct H as (r & H & _). constructor; [assumption|]. eapply IH. exact H.
Qed.

(** The imported variables are like those of traces that are read. *)
Lemma imported_vars_ok : forall names ps tr, words_ok ps -> imports names ps tr ->
  Forall (fun p => Forall var_ok (p_vars p)) (tr_points tr).
Proof.
  intros names ps tr HW (_ & (_ & _ & HT) & HI). revert HW HI. generalize 0. generalize (tr_points tr).
  remember ps as ps0 in HT. clear Heqps0. intros qs i HW HI. induction HI as [|i p q ps qs _ _ _ _ HV _ IH]; [constructor|].
  inversion HW as [|? ? HW1 HW2]; subst. constructor; [|apply IH; assumption]. clear - HT HW1 HV.
  induction HV as [|c v cs vs (A & _ & _ & _ & B & t & C & _ & D) _ IH]; [constructor|].
  inversion HW1 as [|? ? (u & Eu & Lu) HW1']; subst. constructor; [|apply IH; assumption].
  rewrite Forall_forall in HT. destruct (HT t (nthN_In _ _ _ _ C)) as [_ HF]. unfold var_ok. rewrite D, B, A, Eu.
  destruct HF as [[-> _]|[-> _]].
  - split; [cbn; auto|]. exists u. split; [reflexivity|]. split; [assumption|]. unfold s64. change (2 ^ 64) with two64 in Lu.
    change (8 * Z.of_N 8 - 1)%Z with 63%Z. change (2 ^ 63)%Z with (Z.of_N two63). unfold two63, two64 in *. destruct (N.ltb_spec u 9223372036854775808); lia.
  - split; [lia|]. exists u. split; [reflexivity|]. exact Lu.
Qed.
