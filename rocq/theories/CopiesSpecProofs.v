(** Proofs about families of software objects. *)
From Coq Require Import List Bool Arith ZArith Lia.
From Verif Require Import Base Collect Copies CopiesSpec CopiesProofs.
Import ListNotations.
Open Scope nat_scope.

Section Proofs.
Variable T : Type.
Notation objects := (objects T). Notation op := (op T). Notation families := (families T).

Record fgood (st : objects) (fs : families) : Prop := {
  fg_len : length (f_objs fs) = length (o_slots st);
  fg_val : forall o s g v, nth_error (o_slots st) o = Some s -> nth_error (f_objs fs) o = Some (g, v) -> slot_content st s = v;
  fg_ref : forall o r, nth_error (o_slots st) o = Some (Some r) -> r < length (o_dbs st);
  fg_new : forall o g v, nth_error (f_objs fs) o = Some (g, v) -> g < f_next fs;
  fg_fam : forall o o' g v v' s s', nth_error (f_objs fs) o = Some (g, v) -> nth_error (f_objs fs) o' = Some (g, v') ->
             nth_error (o_slots st) o = Some s -> nth_error (o_slots st) o' = Some s' -> s = s';
  fg_ref_fam : forall o o' r g g' v v', nth_error (o_slots st) o = Some (Some r) -> nth_error (o_slots st) o' = Some (Some r) ->
             nth_error (f_objs fs) o = Some (g, v) -> nth_error (f_objs fs) o' = Some (g', v') -> g = g'
}.

(** A change of one slot, to a reference that no object has, and of its family,
    to a new one. *)
Lemma fgood_put : forall st fs o dbs s v, fgood st fs -> o < length (o_slots st) ->
  (forall r d, nth_error (o_dbs st) r = Some d -> nth_error dbs r = Some d) ->
  slot_content (mkO dbs []) s = v ->
  (forall r, s = Some r -> r < length dbs /\ length (o_dbs st) <= r) ->
  length (o_dbs st) <= length dbs ->
  fgood (mkO dbs (put (o_slots st) o s)) (mkF (S (f_next fs)) (put (f_objs fs) o (f_next fs, v))).
Proof.
  intros st fs o dbs s v [GL GV GR GN GF GB] Ho Hd Hs Hr Hlen. constructor; cbn [o_slots o_dbs f_objs f_next].
  - rewrite !put_length. exact GL.
  - intros o1 s1 g1 v1 H1 H2. apply put_cases in H1. apply put_cases in H2.
    destruct H1 as [(<- & -> & _)|[N1 H1]], H2 as [(E2 & E3 & _)|[N2 H2]]; try congruence.
    + assert (v1 = v) as -> by congruence. rewrite <- Hs. reflexivity.
    + rewrite <- (GV _ _ _ _ H1 H2). destruct s1 as [r1|]; [|reflexivity]. cbn [slot_content o_dbs].
      destruct (nth_error (o_dbs st) r1) as [d1|] eqn:E; [exact (Hd _ _ E)|].
      apply nth_error_None in E. apply GR in H1. lia.
  - intros o1 r H. apply put_cases in H. destruct H as [(_ & E & _)|[_ H]].
    + apply Hr. congruence.
    + apply GR in H. lia.
  - intros o1 g1 v1 H. apply put_cases in H. destruct H as [(_ & E & _)|[_ H]].
    + assert (g1 = f_next fs) by congruence. lia.
    + apply GN in H. lia.
  - intros o1 o2 g v1 v2 s1 s2 H1 H2 H3 H4.
    apply put_cases in H1. apply put_cases in H2. apply put_cases in H3. apply put_cases in H4.
    destruct H1 as [(E1 & E1' & _)|[N1 H1]], H2 as [(E2 & E2' & _)|[N2 H2]].
    + destruct H3 as [(_ & -> & _)|[? _]]; [|congruence]. destruct H4 as [(_ & -> & _)|[? _]]; [reflexivity|congruence].
    + apply GN in H2. assert (g = f_next fs) by congruence. lia.
    + apply GN in H1. assert (g = f_next fs) by congruence. lia.
    + destruct H3 as [(? & _)|[_ H3]]; [congruence|]. destruct H4 as [(? & _)|[_ H4]]; [congruence|].
      exact (GF _ _ _ _ _ _ _ H1 H2 H3 H4).
  - intros o1 o2 r g1 g2 v1 v2 H1 H2 H3 H4.
    apply put_cases in H1. apply put_cases in H2. apply put_cases in H3. apply put_cases in H4.
    destruct H1 as [(E1 & E1' & _)|[N1 H1]], H2 as [(E2 & E2' & _)|[N2 H2]].
    + destruct H3 as [(_ & E3 & _)|[? _]]; [|congruence]. destruct H4 as [(_ & E4 & _)|[? _]]; congruence.
    + apply GR in H2. destruct (Hr r); [congruence|]. lia.
    + apply GR in H1. destruct (Hr r); [congruence|]. lia.
    + destruct H3 as [(? & _)|[_ H3]]; [congruence|]. destruct H4 as [(? & _)|[_ H4]]; [congruence|].
      exact (GB _ _ _ _ _ _ _ H1 H2 H3 H4).
Qed.

(** A further object. *)
Lemma fgood_snoc : forall st fs s g v n, fgood st fs -> f_next fs <= n -> g < n ->
  slot_content st s = v -> (forall r, s = Some r -> r < length (o_dbs st)) ->
  (forall o s' v', nth_error (f_objs fs) o = Some (g, v') -> nth_error (o_slots st) o = Some s' -> s' = s) ->
  (forall o r g' v', s = Some r -> nth_error (o_slots st) o = Some (Some r) -> nth_error (f_objs fs) o = Some (g', v') -> g' = g) ->
  fgood (mkO (o_dbs st) (o_slots st ++ [s])) (mkF n (f_objs fs ++ [(g, v)])).
Proof.
  intros st fs s g v n [GL GV GR GN GF GB] Hn Hg Hs Hr Hf Hb. constructor; cbn [o_slots o_dbs f_objs f_next].
  - rewrite !app_length, GL. reflexivity.
  - intros o1 s1 g1 v1 H1 H2. apply nth_snoc in H1. apply nth_snoc in H2.
    destruct H1 as [H1|[E1 ->]], H2 as [H2|[E2 E3]].
    + exact (GV _ _ _ _ H1 H2).
    + apply nth_some_lt in H1. lia.
    + apply nth_some_lt in H2. lia.
    + assert (v1 = v) as -> by congruence. exact Hs.
  - intros o1 r H. apply nth_snoc in H. destruct H as [H|[_ H]]; [eapply GR; eauto|apply Hr; congruence].
  - intros o1 g1 v1 H. apply nth_snoc in H. destruct H as [H|[_ H]]; [apply GN in H; lia|].
    assert (g1 = g) by congruence. lia.
  - intros o1 o2 g1 v1 v2 s1 s2 H1 H2 H3 H4.
    apply nth_snoc in H1. apply nth_snoc in H2. apply nth_snoc in H3. apply nth_snoc in H4.
    destruct H1 as [H1|[E1 E1']], H3 as [H3|[E3 E3']]; try (apply nth_some_lt in H1; lia); try (apply nth_some_lt in H3; lia);
    destruct H2 as [H2|[E2 E2']], H4 as [H4|[E4 E4']]; try (apply nth_some_lt in H2; lia); try (apply nth_some_lt in H4; lia).
    + exact (GF _ _ _ _ _ _ _ H1 H2 H3 H4).
    + assert (g1 = g) as -> by congruence. rewrite E4'. exact (Hf _ _ _ H1 H3).
    + assert (g1 = g) as -> by congruence. rewrite E3'. symmetry. exact (Hf _ _ _ H2 H4).
    + congruence.
  - intros o1 o2 r g1 g2 v1 v2 H1 H2 H3 H4.
    apply nth_snoc in H1. apply nth_snoc in H2. apply nth_snoc in H3. apply nth_snoc in H4.
    destruct H1 as [H1|[E1 E1']], H3 as [H3|[E3 E3']]; try (apply nth_some_lt in H1; lia); try (apply nth_some_lt in H3; lia);
    destruct H2 as [H2|[E2 E2']], H4 as [H4|[E4 E4']]; try (apply nth_some_lt in H2; lia); try (apply nth_some_lt in H4; lia).
    + exact (GB _ _ _ _ _ _ _ H1 H2 H3 H4).
    + assert (g2 = g) as -> by congruence. exact (Hb _ _ _ _ (eq_sym E2') H1 H3).
    + assert (g1 = g) as -> by congruence. symmetry. exact (Hb _ _ _ _ (eq_sym E1') H2 H4).
    + congruence.
Qed.

Lemma fstep_good : forall st fs x, op_known x -> fgood st fs -> fgood (step_op st x) (family_op fs x).
Proof.
  intros st fs x K G. pose proof G as [GL GV GR GN GF GB].
  assert (Len : forall o, nth_error (o_slots st) o = None -> nth_error (f_objs fs) o = None).
  { intros o H. apply nth_error_None. apply nth_error_None in H. lia. }
  assert (Ex : forall o s, nth_error (o_slots st) o = Some s -> exists g v, nth_error (f_objs fs) o = Some (g, v)).
  { intros o s H. destruct (nth_error (f_objs fs) o) as [[g v]|] eqn:E; [eauto|].
    apply nth_error_None in E. apply nth_some_lt in H. lia. }
  destruct x as [|o|o one bin ph num ts|o one bin t num]; cbn [step_op family_op].
  - apply fgood_snoc; auto.
    + intros r H. discriminate.
    + intros o s' v' H. apply GN in H. lia.
    + intros o r g' v' H. discriminate.
  - destruct (nth_error (o_slots st) o) as [s|] eqn:Es; [|rewrite (Len _ Es); exact G].
    destruct (Ex _ _ Es) as (g & v & Ev). rewrite Ev. apply fgood_snoc; auto.
    + eapply GN; eauto.
    + eapply GV; eauto.
    + intros r ->. eapply GR; eauto.
    + intros o1 s1 v1 H1 H2. exact (GF _ _ _ _ _ _ _ H1 Ev H2 Es).
    + intros o1 r g1 v1 -> H1 H2. exact (GB _ _ _ _ _ _ _ H1 Es H2 Ev).
  - destruct (nth_error (o_slots st) o) as [s|] eqn:Es; [|rewrite (Len _ Es); exact G].
    destruct (Ex _ _ Es) as (g & v & Ev). rewrite Ev. rewrite (GV _ _ _ _ Es Ev).
    pose proof (nth_some_lt _ _ _ _ Es) as Ho.
    assert (R : resets bin ph = true ->
      fgood (mkO (o_dbs st ++ [contents (fst (collect_traces one ph num ts (mkW bin v 0)))]) (put (o_slots st) o (Some (length (o_dbs st)))))
            (mkF (S (f_next fs)) (put (f_objs fs) o (f_next fs, w_db (fst (collect_traces one ph num ts (mkW bin v 0))))))).
    { intros Er. destruct (collect_reset T one bin ph num ts v K Er) as (d & Ed). unfold contents. rewrite Ed.
      apply fgood_put; auto.
      - intros r d1 H. rewrite nth_error_app1 by (apply nth_some_lt in H; exact H). exact H.
      - cbn [slot_content o_dbs]. rewrite nth_error_app2, Nat.sub_diag by lia. reflexivity.
      - intros r H. rewrite app_length. cbn [length]. assert (r = length (o_dbs st)) by congruence. lia.
      - rewrite app_length. lia. }
    destruct bin; [apply R; reflexivity|]. destruct ph as [m|m ch]; [apply R; reflexivity|].
    cbn [resets orb]. destruct ch; try exact G.
    rewrite collect_stays by reflexivity. apply fgood_put; auto. intros r H. discriminate.
  - destruct (nth_error (o_slots st) o) as [[r|]|] eqn:Es.
    3:{ rewrite (Len _ Es). exact G. }
    2:{ destruct (Ex _ _ Es) as (g & v & Ev). rewrite Ev. pose proof (GV _ _ _ _ Es Ev) as E. cbn in E. subst v. exact G. }
    destruct (Ex _ _ Es) as (g & v & Ev). rewrite Ev.
    pose proof (GV _ _ _ _ Es Ev) as E. cbn [slot_content] in E. rewrite E.
    assert (Hr : r < length (o_dbs st)) by (eapply GR; eauto).
    destruct v as [d|]; [|apply nth_error_None in E; lia].
    destruct (one_some T one t num (mkW bin (Some d) 0) d K eq_refl) as (l & El). unfold contents. rewrite El.
    assert (Back : forall o1 g1 v1, nth_error (map (fun gv => if fst gv =? g then (g, Some (d ++ l)) else gv) (f_objs fs)) o1 = Some (g1, v1) ->
      exists v0, nth_error (f_objs fs) o1 = Some (g1, v0) /\ v1 = if g1 =? g then Some (d ++ l) else v0).
    { intros o1 g1 v1 H. rewrite nth_error_map in H. destruct (nth_error (f_objs fs) o1) as [[g0 v0]|]; [|discriminate].
      cbn [option_map fst] in H. destruct (g0 =? g) eqn:Eg.
      - apply Nat.eqb_eq in Eg. subst g0. exists v0. assert (g1 = g) as -> by congruence. rewrite Nat.eqb_refl. split; congruence.
      - exists v0. assert (g1 = g0) as -> by congruence. rewrite Eg. split; congruence. }
    constructor; cbn [o_slots o_dbs f_objs f_next].
    + rewrite map_length. exact GL.
    + intros o1 s1 g1 v1 H1 H2. destruct (Back _ _ _ H2) as (v0 & H3 & ->). destruct (Nat.eqb_spec g1 g) as [->|N].
      * assert (s1 = Some r) as -> by (exact (GF _ _ _ _ _ _ _ H3 Ev H1 Es)). cbn [slot_content o_dbs]. apply put_same. exact Hr.
      * rewrite <- (GV _ _ _ _ H1 H3). destruct s1 as [r1|]; [|reflexivity]. cbn [slot_content o_dbs].
        apply put_other. intros ->. apply N. exact (GB _ _ _ _ _ _ _ H1 Es H3 Ev).
    + intros o1 r1 H. rewrite put_length. eapply GR; eauto.
    + intros o1 g1 v1 H. destruct (Back _ _ _ H) as (v0 & H3 & _). eapply GN; eauto.
    + intros o1 o2 g1 v1 v2 s1 s2 H1 H2 H3 H4. destruct (Back _ _ _ H1) as (u1 & H5 & _). destruct (Back _ _ _ H2) as (u2 & H6 & _).
      exact (GF _ _ _ _ _ _ _ H5 H6 H3 H4).
    + intros o1 o2 r1 g1 g2 v1 v2 H1 H2 H3 H4. destruct (Back _ _ _ H3) as (u1 & H5 & _). destruct (Back _ _ _ H4) as (u2 & H6 & _).
      exact (GB _ _ _ _ _ _ _ H1 H2 H5 H6).
Qed.

Lemma frun_good : forall (l : list op) (st : objects) (fs : families), Forall op_known l -> fgood st fs ->
  fgood (run_ops st l) (family_run fs l).
Proof.
  induction l as [|x l IH]; intros st fs K G; [exact G|]. inversion K as [|? ? K1 K2]; subst.
  cbn [run_ops family_run fold_left]. apply (IH (step_op st x) (family_op fs x)); auto. apply fstep_good; auto.
Qed.

Lemma families_lemma : forall l : list op, Forall op_known l ->
  forall o, traces_of (run_ops no_objects l) o = option_map snd (nth_error (f_objs (family_run no_families l)) o).
Proof.
  intros l K o. assert (G : fgood (run_ops no_objects l) (family_run no_families l)).
  { apply frun_good; [exact K|]. constructor; cbn; auto; intros [|?]; intros; discriminate. }
  destruct G as [GL GV _ _ _ _]. unfold traces_of.
  destruct (nth_error (o_slots (run_ops no_objects l)) o) as [s|] eqn:Es.
  - destruct (nth_error (f_objs (family_run no_families l)) o) as [[g v]|] eqn:Ev.
    + cbn. f_equal. exact (GV _ _ _ _ Es Ev).
    + apply nth_error_None in Ev. apply nth_some_lt in Es. lia.
  - assert (nth_error (f_objs (family_run no_families l)) o = None) as -> by (apply nth_error_None; apply nth_error_None in Es; lia).
    reflexivity.
Qed.
End Proofs.
