(** Proofs for C75: what a program sees of database objects. *)
From Verif Require Import Base BaseProofs Types CApi CApiSpec Archive ArchiveSpec ArchiveProofs ArchiveProofs3 Dec LispObj LispObjSpec LispObjProofs LispObjProofs2.
From Coq Require Import Lia.
Local Open Scope nat_scope.

Section P.
Context {A : Type}.
Notation world := (world A). Notation op := (op A). Notation result := (result A).
Implicit Types w : world.

Lemma meta_ext : forall w w' (P : nat -> Prop), (forall k o f p, P k -> w_obj w k = Some o -> o_view o = Some (f, p) -> P p) ->
  (forall k, P k -> w_obj w' k = w_obj w k) -> forall n i, P i -> metadata n w' i = metadata n w i.
Proof.
  intros w w' P HC HE. induction n as [|n IH]; intros i HP; cbn [metadata]; [reflexivity|]. rewrite (HE i HP).
  destruct (w_obj w i) as [o|] eqn:E; [|reflexivity]. destruct (o_view o) as [[f p]|] eqn:V; [|reflexivity].
  destruct (o_meta o); [|reflexivity]. apply IH. exact (HC _ _ _ _ HP E V).
Qed.
Lemma meta_fuel : forall strong w, Inv strong w -> forall n m i, i < n -> i < m -> metadata n w i = metadata m w i.
Proof.
  intros strong w HI. induction n as [|n IH]; intros m i L1 L2; [lia|]. destruct m as [|m]; [lia|]. cbn [metadata].
  destruct (w_obj w i) as [o|] eqn:E; [|reflexivity]. destruct (o_view o) as [[f p]|] eqn:V; [|reflexivity].
  destruct (o_meta o); [|reflexivity]. destruct (i_view _ _ HI _ _ _ _ E V). apply IH; lia.
Qed.

(** If the objects that an object refers to and the database behind it stay, the
    program sees the same. *)
Lemma seen_ext : forall strong w w' (P : nat -> Prop) i ts m, Inv strong w -> Inv strong w' -> w_nobj w <= w_nobj w' ->
  (forall k o f p, P k -> w_obj w k = Some o -> o_view o = Some (f, p) -> P p) ->
  (forall k, P k -> w_obj w' k = w_obj w k) -> P i ->
  (forall o, w_obj w i = Some o -> w_db w (o_ptr o) <> None -> w_db w' (o_ptr o) = w_db w (o_ptr o)) ->
  seen w i ts m -> seen w' i ts m.
Proof.
  intros strong w w' P i ts m HI HI' HN HC HE HP HD (o & d & E & D & T & M). exists o, d. rewrite (HE i HP).
  split; [exact E|]. rewrite HD by (auto; congruence). split; [exact D|]. split; [exact T|]. rewrite <- M. unfold meta_of.
  rewrite (meta_ext w w' P HC HE _ _ HP). pose proof (i_obj _ _ HI _ _ E). apply (meta_fuel strong w HI); lia.
Qed.

Lemma reach_based : forall strong w, Inv strong w -> forall i o, reachable strong w i -> w_obj w i = Some o ->
  exists b ob, based w i b /\ w_obj w b = Some ob /\ o_view ob = None /\ o_ptr ob = o_ptr o.
Proof.
  intros strong w HI i. induction i as [i IH] using (well_founded_induction lt_wf). intros o R E.
  destruct (o_view o) as [[f p]|] eqn:V.
  - destruct (i_view _ _ HI _ _ _ _ E V) as [L Q]. assert (R' : reachable strong w p) by (eapply reach_parent; eauto).
    destruct (reach_live _ _ HI p R') as (o' & d & E' & _). destruct (IH p L o' R' E') as (b & ob & B & EB & VB & PB).
    exists b, ob. split; [eapply based_parent; eauto|]. rewrite PB. auto.
  - exists i, o. split; [eapply based_self; eauto|]. auto.
Qed.
Lemma based_ptr : forall strong w, Inv strong w -> forall i b, based w i b -> exists o ob, w_obj w i = Some o /\ w_obj w b = Some ob /\ o_ptr o = o_ptr ob.
Proof.
  intros strong w HI i b B. induction B as [i o E V|i o f p b E V B (o' & ob & E' & EB & P)]; [eauto|].
  destruct (i_view _ _ HI _ _ _ _ E V) as [_ Q]. exists o, ob. rewrite <- P. rewrite (Q _ E'). auto.
Qed.
Lemma family_ptr : forall strong w i j o o', Inv strong w -> reachable strong w i -> reachable strong w j -> w_obj w i = Some o -> w_obj w j = Some o' ->
  family w i j <-> o_ptr o = o_ptr o'.
Proof.
  intros strong w i j o o' HI RI RJ EI EJ. split.
  - intros (b & BI & BJ). destruct (based_ptr _ _ HI _ _ BI) as (x & y & X & Y & P), (based_ptr _ _ HI _ _ BJ) as (x' & y' & X' & Y' & P'). congruence.
  - intro P. destruct (reach_based _ _ HI i o RI EI) as (b & ob & B & EB & VB & PB), (reach_based _ _ HI j o' RJ EJ) as (b' & ob' & B' & EB' & VB' & PB').
    exists b. split; [exact B|]. rewrite (i_uniq _ _ HI b b' ob ob'); auto. congruence.
Qed.

Lemma seen_shared : forall strong w i j ts m ts' m', Inv strong w -> reachable strong w i -> reachable strong w j -> family w i j -> seen w i ts m -> seen w j ts' m' -> ts = ts'.
Proof.
  intros strong w i j ts m ts' m' HI RI RJ F (o & d & E & D & T & _) (o' & d' & E' & D' & T' & _).
  apply (family_ptr _ _ _ _ _ _ HI RI RJ E E') in F. congruence.
Qed.

Lemma add_frame : forall strong w i o d d' m j ts ms, Inv strong w -> reachable strong w i -> reachable strong w j -> w_obj w i = Some o -> w_db w (o_ptr o) = Some d ->
  ~ family w i j -> seen w j ts ms ->
  seen (set_obj (set_db w (o_ptr o) (Some d')) i (Some (mkObj (o_ptr o) m (o_view o)))) j ts ms.
Proof.
  intros strong w i o d d' m j ts ms HI RI RJ E D NF SJ. pose proof SJ as (oj & dj & EJ & DJ & _).
  assert (NP : o_ptr o <> o_ptr oj) by (intro P; apply NF; apply (family_ptr _ _ _ _ _ _ HI RI RJ E EJ); exact P).
  apply (seen_ext strong w _ (fun k => forall x, w_obj w k = Some x -> o_ptr x = o_ptr oj)); auto.
  - apply inv_set_obj; [apply inv_set_db; [exact HI|exact (i_ptr _ _ HI _ _ E)]|exact E].
  - intros k x f p PK EK VK y EY. destruct (i_view _ _ HI _ _ _ _ EK VK) as [_ Q]. rewrite (Q _ EY). auto.
  - intros k PK. cbn. apply upd_ne. intros ->. exact (NP (PK _ E)).
  - intros x EX. congruence.
  - intros x EX _. cbn. apply upd_ne. congruence.
Qed.

Lemma new_obj_frame : forall strong w o fin j ts ms, Inv strong w -> Inv strong (snd (add_obj w o fin)) -> reachable strong w j ->
  seen w j ts ms -> seen (snd (add_obj w o fin)) j ts ms.
Proof.
  intros strong w o fin j ts ms HI HI' RJ SJ. apply (seen_ext strong w _ (reachable strong w)); auto; cbn.
  - lia.
  - intros k x f p RK EK VK. eapply reach_parent; eauto.
  - intros k RK. apply upd_ne. intros ->. destruct (reach_live _ _ HI _ RK) as (x & _ & EX & _). pose proof (i_obj _ _ HI _ _ EX). lia.
Qed.
Lemma new_db_frame : forall strong w d j ts ms, Inv strong w -> seen w j ts ms -> seen (snd (add_db w d)) j ts ms.
Proof.
  intros strong w d j ts ms HI SJ. apply (seen_ext strong w _ (fun _ => True)); auto; cbn.
  - apply (inv_add_db strong w d HI).
  - intros o E _. apply upd_ne. pose proof (i_ptr _ _ HI _ _ E). lia.
Qed.
Lemma make_frame : forall strong w d m fin j ts ms, Inv strong w -> reachable strong w j -> seen w j ts ms ->
  seen (snd (add_obj (snd (add_db w d)) (mkObj (w_ndb w) m None) fin)) j ts ms.
Proof.
  intros strong w d m fin j ts ms HI RJ SJ. apply (new_obj_frame strong).
  - apply (inv_add_db strong w d HI).
  - exact (make_new strong w d m fin HI).
  - revert RJ. apply reach_sub; cbn; auto; [intros i H; apply reach_held; exact H|intros i o' E; eauto].
  - apply (new_db_frame strong); assumption.
Qed.

Lemma roots_frame : forall strong w r t j ts ms, Inv strong w -> incl r (w_roots w) -> seen w j ts ms ->
  seen (mkW (w_obj w) (w_nobj w) (w_db w) (w_ndb w) r (w_fin w) t) j ts ms.
Proof.
  intros strong w r t j ts ms HI HR SJ. apply (seen_ext strong w _ (fun _ => True)); auto. apply inv_roots; auto.
Qed.

Lemma gone_frame : forall strong w i w' j ts ms, Inv strong w -> ~ reachable strong w i -> reclaim w i = Ok w' -> reachable strong w j ->
  seen w j ts ms -> seen w' j ts ms /\ reachable strong w' j.
Proof.
  intros strong w i w' j ts ms HI NR E RJ SJ. destruct (reclaim_ok strong w i HI NR) as (w1 & E1 & HI1 & _ & K). rewrite E in E1. inversion E1; subst w1.
  assert (G : forall dbs k, reachable strong w k -> reachable strong (gone w i dbs) k).
  { intros dbs k RK. induction RK as [k H|k S H|k o f p RK IH EK VK].
    - apply reach_held. exact H.
    - apply reach_finalizer; [exact S|]. cbn. rewrite upd_ne; [exact H|]. intros ->. apply NR. apply reach_finalizer; auto.
    - eapply reach_parent; [exact IH| |exact VK]. cbn. rewrite upd_ne; [exact EK|]. intros ->. exact (NR RK). }
  assert (C : forall k o f p, reachable strong w k -> w_obj w k = Some o -> o_view o = Some (f, p) -> reachable strong w p) by (intros; eapply reach_parent; eauto).
  assert (O : forall dbs k, reachable strong w k -> w_obj (gone w i dbs) k = w_obj w k) by (intros dbs k RK; cbn; apply upd_ne; intros ->; exact (NR RK)).
  destruct K as [->|[(F & ->)|(o & F & EO & ->)]]; [auto| |].
  - split; [|apply G; exact RJ]. apply (seen_ext strong w _ (reachable strong w)); auto.
  - split; [|apply G; exact RJ]. apply (seen_ext strong w _ (reachable strong w)); auto.
    intros x EX _. cbn. apply upd_ne. intro P. destruct (i_fin _ _ HI _ F) as (o1 & E2 & V). rewrite EO in E2. inversion E2; subst o1.
    destruct (reach_based _ _ HI j x RJ EX) as (b & ob & B & EB & VB & PB).
    assert (RB : reachable strong w b).
    { clear - B RJ. induction B as [|j o f p b E V B IH]; [exact RJ|]. apply IH. eapply reach_parent; eauto. }
    apply NR. rewrite <- (i_uniq _ _ HI b i ob o EB EO VB V); [exact RB|congruence].
Qed.
Lemma collect_frame : forall strong l w w' j ts ms, Inv strong w -> (forall i, In i l -> ~ reachable strong w i) -> reclaim_all w l = Ok w' ->
  reachable strong w j -> seen w j ts ms -> seen w' j ts ms.
Proof.
  intros strong. induction l as [|i r IH]; intros w w' j ts ms HI NR E RJ SJ; cbn [reclaim_all] in E; [inversion E; subst; exact SJ|].
  destruct (reclaim_ok strong w i HI (NR i (or_introl eq_refl))) as (w1 & E1 & HI1 & S1 & _). rewrite E1 in E. cbn [bind] in E.
  destruct (gone_frame strong w i w1 j ts ms HI (NR i (or_introl eq_refl)) E1 RJ SJ) as [SJ1 RJ1].
  apply (IH w1 w' j ts ms HI1); auto. intros k K RK. exact (NR k (or_intror K) (S1 _ RK)).
Qed.

Variables (ok : N -> bool) (ver : N) (grow : N -> N).
Hypothesis Hok : forall n, ok n = true.

Lemma exec_frame : forall strong w c r w' j ts ms, Inv strong w -> allowed strong w c -> exec ok ver grow w c = Ok (r, w') ->
  In j (w_roots w) -> writes c (fun i => ~ family w i j) -> seen w j ts ms -> seen w' j ts ms.
Proof.
  intros strong w c r w' j ts ms HI AL E RJ NF SJ. apply (reach_held strong) in RJ.
  destruct c as [|i f|i t m|i t m|i|i|s|i|dead]; cbn [allowed writes] in *; unfold exec in E.
  - inversion E. exact (make_frame strong w create_db [] true j ts ms HI RJ SJ).
  - pose proof (exec_inv ok ver grow Hok strong w (ORestrict i f) r w' HI AL E) as HI'.
    destruct (w_obj w i) as [o|] eqn:EO; [|discriminate]. inversion E. subst r w'.
    exact (new_obj_frame strong w (mkObj (o_ptr o) [] (Some (f, i))) false j ts ms HI HI' RJ SJ).
  - destruct (behind w i) as [[o d]| | | |] eqn:B; try discriminate. cbn [bind] in E. destruct (behind_inv _ _ _ _ B) as [EO ED].
    destruct t as [tr|]; inversion E; subst; [|exact SJ]. exact (add_frame strong w i o d _ _ j ts ms HI (reach_held _ _ _ AL) RJ EO ED NF SJ).
  - destruct (behind w i) as [[o d]| | | |] eqn:B; try discriminate. cbn [bind] in E. destruct (behind_inv _ _ _ _ B) as [EO ED].
    inversion E; subst. exact (add_frame strong w i o d _ _ j ts ms HI (reach_held _ _ _ AL) RJ EO ED NF SJ).
  - destruct (behind w i) as [[o d]| | | |] eqn:B; try discriminate. cbn [bind] in E. inversion E; subst. exact SJ.
  - destruct (w_obj w i) as [o|] eqn:EO; [|discriminate]. destruct (o_view o); [inversion E; subst; exact SJ|].
    destruct (behind w i) as [[o1 d]| | | |] eqn:B; try discriminate. cbn [bind] in E. inversion E; subst.
    apply (roots_frame strong); [exact HI|apply incl_refl|exact SJ].
  - destruct s as [[|b t] m|].
    + inversion E. exact (make_frame strong w create_db m true j ts ms HI RJ SJ).
    + destruct (deserialize_trace_db ok ver (b :: t)) as [d| | | |]; try discriminate. cbn [bind] in E. inversion E.
      exact (make_frame strong w d m false j ts ms HI RJ SJ).
    + inversion E; subst. exact SJ.
  - inversion E; subst. apply (roots_frame strong); [exact HI|apply remove_one_incl|exact SJ].
  - destruct (reclaim_all w dead) as [w1| | | |] eqn:ER; try discriminate. inversion E; subst. eapply collect_frame; eauto.
Qed.

Lemma run_frame : forall strong l w c r w' j ts ms, run strong ok ver grow empty_world l w -> allowed strong w c -> exec ok ver grow w c = Ok (r, w') ->
  In j (w_roots w) -> writes c (fun i => ~ family w i j) -> seen w j ts ms -> seen w' j ts ms.
Proof. intros strong l w c r w' j ts ms R. exact (exec_frame strong w c r w' j ts ms (run_inv ok ver grow Hok _ _ _ _ R (inv_empty _))). Qed.

Lemma traces_push : forall d t, traces (push_trace grow d t) = traces d ++ [t].
Proof.
  intros d t. unfold traces, push_trace. destruct (N.ltb _ _); cbn [db_traces]; rewrite map_app; cbn [map fst]; [reflexivity|].
  rewrite map_map. reflexivity.
Qed.

Lemma meta_set : forall w i o m d, w_obj w i = Some o -> m <> [] -> meta_of (set_obj (set_db w (o_ptr o) d) i (Some (mkObj (o_ptr o) m (o_view o)))) i = m.
Proof.
  intros w i o m d E NE. unfold meta_of. cbn [metadata]. unfold set_obj at 1. cbn [w_obj]. rewrite upd_eq. cbn [o_view o_meta].
  destruct (o_view o) as [[f p]|]; [destruct m; [congruence|reflexivity]|reflexivity].
Qed.

Lemma run_added : forall strong l w i ts ms, run strong ok ver grow empty_world l w -> In i (w_roots w) -> seen w i ts ms ->
  (forall t m, exists w', exec ok ver grow w (OAdd i (Some t) m) = Ok (RAdded true, w') /\ seen w' i (ts ++ [t]) (ms ++ [m])) /\
  (forall t m, exists w', exec ok ver grow w (OPoints i t m) = Ok (RUnit, w') /\ seen w' i (ts ++ [t]) (m :: ms)) /\
  (forall m, exec ok ver grow w (OAdd i None m) = Ok (RAdded false, w)) /\
  exec ok ver grow w (OCount i) = Ok (RCount (lenN ts), w).
Proof.
  intros strong l w i ts ms R H (o & d & E & D & T & M). unfold exec, behind. rewrite E, D. cbn [bind].
  split; [|split; [|split; [reflexivity|]]].
  - intros t m. eexists. split; [reflexivity|]. eexists. eexists. cbn [w_obj set_obj]. rewrite upd_eq. split; [reflexivity|].
    cbn [w_db set_db set_obj o_ptr]. rewrite upd_eq. split; [reflexivity|]. rewrite traces_push, T, M. split; [reflexivity|].
    apply (meta_set w i o); [exact E|]. destruct ms; discriminate.
  - intros t m. eexists. split; [reflexivity|]. eexists. eexists. cbn [w_obj set_obj]. rewrite upd_eq. split; [reflexivity|].
    cbn [w_db set_db set_obj o_ptr]. rewrite upd_eq. split; [reflexivity|]. rewrite traces_push, T, M. split; [reflexivity|].
    apply (meta_set w i o); [exact E|]. discriminate.
  - f_equal. f_equal. f_equal. subst ts. unfold traces, lenN. rewrite map_length. reflexivity.
Qed.

Lemma text_not_empty : forall d, exists b t, serialize_trace_db ver d = b :: t.
Proof. intro d. unfold serialize_trace_db, header. set (x := show_N (lenN signature)). vm_compute in x. subst x. cbn [app]. eauto. Qed.

Lemma meta_new : forall w o fin, o_view o = None -> meta_of (snd (add_obj w o fin)) (w_nobj w) = o_meta o.
Proof.
  intros w o fin V. unfold meta_of. cbn [metadata]. unfold add_obj at 1. cbn [snd w_obj]. rewrite upd_eq, V. reflexivity.
Qed.

Lemma run_stored : forall strong l w i ts ms, ((ver < 2 ^ 16)%N) -> run strong ok ver grow empty_world l w -> In i (w_roots w) -> based w i i -> seen w i ts ms -> storable ts ->
  exists s w1, exec ok ver grow w (OStore i) = Ok (RStored s, w1) /\
  forall strong' l' w2, run strong' ok ver grow empty_world l' w2 ->
    exists j w3, exec ok ver grow w2 (ORestore s) = Ok (RObj j, w3) /\ w_roots w3 = j :: w_roots w2 /\ seen w3 j ts ms /\
      forall k, In k (w_roots w2) -> ~ family w3 j k.
Proof.
  intros strong l w i ts ms HV R HR HB (o & d & E & D & T & M) HS. subst ts.
  assert (V : o_view o = None).
  { inversion HB as [x o' E' V'|x o' f p b E' V' B']; subst; rewrite E in E'; inversion E'; subst; [exact V'|]. exfalso.
    pose proof (run_inv ok ver grow Hok _ _ _ _ R (inv_empty _)) as HI. destruct (i_view _ _ HI _ _ _ _ E V') as [L _].
    assert (G : forall a b, based w a b -> b <= a).
    { intros a b B. induction B as [|a x f' q b EA VA B IH]; [lia|]. destruct (i_view _ _ HI _ _ _ _ EA VA). lia. }
    specialize (G _ _ B'). lia. }
  unfold exec at 1, behind. rewrite E, V, D. cbn [bind]. eexists. eexists. split; [reflexivity|].
  intros strong' l' w2 R2. pose proof (run_inv ok ver grow Hok _ _ _ _ R2 (inv_empty _)) as HI2.
  destruct (round_trip ok ver d Hok HV HS) as [_ RT]. destruct (text_not_empty d) as (b & t & ET). rewrite ET in RT.
  set (d' := mkDB (map (fun t => (t, [])) (traces d)) (lenN (traces d)) 0%N) in *.
  unfold exec. rewrite ET, RT. cbn [bind].
  change (let '(p, w1) := add_db w2 d' in Ok (make w1 (Some p) (meta_of w i))) with
    (Ok (add_obj (snd (add_db w2 d')) (mkObj (w_ndb w2) (meta_of w i) None) false)).
  set (w3 := snd (add_obj (snd (add_db w2 d')) (mkObj (w_ndb w2) (meta_of w i) None) false)).
  assert (HI3 : Inv strong' w3) by exact (make_new strong' w2 d' (meta_of w i) false HI2).
  assert (EJ : w_obj w3 (w_nobj w2) = Some (mkObj (w_ndb w2) (meta_of w i) None)) by (cbn; apply upd_eq).
  exists (w_nobj w2), w3. split; [reflexivity|]. split; [reflexivity|]. split.
  - eexists. exists d'. split; [exact EJ|]. cbn [o_ptr]. split; [cbn; apply upd_eq|]. split.
    + unfold traces at 1, d'. cbn [db_traces]. rewrite map_map. cbn [fst]. apply map_id.
    + rewrite <- M. exact (meta_new (snd (add_db w2 d')) (mkObj (w_ndb w2) (meta_of w i) None) false eq_refl).
  - intros k K F. destruct (reach_live _ _ HI2 k (reach_held _ _ _ K)) as (ok' & dk & EK & _).
    assert (NK : k <> w_nobj w2) by (pose proof (i_obj _ _ HI2 _ _ EK); lia).
    assert (EK3 : w_obj w3 k = Some ok') by (cbn; rewrite upd_ne; assumption).
    apply (family_ptr strong' w3 (w_nobj w2) k (mkObj (w_ndb w2) (meta_of w i) None) ok' HI3) in F; auto.
    + cbn in F. pose proof (i_ptr _ _ HI2 _ _ EK). lia.
    + apply reach_held. left. reflexivity.
    + apply reach_held. right. exact K.
Qed.
Lemma run_shared : forall strong l w i j ts m ts' m', run strong ok ver grow empty_world l w -> In i (w_roots w) -> In j (w_roots w) -> family w i j ->
  seen w i ts m -> seen w j ts' m' -> ts = ts'.
Proof.
  intros strong l w i j ts m ts' m' R RI RJ. apply (seen_shared strong).
  - exact (run_inv ok ver grow Hok _ _ _ _ R (inv_empty _)).
  - apply reach_held. exact RI.
  - apply reach_held. exact RJ.
Qed.

Lemma run_made : forall strong l w, run strong ok ver grow empty_world l w ->
  exists j w', exec ok ver grow w OMake = Ok (RObj j, w') /\ w_roots w' = j :: w_roots w /\ seen w' j [] [] /\
    forall k, In k (w_roots w) -> k <> j /\ ~ family w' j k.
Proof.
  intros strong l w R. pose proof (run_inv ok ver grow Hok _ _ _ _ R (inv_empty _)) as HI.
  set (w' := snd (add_obj (snd (add_db w create_db)) (mkObj (w_ndb w) [] None) true)).
  assert (HI' : Inv strong w') by exact (make_new strong w create_db [] true HI).
  exists (w_nobj w), w'. split; [reflexivity|]. split; [reflexivity|].
  assert (EJ : w_obj w' (w_nobj w) = Some (mkObj (w_ndb w) [] None)) by (cbn; apply upd_eq). split.
  - eexists. exists create_db. split; [exact EJ|]. split; [cbn; apply upd_eq|]. split; [reflexivity|].
    exact (meta_new (snd (add_db w create_db)) (mkObj (w_ndb w) [] None) true eq_refl).
  - intros k K. destruct (reach_live _ _ HI k (reach_held _ _ _ K)) as (o & d & EK & _).
    assert (NK : k <> w_nobj w) by (pose proof (i_obj _ _ HI _ _ EK); lia). split; [exact NK|]. intro F.
    assert (EK3 : w_obj w' k = Some o) by (cbn; rewrite upd_ne; assumption).
    apply (family_ptr strong w' (w_nobj w) k (mkObj (w_ndb w) [] None) o HI') in F; auto.
    + cbn in F. pose proof (i_ptr _ _ HI _ _ EK). lia.
    + apply reach_held. left. reflexivity.
    + apply reach_held. right. exact K.
Qed.

Lemma run_restricted : forall strong l w i f ts ms, run strong ok ver grow empty_world l w -> In i (w_roots w) -> seen w i ts ms ->
  exists j w', exec ok ver grow w (ORestrict i f) = Ok (RObj j, w') /\ w_roots w' = j :: w_roots w /\ seen w' j ts ms /\ family w' j i /\ i <> j.
Proof.
  intros strong l w i f ts ms R RI SI. pose proof (run_inv ok ver grow Hok _ _ _ _ R (inv_empty _)) as HI.
  pose proof SI as (o & d & E & D & T & M).
  destruct (exec_ok ok ver grow Hok strong w (ORestrict i f) HI RI) as [(r & w' & EX & HI')|[EX _]];
    [|unfold exec in EX; rewrite E in EX; discriminate].
  pose proof (exec_frame strong w (ORestrict i f) r w' i ts ms HI RI EX RI Logic.I SI) as SI'.
  pose proof EX as EX'. unfold exec in EX'. rewrite E in EX'. inversion EX' as [[H0 H1]]. subst r. clear EX'. symmetry in H1.
  exists (w_nobj w), w'. split; [exact EX|]. assert (RW : w_roots w' = w_nobj w :: w_roots w) by (subst w'; reflexivity). split; [exact RW|].
  assert (EJ : w_obj w' (w_nobj w) = Some (mkObj (o_ptr o) [] (Some (f, i)))) by (subst w'; cbn; apply upd_eq).
  assert (NI : i <> w_nobj w) by (pose proof (i_obj _ _ HI _ _ E); lia).
  assert (EI : w_obj w' i = Some o) by (subst w'; cbn; rewrite upd_ne; assumption).
  split; [|split; [|exact NI]].
  - destruct SI' as (o' & d' & E' & D' & T' & M'). rewrite EI in E'. inversion E'; subst o'. eexists. exists d'. split; [exact EJ|].
    split; [exact D'|]. split; [exact T'|]. rewrite <- M'. unfold meta_of.
    assert (N' : w_nobj w' = S (w_nobj w)) by (subst w'; reflexivity). rewrite N'.
    change (match w_obj w' (w_nobj w) with None => [] | Some o => match o_view o, o_meta o with Some (_, p), [] => metadata (S (w_nobj w)) w' p | _, m => m end end = metadata (S (S (w_nobj w))) w' i).
    rewrite EJ. cbn [o_view o_meta]. pose proof (i_obj _ _ HI _ _ E). apply (meta_fuel strong w' HI'); lia.
  - apply (family_ptr strong w' (w_nobj w) i (mkObj (o_ptr o) [] (Some (f, i))) o HI'); auto.
    + apply reach_held. rewrite RW. left. reflexivity.
    + apply reach_held. rewrite RW. right. exact RI.
Qed.
End P.
