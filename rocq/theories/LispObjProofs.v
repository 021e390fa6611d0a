(** Proofs for C74: invariants of Lisp database objects. *)
From Verif Require Import Base BaseProofs Types CApi CApiSpec Archive ArchiveSpec ArchiveProofs ArchiveProofs3 LispObj LispObjSpec.
From Coq Require Import Lia.
Local Open Scope nat_scope.

Section P.
Context {A : Type}.
Notation world := (world A). Notation op := (op A). Notation result := (result A).
Implicit Types w : world.

Lemma upd_eq : forall B (f : nat -> B) k v, upd f k v k = v.
Proof. intros. unfold upd. rewrite Nat.eqb_refl. reflexivity. Qed.
Lemma upd_ne : forall B (f : nat -> B) k v i, i <> k -> upd f k v i = f i.
Proof. intros. unfold upd. apply Nat.eqb_neq in H. rewrite H. reflexivity. Qed.

Record Inv (strong : bool) (w : world) : Prop := {
  i_obj : forall i o, w_obj w i = Some o -> i < w_nobj w;
  i_ptr : forall i o, w_obj w i = Some o -> o_ptr o < w_ndb w;
  i_db : forall p, w_db w p <> None -> p < w_ndb w;
  i_base : forall i o, w_obj w i = Some o -> o_view o = None -> w_db w (o_ptr o) <> None;
  i_uniq : forall i j o o', w_obj w i = Some o -> w_obj w j = Some o' -> o_view o = None -> o_view o' = None -> o_ptr o = o_ptr o' -> i = j;
  i_view : forall i o f p, w_obj w i = Some o -> o_view o = Some (f, p) -> p < i /\ forall o', w_obj w p = Some o' -> o_ptr o' = o_ptr o;
  i_fin : forall i, w_fin w i = true -> exists o, w_obj w i = Some o /\ o_view o = None;
  i_reach : forall i, reachable strong w i -> w_obj w i <> None
}.

Lemma inv_empty : forall strong, Inv strong empty_world.
Proof.
  intro strong. split; cbn; try discriminate; try congruence.
  intros i R. exfalso. induction R; cbn in *; try contradiction; try discriminate.
Qed.

(** The objects as before, and what is kept as before or less. *)
Lemma reach_sub : forall strong w w',
  (forall i, In i (w_roots w') -> reachable strong w i) -> (forall i, w_fin w' i = true -> w_fin w i = true) ->
  (forall i o', w_obj w' i = Some o' -> exists o, w_obj w i = Some o /\ o_view o = o_view o') ->
  forall i, reachable strong w' i -> reachable strong w i.
Proof.
  intros strong w w' HR HF HO i R. induction R as [i H|i S H|i o f p R IH E V].
  - apply HR. exact H.
  - apply reach_finalizer; auto.
  - destruct (HO _ _ E) as (o' & E' & V'). eapply reach_parent; [exact IH|exact E'|rewrite V'; exact V].
Qed.

Lemma reach_live : forall strong w, Inv strong w -> forall i, reachable strong w i ->
  exists o d, w_obj w i = Some o /\ w_db w (o_ptr o) = Some d.
Proof.
  intros strong w H i. induction i as [i IH] using (well_founded_induction lt_wf). intro R.
  destruct (w_obj w i) as [o|] eqn:E; [|exfalso; exact (i_reach _ _ H i R E)].
  exists o. destruct (o_view o) as [[f p]|] eqn:V.
  - destruct (i_view _ _ H _ _ _ _ E V) as [L Q]. destruct (IH p L) as (o' & d & E' & D); [eapply reach_parent; eauto|].
    exists d. rewrite <- (Q _ E'). auto.
  - pose proof (i_base _ _ H _ _ E V) as D. destruct (w_db w (o_ptr o)) as [d|]; [eauto|congruence].
Qed.

Lemma inv_add_db : forall strong w d, Inv strong w -> Inv strong (snd (add_db w d)).
Proof.
  intros strong w d H. destruct H as [H1 H2 H3 H4 H5 H6 H7 H8]. split; cbn; auto.
  - intros i o E. specialize (H2 _ _ E). lia.
  - intros p. unfold upd. destruct (Nat.eqb_spec p (w_ndb w)); [lia|]. intro D. specialize (H3 _ D). lia.
  - intros i o E V. rewrite upd_ne; [eauto|]. specialize (H2 _ _ E). lia.
  - intros i R. apply H8. revert i R. apply reach_sub; cbn; auto. apply reach_held. intros i o' E. eauto.
Qed.

Lemma inv_add_obj : forall strong w o fin, Inv strong w -> o_ptr o < w_ndb w ->
  (o_view o = None -> w_db w (o_ptr o) <> None /\ forall i o', w_obj w i = Some o' -> o_ptr o' <> o_ptr o) ->
  (forall f p, o_view o = Some (f, p) -> fin = false /\ reachable strong w p /\ exists o', w_obj w p = Some o' /\ o_ptr o' = o_ptr o) ->
  Inv strong (snd (add_obj w o fin)).
Proof.
  intros strong w o fin H HP HB HV. pose proof H as [H1 H2 H3 H4 H5 H6 H7 H8].
  assert (FR : w_obj w (w_nobj w) = None).
  { destruct (w_obj w (w_nobj w)) as [x|] eqn:E; [|reflexivity]. specialize (H1 _ _ E). lia. }
  split; cbn.
  - intros i o' E. unfold upd in E. destruct (Nat.eqb_spec i (w_nobj w)); [lia|]. specialize (H1 _ _ E). lia.
  - intros i o' E. unfold upd in E. destruct (Nat.eqb_spec i (w_nobj w)); [inversion E; subst; exact HP|eauto].
  - exact H3.
  - intros i o' E V. unfold upd in E. destruct (Nat.eqb_spec i (w_nobj w)); [inversion E; subst; apply HB; exact V|eauto].
  - intros i j a b E F V V' P. unfold upd in E, F. destruct (Nat.eqb_spec i (w_nobj w)), (Nat.eqb_spec j (w_nobj w)); subst; auto.
    + inversion E; subst. exfalso. destruct (HB V) as [_ Q]. exact (Q _ _ F (eq_sym P)).
    + inversion F; subst. exfalso. destruct (HB V') as [_ Q]. exact (Q _ _ E P).
    + eauto.
  - intros i a f p E V. unfold upd in E. destruct (Nat.eqb_spec i (w_nobj w)).
    + inversion E; subst. destruct (HV _ _ V) as (_ & _ & o' & E' & P'). pose proof (H1 _ _ E'). split; [lia|].
      intros o2 E2. rewrite upd_ne in E2 by lia. rewrite E' in E2. inversion E2; subst. exact P'.
    + destruct (H6 _ _ _ _ E V) as [L Q]. split; [exact L|]. intros o2 E2. apply Q. rewrite upd_ne in E2; [exact E2|].
      specialize (H1 _ _ E). lia.
  - intros i E. unfold upd in *. destruct (Nat.eqb_spec i (w_nobj w)); [|eauto].
    exists o. split; [reflexivity|]. destruct (o_view o) as [[f p]|] eqn:V; [|reflexivity]. destruct (HV _ _ eq_refl). congruence.
  - assert (K : forall i, reachable strong (snd (add_obj w o fin)) i -> i = w_nobj w \/ reachable strong w i).
    { intros i R. induction R as [i R|i S R|i a f p R IH E V]; cbn in *.
      - destruct R; [auto|right; apply reach_held; auto].
      - unfold upd in R. destruct (Nat.eqb_spec i (w_nobj w)); [auto|right; apply reach_finalizer; auto].
      - right. unfold upd in E. destruct (Nat.eqb_spec i (w_nobj w)).
        + inversion E; subst. destruct (HV _ _ V) as (_ & K & _). exact K.
        + destruct IH; [congruence|]. eapply reach_parent; eauto. }
    intros i R. unfold upd. destruct (Nat.eqb_spec i (w_nobj w)); [discriminate|]. destruct (K _ R); [congruence|auto].
Qed.

Lemma inv_set_db : forall strong w p d, Inv strong w -> p < w_ndb w -> Inv strong (set_db w p (Some d)).
Proof.
  intros strong w p d H HP. destruct H as [H1 H2 H3 H4 H5 H6 H7 H8]. split; cbn; auto.
  - intros q. unfold upd. destruct (Nat.eqb_spec q p); [subst; auto|apply H3].
  - intros i o E V. unfold upd. destruct (Nat.eqb_spec (o_ptr o) p); [discriminate|eauto].
  - intros i R. apply H8. revert i R. apply reach_sub; cbn; auto. apply reach_held. intros i o' E. eauto.
Qed.

Lemma inv_set_obj : forall strong w i o m, Inv strong w -> w_obj w i = Some o -> Inv strong (set_obj w i (Some (mkObj (o_ptr o) m (o_view o)))).
Proof.
  intros strong w i o m H HE. pose proof H as [H1 H2 H3 H4 H5 H6 H7 H8].
  assert (X : forall j o', upd (w_obj w) i (Some (mkObj (o_ptr o) m (o_view o))) j = Some o' ->
    exists o2, w_obj w j = Some o2 /\ o_ptr o2 = o_ptr o' /\ o_view o2 = o_view o').
  { intros j o' E. unfold upd in E. destruct (Nat.eqb_spec j i); [subst|eauto]. inversion E; subst. cbn. eauto. }
  split; cbn.
  - intros j o' E. destruct (X _ _ E) as (o2 & E2 & P & V). eauto.
  - intros j o' E. destruct (X _ _ E) as (o2 & E2 & P & V). rewrite <- P. eauto.
  - exact H3.
  - intros j o' E V'. destruct (X _ _ E) as (o2 & E2 & P & V). rewrite <- P. apply (H4 _ _ E2). congruence.
  - intros a b oa ob E F VE VF P. destruct (X _ _ E) as (o2 & E2 & P2 & V2), (X _ _ F) as (o3 & E3 & P3 & V3).
    apply (H5 _ _ _ _ E2 E3); congruence.
  - intros j o' f p E V'. destruct (X _ _ E) as (o2 & E2 & P & V). rewrite <- V in V'. destruct (H6 _ _ _ _ E2 V') as [L Q]. split; [exact L|].
    intros o3 E3. destruct (X _ _ E3) as (o4 & E4 & P4 & _). rewrite <- P4, <- P. apply Q. exact E4.
  - intros j F. destruct (H7 _ F) as (o2 & E2 & V2). unfold upd. destruct (Nat.eqb_spec j i); [subst|eauto].
    rewrite HE in E2. inversion E2; subst. eexists. split; [reflexivity|exact V2].
  - intros j R. assert (R' : reachable strong w j).
    { revert j R. apply reach_sub; cbn; auto. apply reach_held. intros j o' E. destruct (X _ _ E) as (o2 & E2 & _ & V2). eauto. }
    unfold upd. destruct (Nat.eqb_spec j i); [discriminate|auto].
Qed.

Lemma inv_roots : forall strong w r t, Inv strong w -> incl r (w_roots w) ->
  Inv strong (mkW (w_obj w) (w_nobj w) (w_db w) (w_ndb w) r (w_fin w) t).
Proof.
  intros strong w r t H HI. destruct H as [H1 H2 H3 H4 H5 H6 H7 H8]. split; cbn; auto.
  intros i R. apply H8. revert i R. apply reach_sub; cbn; auto. intros i K. apply reach_held. auto. intros i o' E. eauto.
Qed.

(** One object reclaimed. *)
Definition gone (w : world) (i : nat) (dbs : nat -> option db) : world :=
  mkW (upd (w_obj w) i None) (w_nobj w) dbs (w_ndb w) (w_roots w) (upd (w_fin w) i false) (w_texts w).
Lemma gone_reach : forall strong w i dbs j, reachable strong (gone w i dbs) j -> reachable strong w j.
Proof.
  intros strong w i dbs. apply reach_sub; cbn.
  - apply reach_held.
  - intros j. unfold upd. destruct (Nat.eqb j i); [discriminate|auto].
  - intros j o'. unfold upd. destruct (Nat.eqb j i); [discriminate|eauto].
Qed.
Lemma inv_gone : forall strong w i dbs, Inv strong w -> ~ reachable strong w i -> (forall p, dbs p <> None -> w_db w p <> None) ->
  (forall j o, j <> i -> w_obj w j = Some o -> o_view o = None -> dbs (o_ptr o) <> None) -> Inv strong (gone w i dbs).
Proof.
  intros strong w i dbs H HR HD HB. destruct H as [H1 H2 H3 H4 H5 H6 H7 H8].
  assert (X : forall j o, upd (w_obj w) i None j = Some o -> j <> i /\ w_obj w j = Some o).
  { intros j o E. unfold upd in E. destruct (Nat.eqb_spec j i); [discriminate|auto]. }
  split; cbn.
  - intros j o E. destruct (X _ _ E). eauto.
  - intros j o E. destruct (X _ _ E). eauto.
  - intros p D. auto.
  - intros j o E V. destruct (X _ _ E). eauto.
  - intros a b oa ob E F. destruct (X _ _ E), (X _ _ F). eauto.
  - intros j o f p E V. destruct (X _ _ E) as [_ E2]. destruct (H6 _ _ _ _ E2 V) as [L Q]. split; [exact L|]. intros o' E'. destruct (X _ _ E'). auto.
  - intros j F. unfold upd in *. destruct (Nat.eqb_spec j i); [discriminate|auto].
  - intros j R. apply gone_reach in R. unfold upd. destruct (Nat.eqb_spec j i); [subst; contradiction|auto].
Qed.

Lemma reclaim_ok : forall strong w i, Inv strong w -> ~ reachable strong w i ->
  exists w', reclaim w i = Ok w' /\ Inv strong w' /\ (forall j, reachable strong w' j -> reachable strong w j) /\
    (w' = w \/ (w_fin w i = false /\ w' = gone w i (w_db w)) \/
     exists o, w_fin w i = true /\ w_obj w i = Some o /\ w' = gone w i (upd (w_db w) (o_ptr o) None)).
Proof.
  intros strong w i H HR. unfold reclaim. destruct (w_obj w i) as [o|] eqn:E; [|eauto 10].
  destruct (w_fin w i) eqn:F.
  - destruct (i_fin _ _ H _ F) as (o' & E' & V). rewrite E in E'. inversion E'; subst o'.
    pose proof (i_base _ _ H _ _ E V) as D. destruct (w_db w (o_ptr o)) as [d|] eqn:ED; [|congruence]. cbn [bind].
    change (mkW _ _ _ _ _ _ _) with (gone w i (upd (w_db w) (o_ptr o) None)).
    eexists. split; [reflexivity|]. split; [|split; [intro j; apply gone_reach|eauto 10]].
    apply inv_gone; auto.
    + intros p. unfold upd. destruct (Nat.eqb p (o_ptr o)); [congruence|auto].
    + intros j o2 N2 E2 V2. rewrite upd_ne; [exact (i_base _ _ H _ _ E2 V2)|]. intro P. apply N2. exact (i_uniq _ _ H _ _ _ _ E2 E V2 V P).
  - cbn [bind]. change (mkW _ _ _ _ _ _ _) with (gone w i (w_db w)).
    eexists. split; [reflexivity|]. split; [|split; [intro j; apply gone_reach|eauto 10]].
    apply inv_gone; auto. intros j o2 _ E2 V2. exact (i_base _ _ H _ _ E2 V2).
Qed.

Lemma reclaim_all_ok : forall strong l w, Inv strong w -> (forall i, In i l -> ~ reachable strong w i) ->
  exists w', reclaim_all w l = Ok w' /\ Inv strong w'.
Proof.
  intros strong. induction l as [|i r IH]; intros w H HR; cbn [reclaim_all]; [eauto|].
  destruct (reclaim_ok strong w i H (HR i (or_introl eq_refl))) as (w1 & E & H1 & S1 & _). rewrite E. cbn [bind].
  apply IH; [exact H1|]. intros j J R. exact (HR j (or_intror J) (S1 _ R)).
Qed.

Lemma remove_one_incl : forall i l, incl (remove_one i l) l.
Proof.
  intros i. induction l as [|x r IH]; cbn; [apply incl_refl|]. destruct (Nat.eqb x i); [apply incl_tl, incl_refl|].
  intros y [->|Y]; [left; reflexivity|right; auto].
Qed.

Lemma fresh_ptr : forall strong w i o, Inv strong w -> w_obj w i = Some o -> o_ptr o <> w_ndb w.
Proof. intros strong w i o H E. pose proof (i_ptr _ _ H _ _ E). lia. Qed.

Lemma make_new : forall strong w d m fin, Inv strong w -> let '(p, w1) := add_db w d in Inv strong (snd (add_obj w1 (mkObj p m None) fin)).
Proof.
  intros strong w d m fin H. pose proof (inv_add_db _ w d H) as H1. cbn [add_db snd] in H1 |- *. apply inv_add_obj; cbn; [exact H1|lia| |discriminate].
  intros _. rewrite upd_eq. split; [discriminate|]. intros i o' E. exact (fresh_ptr _ _ _ _ H E).
Qed.

Variables (ok : N -> bool) (ver : N) (grow : N -> N).
(** Every operation that the program may do gives a result and keeps the invariant,
    or ends the process while a text is read. *)
Lemma exec_ok : (forall n, ok n = true) -> forall strong w c, Inv strong w -> allowed strong w c ->
  (exists r w', exec ok ver grow w c = Ok (r, w') /\ Inv strong w') \/
  (exec ok ver grow w c = Abort /\ exists b t m, c = ORestore (SDb (b :: t) m) /\ deserialize_trace_db ok ver (b :: t) = Abort).
Proof.
  intros Hok strong w c H HA.
  assert (L : forall i, In i (w_roots w) -> exists o d, behind w i = Ok (o, d) /\ w_obj w i = Some o /\ w_db w (o_ptr o) = Some d).
  { intros i R. destruct (reach_live _ _ H i (reach_held _ _ _ R)) as (o & d & E & D). exists o, d. unfold behind. rewrite E, D. auto. }
  destruct c as [|i f|i t m|i t m|i|i|s|i|dead]; cbn [allowed] in HA; unfold exec.
  - left. eexists. eexists. split; [reflexivity|]. exact (make_new _ w create_db [] true H).
  - left. destruct (L i HA) as (o & d & _ & E & D). rewrite E. eexists. eexists. split; [reflexivity|].
    apply inv_add_obj; cbn; [exact H|exact (i_ptr _ _ H _ _ E)|discriminate|].
    intros f' p Q. inversion Q; subst. split; [reflexivity|]. split; [apply reach_held; exact HA|eauto].
  - left. destruct (L i HA) as (o & d & E & EO & D). rewrite E. cbn [bind].
    destruct t as [tr|]; [|eauto]. eexists. eexists. split; [reflexivity|].
    apply inv_set_obj; [apply inv_set_db; [exact H|exact (i_ptr _ _ H _ _ EO)]|exact EO].
  - left. destruct (L i HA) as (o & d & E & EO & D). rewrite E. cbn [bind]. eexists. eexists. split; [reflexivity|].
    apply inv_set_obj; [apply inv_set_db; [exact H|exact (i_ptr _ _ H _ _ EO)]|exact EO].
  - left. destruct (L i HA) as (o & d & E & EO & D). rewrite E. cbn [bind]. eauto.
  - left. destruct (L i HA) as (o & d & E & EO & D). rewrite EO. destruct (o_view o); [eauto|]. rewrite E. cbn [bind].
    eexists. eexists. split; [reflexivity|]. apply inv_roots; [exact H|apply incl_refl].
  - destruct s as [[|b t] m|].
    + left. eexists. eexists. split; [reflexivity|]. exact (make_new _ w create_db m true H).
    + destruct (deserialize_total ok ver (b :: t) Hok) as [E|(d & E)]; rewrite E; cbn [bind].
      * right. split; [reflexivity|]. eauto.
      * left. eexists. eexists. split; [reflexivity|]. exact (make_new _ w d m false H).
    + left. eauto.
  - left. eexists. eexists. split; [reflexivity|]. apply inv_roots; [exact H|apply remove_one_incl].
  - left. destruct (reclaim_all_ok strong dead w H HA) as (w' & E & H'). rewrite E. cbn [bind]. eauto.
Qed.

Lemma exec_inv : (forall n, ok n = true) -> forall strong w c r w', Inv strong w -> allowed strong w c -> exec ok ver grow w c = Ok (r, w') -> Inv strong w'.
Proof.
  intros Hok strong w c r w' H HA E. destruct (exec_ok Hok strong w c H HA) as [(r1 & w1 & E1 & H1)|[E1 _]]; rewrite E1 in E; [|discriminate].
  inversion E; subst. exact H1.
Qed.
Lemma run_inv : (forall n, ok n = true) -> forall strong w l w', run strong ok ver grow w l w' -> Inv strong w -> Inv strong w'.
Proof. intros Hok strong w l w' R. induction R as [|w c r w1 l w2 HA E R IH]; [auto|]. intro H. apply IH. eapply exec_inv; eauto. Qed.

Lemma run_safe : (forall n, ok n = true) -> forall strong l w c, run strong ok ver grow empty_world l w -> allowed strong w c ->
  (exists r w', exec ok ver grow w c = Ok (r, w')) \/
  (exec ok ver grow w c = Abort /\ exists b t m, c = ORestore (SDb (b :: t) m) /\ deserialize_trace_db ok ver (b :: t) = Abort).
Proof.
  intros Hok strong l w c R HA. destruct (exec_ok Hok strong w c (run_inv Hok _ _ _ _ R (inv_empty _)) HA) as [(r & w' & E & _)|K]; eauto.
Qed.

Lemma run_seen : (forall n, ok n = true) -> forall strong l w i, run strong ok ver grow empty_world l w -> reachable strong w i -> exists ts m, seen w i ts m.
Proof.
  intros Hok strong l w i R K. destruct (reach_live _ _ (run_inv Hok _ _ _ _ R (inv_empty _)) i K) as (o & d & E & D).
  exists (traces d), (meta_of w i). exists o, d. auto.
Qed.
End P.
