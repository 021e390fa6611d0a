(** Proofs for C74: which databases and texts remain. *)
From Verif Require Import Base BaseProofs Types CApi CApiSpec Archive ArchiveSpec ArchiveProofs ArchiveProofs3 LispObj LispObjSpec LispObjProofs.
From Coq Require Import Lia.
Local Open Scope nat_scope.

Section P.
Context {A : Type}.
Notation world := (world A). Notation op := (op A). Notation result := (result A).
Implicit Types w : world.

(** The databases of restored objects, [R], and those with a finalizer. *)
Record Acc (R : list nat) (w : world) : Prop := {
  a_nodup : NoDup R;
  a_lt : forall p, In p R -> p < w_ndb w;
  a_live : forall p, w_db w p <> None <-> In p R \/ exists i o, w_fin w i = true /\ w_obj w i = Some o /\ o_ptr o = p;
  a_fin : forall i o, w_fin w i = true -> w_obj w i = Some o -> ~ In (o_ptr o) R
}.
Lemma acc_empty : Acc [] empty_world.
Proof.
  split; cbn; try discriminate; [constructor|tauto|]. intro p. split; [congruence|]. intros [[]|(i & o & F & _)]. discriminate.
Qed.

Definition created (R : list nat) (w : world) (c : op) : list nat :=
  match c with ORestore (SDb (_ :: _) _) => w_ndb w :: R | _ => R end.

Lemma acc_ext : forall R w w', Acc R w -> w_ndb w' = w_ndb w -> (forall p, w_db w' p <> None <-> w_db w p <> None) ->
  (forall i, w_fin w' i = w_fin w i) -> (forall i, option_map o_ptr (w_obj w' i) = option_map o_ptr (w_obj w i)) -> Acc R w'.
Proof.
  intros R w w' [H1 H2 H3 H4] EN ED EF EO.
  assert (X : forall i o, w_obj w' i = Some o -> exists o', w_obj w i = Some o' /\ o_ptr o' = o_ptr o).
  { intros i o E. specialize (EO i). rewrite E in EO. destruct (w_obj w i) as [o'|]; inversion EO. eauto. }
  assert (Y : forall i o, w_obj w i = Some o -> exists o', w_obj w' i = Some o' /\ o_ptr o' = o_ptr o).
  { intros i o E. specialize (EO i). rewrite E in EO. destruct (w_obj w' i) as [o'|]; inversion EO. eauto. }
  split; auto.
  - rewrite EN. auto.
  - intro p. rewrite ED, H3. split; intros [K|(i & o & F & E & P)]; auto; right; exists i.
    + destruct (Y _ _ E) as (o' & E' & P'). exists o'. rewrite EF, P'. auto.
    + destruct (X _ _ E) as (o' & E' & P'). exists o'. rewrite <- EF, P'. auto.
  - intros i o F E. rewrite EF in F. destruct (X _ _ E) as (o' & E' & <-). eauto.
Qed.

Lemma acc_make : forall strong R w d m fin, Inv strong w -> Acc R w -> let '(p, w1) := add_db w d in
  Acc (if fin : bool then R else w_ndb w :: R) (snd (add_obj w1 (mkObj p m None) fin)).
Proof.
  intros strong R w d m fin HI [H1 H2 H3 H4]. cbn [add_db]. unfold add_obj. cbn [w_nobj w_obj w_db w_ndb w_roots w_fin w_texts snd].
  assert (FN : forall i, w_fin w i = true -> i <> w_nobj w).
  { intros i F ->. destruct (i_fin _ _ HI _ F) as (o & E & _). pose proof (i_obj _ _ HI _ _ E). lia. }
  assert (PN : forall i o, w_obj w i = Some o -> o_ptr o <> w_ndb w) by (intros i o E; exact (fresh_ptr _ _ _ _ HI E)).
  assert (RN : ~ In (w_ndb w) R) by (intro K; specialize (H2 _ K); lia).
  split; cbn [w_nobj w_obj w_db w_ndb w_roots w_fin w_texts].
  - destruct fin; [exact H1|constructor; auto].
  - intros p K. destruct fin; [specialize (H2 _ K); lia|]. destruct K as [<-|K]; [lia|specialize (H2 _ K); lia].
  - intro p. destruct (Nat.eq_dec p (w_ndb w)) as [->|NE].
    + rewrite upd_eq. split; [intros _|discriminate]. destruct fin; [|left; left; reflexivity].
      right. exists (w_nobj w), (mkObj (w_ndb w) m None). rewrite !upd_eq. auto.
    + rewrite upd_ne by exact NE. rewrite H3. split.
      * intros [K|(i & o & F & E & P)]; [left; destruct fin; [exact K|right; exact K]|].
        right. exists i, o. rewrite !upd_ne by (apply FN; exact F). auto.
      * intros [K|(i & o & F & E & P)].
        -- left. destruct fin; [exact K|]. destruct K as [K|K]; [congruence|exact K].
        -- right. unfold upd in F, E. destruct (Nat.eqb_spec i (w_nobj w)); [inversion E; subst; cbn in NE; congruence|eauto].
  - intros i o F E. unfold upd in F, E. destruct (Nat.eqb_spec i (w_nobj w)).
    + inversion E; subst. cbn. exact RN.
    + destruct fin; [eauto|]. intros [K|K]; [apply (PN _ _ E); congruence|exact (H4 _ _ F E K)].
Qed.

Lemma acc_gone : forall strong R w i, Inv strong w -> Acc R w -> ~ reachable strong w i -> forall w', reclaim w i = Ok w' -> Acc R w'.
Proof.
  intros strong R w i HI HA HR w' E. destruct (reclaim_ok strong w i HI HR) as (w1 & E1 & _ & _ & K). rewrite E in E1. inversion E1; subst w1. clear E1.
  pose proof HA as [H1 H2 H3 H4]. destruct K as [->|[(F & ->)|(o & F & EO & ->)]]; [exact HA| |]; split; cbn; auto.
  - intro p. rewrite H3. split; intros [K|(j & o & FJ & EJ & P)]; auto; right; exists j, o.
    + rewrite !upd_ne by congruence. auto.
    + unfold upd in FJ, EJ. destruct (Nat.eqb j i); [discriminate|auto].
  - intros j o FJ EJ. unfold upd in FJ, EJ. destruct (Nat.eqb j i); [discriminate|eauto].
  - assert (NR : ~ In (o_ptr o) R) by eauto.
    intro p. unfold upd at 1. destruct (Nat.eqb_spec p (o_ptr o)).
    + subst p. split; [congruence|]. intros [K|(j & o' & FJ & EJ & P)]; [contradiction|]. exfalso.
      unfold upd in FJ, EJ. destruct (Nat.eqb_spec j i); [discriminate|].
      destruct (i_fin _ _ HI _ FJ) as (a & EA & VA), (i_fin _ _ HI _ F) as (b & EB & VB).
      rewrite EJ in EA. rewrite EO in EB. inversion EA; inversion EB; subst. exact (n (i_uniq _ _ HI _ _ _ _ EJ EO VA VB P)).
    + rewrite H3. split; intros [K|(j & o' & FJ & EJ & P)]; auto; right; exists j, o'.
      * rewrite !upd_ne by congruence. auto.
      * unfold upd in FJ, EJ. destruct (Nat.eqb j i); [discriminate|auto].
  - intros j o' FJ EJ. unfold upd in FJ, EJ. destruct (Nat.eqb j i); [discriminate|eauto].
Qed.

Lemma acc_reclaim_all : forall strong R l w w', Inv strong w -> Acc R w -> (forall i, In i l -> ~ reachable strong w i) -> reclaim_all w l = Ok w' -> Acc R w'.
Proof.
  intros strong R. induction l as [|i r IH]; intros w w' HI HA HR E; cbn [reclaim_all] in E; [inversion E; subst; exact HA|].
  destruct (reclaim_ok strong w i HI (HR i (or_introl eq_refl))) as (w1 & E1 & I1 & S1 & _). rewrite E1 in E. cbn [bind] in E.
  apply (IH w1 w'); auto.
  - exact (acc_gone strong R w i HI HA (HR i (or_introl eq_refl)) w1 E1).
  - intros j J RJ. exact (HR j (or_intror J) (S1 _ RJ)).
Qed.

Lemma behind_inv : forall w i o d, behind w i = Ok (o, d) -> w_obj w i = Some o /\ w_db w (o_ptr o) = Some d.
Proof.
  intros w i o d. unfold behind. destruct (w_obj w i) as [a|]; [|discriminate]. destruct (w_db w (o_ptr a)) as [b|] eqn:E; [|discriminate].
  intro K. inversion K; subst. auto.
Qed.

Lemma acc_add : forall R w i o d t m v, Acc R w -> w_obj w i = Some o -> w_db w (o_ptr o) = Some d ->
  Acc R (set_obj (set_db w (o_ptr o) (Some t)) i (Some (mkObj (o_ptr o) m v))).
Proof.
  intros R w i o d t m v HA EO ED. apply (acc_ext R w); auto; cbn.
  - intro p. unfold upd. destruct (Nat.eqb_spec p (o_ptr o)); [subst; rewrite ED; split; discriminate|tauto].
  - intro j. unfold upd. destruct (Nat.eqb_spec j i); [subst; rewrite EO; reflexivity|reflexivity].
Qed.

Variables (ok : N -> bool) (ver : N) (grow : N -> N).
Hypothesis Hok : forall n, ok n = true.
Lemma exec_acc : forall strong R w c r w', Inv strong w -> Acc R w -> allowed strong w c -> exec ok ver grow w c = Ok (r, w') ->
  Acc (created R w c) w'.
Proof.
  intros strong R w c r w' HI HA AL E. destruct c as [|i f|i t m|i t m|i|i|s|i|dead]; cbn [allowed created] in *; unfold exec in E.
  - inversion E. exact (acc_make strong R w create_db [] true HI HA).
  - destruct (w_obj w i) as [o|] eqn:EO; [|discriminate]. inversion E. subst. clear E.
    assert (NN : w_obj w (w_nobj w) = None) by (destruct (w_obj w (w_nobj w)) as [x|] eqn:X; [pose proof (i_obj _ _ HI _ _ X); lia|reflexivity]).
    assert (FN : w_fin w (w_nobj w) = false) by (destruct (w_fin w (w_nobj w)) eqn:X; [destruct (i_fin _ _ HI _ X) as (y & Y & _); congruence|reflexivity]).
    destruct HA as [H1 H2 H3 H4]. split; cbn; auto.
    + intro p. rewrite H3. split; intros [K|(j & o' & FJ & EJ & P)]; auto; right; exists j, o'.
      * rewrite !upd_ne by congruence. auto.
      * unfold upd in FJ, EJ. destruct (Nat.eqb j (w_nobj w)); [discriminate|auto].
    + intros j o' FJ EJ. unfold upd in FJ, EJ. destruct (Nat.eqb j (w_nobj w)); [discriminate|eauto].
  - destruct (behind w i) as [[o d]| | | |] eqn:B; try discriminate. cbn [bind] in E. destruct (behind_inv _ _ _ _ B) as [EO ED].
    destruct t as [tr|]; inversion E; subst; [|exact HA]. eapply acc_add; eauto.
  - destruct (behind w i) as [[o d]| | | |] eqn:B; try discriminate. cbn [bind] in E. destruct (behind_inv _ _ _ _ B) as [EO ED].
    inversion E; subst. eapply acc_add; eauto.
  - destruct (behind w i) as [[o d]| | | |] eqn:B; try discriminate. cbn [bind] in E. inversion E; subst. exact HA.
  - destruct (w_obj w i) as [o|] eqn:EO; [|discriminate]. destruct (o_view o); [inversion E; subst; exact HA|].
    destruct (behind w i) as [[o1 d]| | | |] eqn:B; try discriminate. cbn [bind] in E. inversion E; subst.
    apply (acc_ext R w); auto; cbn; tauto.
  - destruct s as [[|b t] m|].
    + inversion E. exact (acc_make strong R w create_db m true HI HA).
    + destruct (deserialize_trace_db ok ver (b :: t)) as [d| | | |]; try discriminate. cbn [bind] in E. inversion E.
      exact (acc_make strong R w d m false HI HA).
    + inversion E; subst. exact HA.
  - inversion E; subst. apply (acc_ext R w); auto; cbn; tauto.
  - destruct (reclaim_all w dead) as [w1| | | |] eqn:ER; try discriminate. inversion E; subst. eapply acc_reclaim_all; eauto.
Qed.

Lemma restores_cons : forall (c : op) (r : result) l, restores ((c, r) :: l) = match c with ORestore (SDb (_ :: _) _) => 1 | _ => 0 end + restores l.
Proof. intros c r l. unfold restores. cbn [filter]. destruct c as [| | | | | |[[|]|]| |]; reflexivity. Qed.

Lemma run_acc : forall strong w l w', run strong ok ver grow w l w' -> Inv strong w -> forall R, Acc R w ->
  exists R', Acc R' w' /\ length R' = length R + restores l.
Proof.
  intros strong w l w' RN. induction RN as [w|w c r w1 l w2 AL E RN IH]; intros HI R HA.
  - exists R. split; [exact HA|]. cbn. lia.
  - destruct (IH (exec_inv ok ver grow Hok _ _ _ _ _ HI AL E) _ (exec_acc _ _ _ _ _ _ HI HA AL E)) as (R' & A' & L').
    exists R'. split; [exact A'|]. rewrite L', restores_cons. destruct c as [| | | | | |[[|]|]| |]; cbn [created length]; lia.
Qed.

Lemma live_in : forall strong w p, Inv strong w -> In p (live w) <-> w_db w p <> None.
Proof.
  intros strong w p HI. unfold live. rewrite filter_In, in_seq. split.
  - intros [_ K]. destruct (w_db w p); congruence.
  - intro K. pose proof (i_db _ _ HI _ K). destruct (w_db w p); [|congruence]. split; [lia|reflexivity].
Qed.
Lemma live_nodup : forall w, NoDup (live w).
Proof. intro w. apply NoDup_filter, seq_NoDup. Qed.

Lemma restored_kept : forall strong l w, run strong ok ver grow empty_world l w -> restores l <= length (live w).
Proof.
  intros strong l w RN. destruct (run_acc _ _ _ _ RN (inv_empty _) [] acc_empty) as (R & [H1 H2 H3 H4] & L). cbn in L. rewrite <- L.
  apply NoDup_incl_length; [exact H1|]. intros p K. apply (live_in strong); [exact (run_inv ok ver grow Hok _ _ _ _ RN (inv_empty _))|]. apply H3. auto.
Qed.

(** Everything unreachable is reclaimed. *)
Lemma reclaim_all_gone : forall l w w', reclaim_all w l = Ok w' ->
  (forall i, w_obj w i = None -> w_obj w' i = None) /\ (forall i, In i l -> w_obj w' i = None).
Proof.
  induction l as [|i r IH]; intros w w' E; cbn [reclaim_all] in E; [inversion E; subst; split; [auto|intros i []]|].
  destruct (reclaim w i) as [w1| | | |] eqn:E1; try discriminate. cbn [bind] in E. destruct (IH _ _ E) as [P Q].
  assert (K : w_obj w1 i = None /\ forall j, w_obj w j = None -> w_obj w1 j = None).
  { unfold reclaim in E1. destruct (w_obj w i) as [o|] eqn:EO; [|inversion E1; subst; auto].
    destruct (w_fin w i); [destruct (w_db w (o_ptr o)); [|discriminate]|]; cbn [bind] in E1; inversion E1; subst; cbn; rewrite upd_eq; (split; [reflexivity|]);
    intros j J; unfold upd; destruct (Nat.eqb j i); auto. }
  destruct K as [K1 K2]. split; [auto|]. intros j [<-|J]; auto.
Qed.

Lemma reach_nothing : forall w i, w_roots w = [] -> ~ reachable false w i.
Proof. intros w i E R. induction R as [i H|i S|]; [rewrite E in H; exact H|discriminate|assumption]. Qed.

Lemma weak_released : forall l w, run false ok ver grow empty_world l w -> w_roots w = [] ->
  exists dead w', allowed false w (OCollect dead) /\ exec ok ver grow w (OCollect dead) = Ok (RUnit, w') /\ length (live w') = restores l.
Proof.
  intros l w RN E. pose proof (run_inv ok ver grow Hok _ _ _ _ RN (inv_empty _)) as HI.
  destruct (run_acc _ _ _ _ RN (inv_empty _) [] acc_empty) as (R & HA & L). cbn in L.
  set (dead := seq 0 (w_nobj w)).
  assert (AL : forall i, In i dead -> ~ reachable false w i) by (intros i _; apply reach_nothing; exact E).
  destruct (reclaim_all_ok false dead w HI AL) as (w' & EW & HI'). exists dead, w'. split; [exact AL|].
  unfold exec. rewrite EW. cbn [bind]. split; [reflexivity|]. rewrite <- L.
  pose proof (acc_reclaim_all _ _ _ _ _ HI HA AL EW) as [H1 H2 H3 H4]. destruct (reclaim_all_gone _ _ _ EW) as [G1 G2].
  assert (GO : forall i, w_obj w' i = None).
  { intro i. destruct (w_obj w i) as [o|] eqn:EO; [|auto]. apply G2. apply in_seq. pose proof (i_obj _ _ HI _ _ EO). lia. }
  assert (LI : forall p, In p (live w') <-> In p R).
  { intro p. rewrite (live_in false _ _ HI'), H3. split; [|auto]. intros [K|(i & o & _ & K & _)]; [exact K|]. rewrite GO in K. discriminate. }
  apply Nat.le_antisymm; apply NoDup_incl_length; [apply live_nodup|intros p K; apply LI; exact K|exact H1|intros p K; apply LI; exact K].
Qed.

(** With finalizers that keep their objects nothing is ever released. *)
Lemma strong_reclaim_all : forall l w w', Inv true w -> (forall i, In i l -> ~ reachable true w i) -> reclaim_all w l = Ok w' ->
  w_db w' = w_db w /\ w_ndb w' = w_ndb w /\ w_texts w' = w_texts w.
Proof.
  induction l as [|i r IH]; intros w w' HI AL E; cbn [reclaim_all] in E; [inversion E; subst; auto|].
  destruct (reclaim_ok true w i HI (AL i (or_introl eq_refl))) as (w1 & E1 & I1 & S1 & K). rewrite E1 in E. cbn [bind] in E.
  destruct (IH w1 w' I1) as (P & Q & T); [intros j J RJ; exact (AL j (or_intror J) (S1 _ RJ))|exact E|]. rewrite P, Q, T.
  destruct K as [->|[(_ & ->)|(o & F & _)]]; [auto|cbn; auto|]. exfalso. apply (AL i (or_introl eq_refl)). apply reach_finalizer; auto.
Qed.
Lemma reclaim_all_counts : forall l w w', reclaim_all w l = Ok w' -> w_ndb w' = w_ndb w /\ w_texts w' = w_texts w.
Proof.
  induction l as [|i r IH]; intros w w' E; cbn [reclaim_all] in E; [inversion E; subst; auto|].
  destruct (reclaim w i) as [w1| | | |] eqn:E1; try discriminate. cbn [bind] in E. destruct (IH _ _ E) as [-> ->].
  unfold reclaim in E1. destruct (w_obj w i) as [o|]; [|inversion E1; auto]. destruct (w_fin w i); [destruct (w_db w (o_ptr o)); [|discriminate]|]; cbn [bind] in E1; inversion E1; auto.
Qed.

Lemma exec_counts : forall w c r w', exec ok ver grow w c = Ok (r, w') ->
  w_ndb w' = w_ndb w + makes [(c, r)] /\ w_texts w' = w_texts w + texts [(c, r)].
Proof.
  intros w c r w' E. unfold makes, texts. destruct c as [|i f|i t m|i t m|i|i|s|i|dead]; unfold exec in E.
  - inversion E. cbn. lia.
  - destruct (w_obj w i); inversion E. cbn. lia.
  - destruct (behind w i) as [[o d]| | | |]; try discriminate. cbn [bind] in E. destruct t; inversion E; cbn; lia.
  - destruct (behind w i) as [[o d]| | | |]; try discriminate. cbn [bind] in E. inversion E; cbn; lia.
  - destruct (behind w i) as [[o d]| | | |]; try discriminate. cbn [bind] in E. inversion E; cbn; lia.
  - destruct (w_obj w i) as [o|]; [|discriminate]. destruct (o_view o); [inversion E; subst; cbn; lia|].
    destruct (behind w i) as [[o1 d]| | | |]; try discriminate. cbn [bind] in E. inversion E; cbn; lia.
  - destruct s as [[|b t] m|].
    + inversion E. cbn. lia.
    + destruct (deserialize_trace_db ok ver (b :: t)); try discriminate. cbn [bind] in E. inversion E. cbn. lia.
    + inversion E; subst. cbn. lia.
  - inversion E. cbn. lia.
  - destruct (reclaim_all w dead) as [w1| | | |] eqn:ER; try discriminate. inversion E; subst. destruct (reclaim_all_counts _ _ _ ER) as [-> ->]. cbn. lia.
Qed.
Lemma makes_cons : forall (x : op * result) l, makes (x :: l) = makes [x] + makes l.
Proof. intros x l. unfold makes. change (x :: l) with ([x] ++ l). rewrite filter_app, app_length. reflexivity. Qed.
Lemma texts_cons : forall (x : op * result) l, texts (x :: l) = texts [x] + texts l.
Proof. intros x l. unfold texts. change (x :: l) with ([x] ++ l). rewrite filter_app, app_length. reflexivity. Qed.
Lemma run_counts : forall strong w l w', run strong ok ver grow w l w' -> w_ndb w' = w_ndb w + makes l /\ w_texts w' = w_texts w + texts l.
Proof.
  intros strong w l w' RN. induction RN as [w|w c r w1 l w2 AL E RN [IH1 IH2]]; [cbn; lia|].
  destruct (exec_counts _ _ _ _ E) as [Q1 Q2]. rewrite makes_cons, texts_cons. lia.
Qed.

Lemma strong_exec : forall w c r w', Inv true w -> allowed true w c -> exec ok ver grow w c = Ok (r, w') ->
  (forall p, p < w_ndb w -> w_db w p <> None) -> forall p, p < w_ndb w' -> w_db w' p <> None.
Proof.
  intros w c r w' HI AL E HD. destruct c as [|i f|i t m|i t m|i|i|s|i|dead]; unfold exec in E.
  - inversion E. cbn. intros p L. unfold upd. destruct (Nat.eqb_spec p (w_ndb w)); [discriminate|apply HD; lia].
  - destruct (w_obj w i); inversion E. exact HD.
  - destruct (behind w i) as [[o d]| | | |]; try discriminate. cbn [bind] in E. destruct t; inversion E; subst; [|exact HD].
    cbn. intros p L. unfold upd. destruct (Nat.eqb p (o_ptr o)); [discriminate|auto].
  - destruct (behind w i) as [[o d]| | | |]; try discriminate. cbn [bind] in E. inversion E; subst.
    cbn. intros p L. unfold upd. destruct (Nat.eqb p (o_ptr o)); [discriminate|auto].
  - destruct (behind w i) as [[o d]| | | |]; try discriminate. cbn [bind] in E. inversion E; subst. exact HD.
  - destruct (w_obj w i) as [o|]; [|discriminate]. destruct (o_view o); [inversion E; subst; exact HD|].
    destruct (behind w i) as [[o1 d]| | | |]; try discriminate. cbn [bind] in E. inversion E; subst. exact HD.
  - destruct s as [[|b t] m|].
    + inversion E. cbn. intros p L. unfold upd. destruct (Nat.eqb_spec p (w_ndb w)); [discriminate|apply HD; lia].
    + destruct (deserialize_trace_db ok ver (b :: t)); try discriminate. cbn [bind] in E. inversion E.
      cbn. intros p L. unfold upd. destruct (Nat.eqb_spec p (w_ndb w)); [discriminate|apply HD; lia].
    + inversion E; subst. exact HD.
  - inversion E. exact HD.
  - destruct (reclaim_all w dead) as [w1| | | |] eqn:ER; try discriminate. inversion E; subst. destruct (strong_reclaim_all _ _ _ HI AL ER) as (-> & -> & _). exact HD.
Qed.

Lemma strong_kept : forall l w, run true ok ver grow empty_world l w -> length (live w) = makes l.
Proof.
  intros l w RN.
  assert (K : forall p, p < w_ndb w -> w_db w p <> None).
  { assert (G : forall (u : world) l v, run true ok ver grow u l v -> Inv true u -> (forall p, p < w_ndb u -> w_db u p <> None) -> forall p, p < w_ndb v -> w_db v p <> None).
    { intros u k v R. induction R as [u|u c r u1 k u2 AL E R IH]; [auto|]. intros HI HD. apply IH; [eapply exec_inv; eauto|]. eapply strong_exec; eauto. }
    apply (G _ _ _ RN (inv_empty _)). cbn. lia. }
  destruct (run_counts _ _ _ _ RN) as [Q _]. cbn in Q. rewrite <- Q. unfold live. clear - K.
  assert (G : forall n s, (forall p, p < s + n -> w_db w p <> None) -> length (filter (fun p => match w_db w p with Some _ => true | None => false end) (seq s n)) = n).
  { induction n as [|n IH]; intros s H; [reflexivity|]. cbn [seq filter]. specialize (IH (S s)). destruct (w_db w s) eqn:E; [|exfalso; apply (H s); [lia|exact E]].
    cbn [length]. rewrite IH; [reflexivity|]. intros p L. apply H. lia. }
  apply G. exact K.
Qed.
Lemma texts_kept : forall strong l w, run strong ok ver grow empty_world l w -> w_texts w = texts l.
Proof. intros strong l w RN. destruct (run_counts _ _ _ _ RN) as [_ Q]. exact Q. Qed.

(** Repeated making and dropping. *)
Fixpoint rounds (k n : nat) : list (op * result) :=
  match n with
  | O => []
  | S n => (OMake, RObj k) :: (ODrop k, RUnit) :: rounds (S k) n
  end.
Lemma rounds_run : forall n w, w_roots w = [] -> exists w', run true ok ver grow w (rounds (w_nobj w) n) w' /\ w_roots w' = [].
Proof.
  induction n as [|n IH]; intros w E; cbn [rounds]; [exists w; split; [constructor|exact E]|].
  destruct (make w None []) as [r1 w1] eqn:M.
  assert (K : r1 = RObj (w_nobj w) /\ w_roots w1 = [w_nobj w] /\ w_nobj w1 = S (w_nobj w)) by (inversion M; cbn; rewrite E; auto).
  destruct K as (-> & K2 & K3).
  set (w2 := mkW (w_obj w1) (w_nobj w1) (w_db w1) (w_ndb w1) [] (w_fin w1) (w_texts w1)).
  destruct (IH w2 eq_refl) as (w' & R' & E'). exists w'. split; [|exact E'].
  eapply run_cons; [exact Logic.I|unfold exec; rewrite M; reflexivity|].
  eapply run_cons with (w1 := w2); [cbn [allowed]; rewrite K2; left; reflexivity|unfold exec, w2; rewrite K2; cbn [remove_one]; rewrite Nat.eqb_refl; reflexivity|].
  rewrite <- K3. exact R'.
Qed.
Lemma makes_rounds : forall n k, makes (rounds k n) = n.
Proof. induction n as [|n IH]; intro k; [reflexivity|]. cbn [rounds]. rewrite (makes_cons _ (_ :: _)), (makes_cons _ (rounds _ _)), IH. reflexivity. Qed.

Lemma run_app : forall strong w l w1, run strong ok ver grow w l w1 -> forall l' w2, run strong ok ver grow w1 l' w2 -> run strong ok ver grow w (l ++ l') w2.
Proof. intros strong w l w1 R. induction R; intros l' w3 R'; cbn [app]; [exact R'|]. econstructor; eauto. Qed.
Lemma collects_makes : forall l : list (op * result), Forall (fun x => exists d, fst x = OCollect d) l -> makes l = 0.
Proof.
  induction l as [|x l IH]; intro F; [reflexivity|]. rewrite makes_cons, (IH (Forall_inv_tail F)).
  pose proof (Forall_inv F) as (d & E). destruct x as [c r]. cbn in E. subst c. reflexivity.
Qed.
Lemma leak : forall n, exists l w, run true ok ver grow empty_world l w /\ w_roots w = [] /\
  forall l' w', Forall (fun x => exists d, fst x = OCollect d) l' -> run true ok ver grow w l' w' -> length (live w') = n.
Proof.
  intro n. destruct (rounds_run n empty_world eq_refl) as (w & R & E). exists (rounds 0 n), w. split; [exact R|]. split; [exact E|].
  intros l' w' F R'. rewrite (strong_kept _ _ (run_app _ _ _ _ R _ _ R')).
  assert (M : forall a b : list (op * result), makes (a ++ b) = makes a + makes b) by (intros a b; unfold makes; rewrite filter_app, app_length; reflexivity).
  rewrite M, (collects_makes _ F). change (w_nobj empty_world) with 0. rewrite makes_rounds. lia.
Qed.
End P.
