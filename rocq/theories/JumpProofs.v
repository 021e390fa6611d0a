(** Threads that change their course: proofs. *)
From Verif Require Import BaseProofs Types Stream SkipList AMap MemMapSpec Reader Compare FormatSpec ReaderMore ReaderProps.
From Verif Require Import Instr InstrRun InstrSpec InstrText InstrFloat InstrTable InstrConc InstrProofs InstrEnd Signal SignalProofs Jump.

Section Prog.
Variable test : name -> name -> bool.
Variable kf : name -> skind.
Variable sites : list site.
Hypothesis SOK : Forall (site_ok kf) sites.
Hypothesis TA : tells_apart test (all_texts sites).
Variables (names : list name) (types : list tdesc) (code : list (list istmt)).
Hypothesis PROG : instrumented test sites names types code.
Hypothesis FIT : fits names types.
Notation ran := (ran code).

Lemma changes_snoc : forall i l j c, changes_of i (l ++ [(j, c)]) = changes_of i l ++ (if Nat.eqb j i then [c] else []).
Proof. intros. unfold changes_of. rewrite filter_app, map_app. cbn. destruct (Nat.eqb j i); reflexivity. Qed.

(** A thread that is not inside a logging statement: where it stands, and the run
    with another future. *)
Lemma future : forall ths acts lk out d th i r, Forall (Forall (event_ok sites)) ths -> Forall2 (Forall2 ran) ths acts ->
  rsteps (rstart names types (map (@concat action) acts)) (mkR lk out d th) -> nth_error th i = Some r -> lk <> Some i ->
  exists tp tr pre ri, nth_error ths i = Some (tp ++ tr) /\ Forall2 ran tp pre /\ Forall2 ran tr ri /\ r = concat ri /\
    forall es hs, Forall (event_ok sites) es -> Forall2 ran es hs ->
      Forall (Forall (event_ok sites)) (update ths i (tp ++ es)) /\ Forall2 (Forall2 ran) (update ths i (tp ++ es)) (update acts i (pre ++ hs)) /\
      rsteps (rstart names types (map (@concat action) (update acts i (pre ++ hs)))) (mkR lk out d (update th i (concat hs))).
Proof.
  intros ths acts lk out d th i r B C D N NO.
  pose proof (rans_shape test kf sites SOK TA names types code PROG FIT _ _ B C) as SH.
  destruct (inv_steps _ _ _ _ _ D (inv_start acts names types SH)) as (o & I & _).
  assert (X : exists pre ri, nth_error acts i = Some (pre ++ ri) /\ r = concat ri).
  { destruct I as [rem TK HS LK TH OUT D1 D2 | rem k p q pre post TK HS NP EP PP LK TH OUT D1 D2]; cbn in *; subst th.
    - rewrite nth_error_map in N. destruct (nth_error rem i) as [ri|] eqn:NR; [|discriminate]. injection N as <-.
      destruct (taken_suffix _ _ _ _ TK) as (_ & T). destruct (T _ _ NR) as (pre & P). eauto.
    - assert (NE : k <> i) by congruence. rewrite update_other in N by exact NE.
      rewrite nth_error_map in N. destruct (nth_error rem i) as [ri|] eqn:NR; [|discriminate]. injection N as <-.
      destruct (taken_suffix _ _ _ _ TK) as (_ & T). destruct (T _ _ NR) as (pre' & P). eauto. }
  destruct X as (pre & ri & NA & ->).
  unfold rstart in D. destruct (later _ _ _ _ _ D i (concat ri) N) as (dn & A & LT). cbn [r_lock r_out r_disk r_threads] in LT.
  rewrite nth_error_map, NA in A. cbn [option_map] in A. injection A as A. rewrite concat_app in A. apply app_inv_tail in A. subst dn.
  assert (Y : exists tp tr, nth_error ths i = Some (tp ++ tr) /\ Forall2 ran tp pre /\ Forall2 ran tr ri).
  { assert (Z : exists t', nth_error ths i = Some t' /\ Forall2 ran t' (pre ++ ri)).
    { clear -C NA. revert i NA. induction C as [|t a ths acts X C IH]; intros [|i] NA; cbn in *; try discriminate; [injection NA as ->; eauto|eauto]. }
    destruct Z as (t' & Z1 & Z2). apply Forall2_app_inv_r in Z2. destruct Z2 as (tp & tr & P & Q & ->). eauto. }
  destruct Y as (tp & tr & NT & P & Q). exists tp, tr, pre, ri. split; [exact NT|]. split; [exact P|]. split; [exact Q|]. split; [reflexivity|].
  intros es hs OE HR. split; [|split].
  - apply Forall_update; auto. assert (W : Forall (event_ok sites) (tp ++ tr)) by (rewrite Forall_forall in B; apply B; eapply nth_error_In; eauto).
    apply Forall_app in W. destruct W. apply Forall_app. auto.
  - apply Forall2_update; auto. apply Forall2_app; auto.
  - unfold rstart. rewrite map_update, concat_app. apply LT.
Qed.

Lemma course_step : forall ths ths' l i c t t2, courses ths l ths' -> nth_error ths' i = Some t ->
  (forall t0, course t0 (changes_of i l) t -> course t0 (changes_of i l ++ [c]) t2) ->
  courses ths (l ++ [(i, c)]) (update ths' i t2).
Proof.
  intros ths ths' l i c t t2 (L & H) N S. split; [rewrite update_length; exact L|]. intros j t0 E. destruct (H j t0 E) as (t' & X & M). rewrite changes_snoc.
  destruct (Nat.eqb_spec i j) as [<-|NE].
  - rewrite N in X. injection X as <-. exists t2. split; [apply update_same; eapply nth_some; eauto|]. apply S. exact M.
  - exists t'. rewrite update_other, app_nil_r by exact NE. auto.
Qed.

Lemma jumps_lemma : forall ths acts l s, Forall (Forall (event_ok sites)) ths -> Forall2 (Forall2 ran) ths acts ->
  jreach code (between sites) (rstart names types (map (@concat action) acts)) l s ->
  exists ths' acts', courses ths l ths' /\ Forall (Forall (event_ok sites)) ths' /\ Forall2 (Forall2 ran) ths' acts' /\
    rsteps (rstart names types (map (@concat action) acts')) s.
Proof.
  intros ths acts l s O F R. remember (rstart names types (map (@concat action) acts)) as s0 eqn:E0.
  induction R as [|l s s' R IH ST|l s i c s' R IH (PO & PL) ST]; subst.
  - exists ths, acts. split; [|split; [exact O|split; [exact F|apply rs_refl]]]. split; auto. intros i t E. exists t. split; auto. cbn. constructor.
  - destruct IH as (ths' & acts' & A & B & C & D). exists ths', acts'. split; [exact A|split; [exact B|split; [exact C|]]]. eapply rs_step; eauto.
  - destruct IH as (ths' & acts' & A & B & C & D). destruct ST as [es s s' ST|es lk out d th r hs N HR].
    + inversion ST as [lk out d th r hs N HR]; subst s s'. cbn [r_lock] in PL.
      assert (CASE : es = [] \/ lk <> Some i).
      { destruct lk as [k|]; [|right; discriminate]. destruct (Nat.eq_dec k i) as [->|NE]; [left; specialize (PL eq_refl); congruence|right; congruence]. }
      destruct CASE as [->|NO].
      * inversion HR; subst hs. cbn [concat app]. rewrite update_id by exact N.
        assert (Z : exists t, nth_error ths' i = Some t).
        { destruct (later _ _ _ _ _ D i r N) as (dn & Q & _). rewrite nth_error_map in Q. destruct (nth_error acts' i) as [ai|] eqn:EA; [|discriminate Q].
          clear -C EA. revert i EA. induction C as [|t a ths acts X C IH]; intros [|i] NA; cbn in *; try discriminate; eauto. }
        destruct Z as (t & Z). exists ths', acts'. split; [|auto]. rewrite <- (update_id _ ths' i t) by exact Z.
        eapply course_step; [exact A|exact Z|]. intros t0 M. rewrite <- (app_nil_r t). rewrite <- (app_nil_r t) in M. exact (course_call _ _ [] t [] M).
      * destruct (future ths' acts' lk out d th i r B C D N NO) as (tp & tr & pre & ri & NT & P & Q & -> & X).
        assert (OT : Forall (event_ok sites) tr).
        { assert (W : Forall (event_ok sites) (tp ++ tr)) by (rewrite Forall_forall in B; apply B; eapply nth_error_In; eauto). apply Forall_app in W. apply W. }
        destruct (X (es ++ tr) (hs ++ ri)) as (X1 & X2 & X3); [apply Forall_app; auto|apply Forall2_app; auto|].
        exists (update ths' i (tp ++ es ++ tr)), (update acts' i (pre ++ hs ++ ri)). split; [|split; [exact X1|split; [exact X2|rewrite <- concat_app; exact X3]]].
        eapply course_step; [exact A|exact NT|]. intros t0 M. exact (course_call _ _ es tp tr M).
    + cbn [r_lock] in PL. assert (NO : lk <> Some i) by (intros ->; specialize (PL eq_refl); discriminate).
      destruct (future ths' acts' lk out d th i r B C D N NO) as (tp & tr & pre & ri & NT & P & Q & -> & X).
      destruct (X es hs PO HR) as (X1 & X2 & X3).
      exists (update ths' i (tp ++ es)), (update acts' i (pre ++ hs)). split; [|split; [exact X1|split; [exact X2|exact X3]]].
      eapply course_step; [exact A|exact NT|]. intros t0 M. exact (course_leave _ _ es tp tr M).
Qed.

(** ** Leaving a logging statement *)
Definition stuck (i : nat) (out : list byte) (s : rstate) : Prop :=
  r_lock s = Some i /\ r_out s = out /\ Forall waiting (r_threads s).
Lemma stuck_step : forall i out s s', stuck i out s -> rstep s s' -> stuck i out s'.
Proof.
  intros i out s s' (L & OUT & W) ST.
  inversion ST as [out' d' ths' j q N|lk' out' d' ths' j q N|lk' out' d' ths' j bs q N|lk' out' d' ths' j q N|lk' out' d' ths' d2 L1 L2]; subst s s'; cbn [r_threads r_lock r_out r_disk] in *;
    try discriminate; try (pose proof (waiting_at _ _ _ _ W N); discriminate). repeat split; auto.
Qed.
Lemma stuck_change : forall i out s s' j c, stuck i out s -> sound sites c -> changed code j c s s' -> stuck i out s'.
Proof.
  intros i out s s' j c (L & OUT & W) OE ST. destruct ST as [es s s' ST|es lk o d th r hs N HR].
  - inversion ST as [lk o d th r hs N HR]; subst s s'. cbn [r_threads r_lock r_out r_disk] in *.
    pose proof (ran_shape test kf sites SOK TA names types code PROG FIT _ _ OE HR) as SH. repeat split; auto.
    apply Forall_update; auto. inversion SH as [|? ? (ws & ->) _]; subst; cbn [concat app].
    + rewrite Forall_forall in W. apply W. eapply nth_error_In; eauto.
    + right. eexists. reflexivity.
  - cbn [r_threads r_lock r_out r_disk] in *. pose proof (ran_shape test kf sites SOK TA names types code PROG FIT _ _ OE HR) as SH. repeat split; auto.
    apply Forall_update; auto. apply shaped_waiting. exact SH.
Qed.
Lemma stuck_lemma : forall ths acts l s i es s1, Forall (Forall (event_ok sites)) ths -> Forall2 (Forall2 ran) ths acts ->
  jreach code (between sites) (rstart names types (map (@concat action) acts)) l s ->
  r_lock s = Some i -> Forall (event_ok sites) es -> changed code i (Leave es) s s1 ->
  forall l2 s2, jreach code (fun _ _ c => sound sites c) s1 l2 s2 -> stuck i (r_out s) s2.
Proof.
  intros ths acts l s i es s1 O F R LK OE ST. destruct (jumps_lemma _ _ _ _ O F R) as (ths' & acts' & _ & B & C & D).
  pose proof (rans_shape test kf sites SOK TA names types code PROG FIT _ _ B C) as SH. destruct (inv_steps _ _ _ _ _ D (inv_start acts' names types SH)) as (o & I & _).
  inversion ST as [|es' lk out d th r hs N HR]; subst s s1 es'. cbn [r_lock r_out r_threads] in *. subst lk.
  pose proof (ran_shape test kf sites SOK TA names types code PROG FIT _ _ OE HR) as SHH.
  intros l2 s2 R2.
  match type of R2 with jreach _ _ ?s1 _ _ => remember s1 as s1' eqn:E1 end.
  induction R2 as [|l2 s2 s3 R2 IH S3|l2 s2 j c s3 R2 IH OK S3].
  - subst s1'. split; [reflexivity|]. split; [reflexivity|]. cbn.
    destruct I as [rem TK HS LK' TH OUT D1 D2 | rem k p q pre post TK HS NP EP PP LK' TH OUT D1 D2]; cbn in *; [discriminate|]. injection LK' as <-.
    rewrite TH, update_update. apply Forall_update; [|apply shaped_waiting; exact SHH].
    clear -HS. induction HS as [|x rem X HS IH]; cbn; constructor; auto. apply shaped_waiting. exact X.
  - eapply stuck_step; eauto.
  - eapply stuck_change; eauto.
Qed.
End Prog.
