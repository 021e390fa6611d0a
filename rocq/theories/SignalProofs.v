(** Signal handlers: proofs. *)
From Verif Require Import BaseProofs Types Stream SkipList AMap MemMapSpec Reader Compare FormatSpec ReaderMore ReaderProps.
From Verif Require Import Instr InstrRun InstrSpec InstrText InstrFloat InstrTable InstrConc InstrProofs InstrEnd Signal.

(** ** Lists *)
Lemma update_app_first : forall A (ll m : list A) i y, (i < length ll)%nat -> update (ll ++ m) i y = update ll i y ++ m.
Proof. induction ll; intros m [|i] y H; cbn in *; try lia; auto. f_equal. apply IHll. lia. Qed.
Lemma merge_nils : forall A (ll : list (list A)) l, merge ll l -> merge (ll ++ [[]]) l.
Proof.
  intros A ll l M. induction M as [ll H|ll i x r l H M IH].
  - constructor. apply Forall_app. split; auto.
  - eapply (mg_cons _ i x r); [rewrite nth_error_app1; [exact H|eapply nth_some; eauto]|].
    rewrite update_app_first by (eapply nth_some; eauto). exact IH.
Qed.
Lemma update_app_last : forall A (ll : list A) x y, update (ll ++ [x]) (length ll) y = ll ++ [y].
Proof. induction ll; cbn; intros; auto. f_equal. auto. Qed.
Lemma merge_insert : forall A (ll : list (list A)) h a b, merge ll (a ++ b) -> merge (ll ++ [h]) (a ++ h ++ b).
Proof.
  intros A ll h a. revert ll. induction a as [|x a IH]; intros ll b M.
  - cbn [app] in *. induction h as [|y h IHh]; [apply merge_nils; exact M|]. cbn.
    eapply (mg_cons _ (length ll) y h); [rewrite nth_error_app2, Nat.sub_diag by lia; reflexivity|]. rewrite update_app_last. exact IHh.
  - cbn in M. inversion M as [|? i ? r ? E M']; subst. cbn. pose proof (nth_some _ _ _ _ E) as L.
    eapply (mg_cons _ i x r); [rewrite nth_error_app1 by exact L; exact E|]. rewrite update_app_first by exact L. apply IH. exact M'.
Qed.
Lemma merge_one : forall A (l : list A), merge [l] l.
Proof. induction l as [|x l IH]; [constructor; repeat constructor|]. eapply (mg_cons _ O x l); [reflexivity|exact IH]. Qed.
Lemma taken_suffix : forall A (ll : list (list A)) o rem, taken ll o rem -> length rem = length ll /\
  forall i r, nth_error rem i = Some r -> exists pre, nth_error ll i = Some (pre ++ r).
Proof.
  intros A ll o rem T. induction T as [ll|ll o rem i x r T (L & IH) E].
  - split; auto. intros i r E. exists []. exact E.
  - rewrite update_length. split; auto. intros j q Q. destruct (Nat.eq_dec i j) as [<-|NE].
    + rewrite update_same in Q by (eapply nth_some; eauto). injection Q as <-. destruct (IH _ _ E) as (pre & P). exists (pre ++ [x]). rewrite <- app_assoc. exact P.
    + rewrite update_other in Q by exact NE. auto.
Qed.
Lemma update_comm : forall A (l : list A) i j x y, i <> j -> update (update l i x) j y = update (update l j y) i x.
Proof. induction l as [|a l IH]; intros [|i] [|j] x y N; cbn; auto; try congruence. f_equal. apply IH. congruence. Qed.

(** ** What a thread will do later does not matter for what it has done *)
Lemma later : forall lk out d ths s, rsteps (mkR lk out d ths) s -> forall i r, nth_error (r_threads s) i = Some r ->
  exists dn, nth_error ths i = Some (dn ++ r) /\
    forall r2, rsteps (mkR lk out d (update ths i (dn ++ r2))) (mkR (r_lock s) (r_out s) (r_disk s) (update (r_threads s) i r2)).
Proof.
  intros lk out d ths s R. remember (mkR lk out d ths) as s0 eqn:E0. induction R as [s0|s0 s s' R IH ST]; intros i r E.
  - subst s0. cbn in *. exists []. split; [exact E|]. intros. apply rs_refl.
  - specialize (IH E0). inversion ST as [out' d' ths' j q N|lk' out' d' ths' j q N|lk' out' d' ths' j bs q N|lk' out' d' ths' j q N|lk' out' d' ths' d2 L1 L2]; subst s s'; cbn [r_threads r_lock r_out r_disk] in *.
    5:{ destruct (IH _ _ E) as (dn & A & B). exists dn. split; [exact A|]. intros r2. eapply rs_step; [apply B|]. apply st_spill; auto. }
    all: pose proof (nth_some _ _ _ _ N) as L; destruct (Nat.eq_dec j i) as [->|NE].
    all: try (rewrite update_same in E by exact L; injection E as ->).
    all: try (rewrite update_other in E by exact NE).
    all: try (destruct (IH _ _ N) as (dn & A & B)).
    all: try (destruct (IH _ _ E) as (dn' & A' & B')).
    all: try (exists dn'; split; [exact A'|]; intros r2; eapply rs_step; [apply B'|];
              rewrite (update_comm _ _ j i) by exact NE; (eapply st_lock || eapply st_unlock || eapply st_write || eapply st_flush);
              rewrite update_other by congruence; exact N).
    all: match type of N with nth_error _ _ = Some (?a :: _) =>
           exists (dn ++ [a]); split; [rewrite <- app_assoc; exact A|]; intros r2; rewrite <- app_assoc; cbn [app];
           eapply rs_step; [apply (B (a :: r2))|]; rewrite update_update;
           rewrite <- (update_update _ ths' i (a :: r2) r2);
           (eapply st_lock || eapply st_unlock || eapply st_write || eapply st_flush); apply update_same; exact L end.
Qed.

Section Prog.
Variable test : name -> name -> bool.
Variable kf : name -> skind.
Variable sites : list site.
Hypothesis SOK : Forall (site_ok kf) sites.
Hypothesis TA : tells_apart test (all_texts sites).
Variables (names : list name) (types : list tdesc) (code : list (list istmt)).
Hypothesis PROG : instrumented test sites names types code.
Hypothesis FIT : fits names types.

Definition ran (e : event) (a : list action) : Prop := event_run code e = Ok a.

Lemma ran_shape : forall es acts, Forall (event_ok sites) es -> Forall2 ran es acts -> Forall point_shape acts.
Proof.
  intros es acts O F. induction F as [|e a es acts E F IH]; [constructor|]. inversion O as [|? ? OE O']; subst. constructor; auto.
  destruct (event_good test kf sites SOK TA names types code PROG FIT e OE) as (a' & x & G1 & G2 & _). unfold ran in E. rewrite E in G1. injection G1 as ->. exact G2.
Qed.
Lemma rans_shape : forall ths acts, Forall (Forall (event_ok sites)) ths -> Forall2 (Forall2 ran) ths acts -> Forall (Forall point_shape) acts.
Proof. intros ths acts O F. induction F as [|t a ths acts E F IH]; [constructor|]. inversion O; subst. constructor; auto. eapply ran_shape; eauto. Qed.

Lemma handled_snoc : forall i l j es, handled i (l ++ [(j, es)]) = handled i l ++ (if Nat.eqb j i then [es] else []).
Proof. intros. unfold handled. rewrite filter_app, map_app. cbn. destruct (Nat.eqb j i); reflexivity. Qed.

Lemma Forall2_update : forall A B (R : A -> B -> Prop) l m i x y, Forall2 R l m -> R x y -> Forall2 R (update l i x) (update m i y).
Proof. intros A B R l m i x y F H. revert i. induction F; intros [|i]; cbn; constructor; auto. Qed.

Lemma signals_lemma : forall ths acts l s, Forall (Forall (event_ok sites)) ths -> Forall2 (Forall2 ran) ths acts ->
  sreach code (polite sites) (rstart names types (map (@concat action) acts)) l s ->
  exists ths' acts', extends ths l ths' /\ Forall (Forall (event_ok sites)) ths' /\ Forall2 (Forall2 ran) ths' acts' /\
    rsteps (rstart names types (map (@concat action) acts')) s.
Proof.
  intros ths acts l s O F R. remember (rstart names types (map (@concat action) acts)) as s0 eqn:E0.
  induction R as [|l s s' R IH ST|l s i es s' R IH (PO & PL) ST]; subst.
  - exists ths, acts. split; [|split; [exact O|split; [exact F|apply rs_refl]]]. split; auto. intros i t E. exists t. split; auto. cbn. apply merge_one.
  - destruct IH as (ths' & acts' & A & B & C & D). exists ths', acts'. split; [exact A|split; [exact B|split; [exact C|]]]. eapply rs_step; eauto.
  - destruct IH as (ths' & acts' & (A1 & A2) & B & C & D).
    inversion ST as [lk out d th r hs N HR]; subst s s'.
    assert (CASE : es = [] \/ lk <> Some i).
    { cbn in PL. destruct lk as [k|]; [|right; discriminate]. destruct (Nat.eq_dec k i) as [->|NE]; [left; auto|right; congruence]. }
    destruct CASE as [->|NO].
    + inversion HR; subst hs. cbn [concat app]. rewrite update_id by exact N. exists ths', acts'. split; [|auto]. split; auto.
      intros j t E. destruct (A2 j t E) as (t' & X & M). exists t'. split; auto. rewrite handled_snoc. destruct (Nat.eqb i j); [|rewrite app_nil_r; exact M].
      rewrite app_comm_cons. apply merge_nils. exact M.
    + pose proof (rans_shape _ _ B C) as SH.
      destruct (inv_steps _ _ _ _ _ D (inv_start acts' names types SH)) as (o & I & _).
      assert (X : exists pre ri, nth_error acts' i = Some (pre ++ ri) /\ r = concat ri).
      { destruct I as [rem TK HS LK TH OUT D1 D2 | rem k p q pre post TK HS NP EP PP LK TH OUT D1 D2]; cbn in *; subst th.
        - rewrite nth_error_map in N. destruct (nth_error rem i) as [ri|] eqn:NR; [|discriminate]. injection N as <-.
          destruct (taken_suffix _ _ _ _ TK) as (_ & T). destruct (T _ _ NR) as (pre & P). eauto.
        - assert (NE : k <> i) by congruence. rewrite update_other in N by exact NE.
          rewrite nth_error_map in N. destruct (nth_error rem i) as [ri|] eqn:NR; [|discriminate]. injection N as <-.
          destruct (taken_suffix _ _ _ _ TK) as (_ & T). destruct (T _ _ NR) as (pre' & P). eauto. }
      destruct X as (pre & ri & NA & ->).
      unfold rstart in D. destruct (later _ _ _ _ _ D i (concat ri) N) as (dn & A & LT). cbn [r_lock r_out r_disk r_threads] in LT.
      rewrite nth_error_map, NA in A. cbn [option_map] in A. injection A as A. rewrite concat_app in A. apply app_inv_tail in A. subst dn.
      assert (Y : exists tp tr, nth_error ths' i = Some (tp ++ tr) /\ Forall2 ran tp pre /\ Forall2 ran tr ri).
      { assert (Z : exists t', nth_error ths' i = Some t' /\ Forall2 ran t' (pre ++ ri)).
        { clear -C NA. revert i NA. induction C as [|t a ths' acts' X C IH]; intros [|i] NA; cbn in *; try discriminate; [injection NA as ->; eauto|eauto]. }
        destruct Z as (t' & Z1 & Z2). apply Forall2_app_inv_r in Z2. destruct Z2 as (tp & tr & P & Q & ->). eauto. }
      destruct Y as (tp & tr & NT & P & Q).
      exists (update ths' i (tp ++ es ++ tr)), (update acts' i (pre ++ hs ++ ri)). split; [|split; [|split]].
      * split; [rewrite update_length; exact A1|]. intros j t E. destruct (A2 j t E) as (t' & X & M). rewrite handled_snoc.
        destruct (Nat.eqb_spec i j) as [<-|NE].
        -- rewrite NT in X. injection X as <-. eexists. split; [apply update_same; eapply nth_some; eauto|]. rewrite app_comm_cons. apply merge_insert. exact M.
        -- exists t'. rewrite update_other, app_nil_r by exact NE. auto.
      * apply Forall_update; auto. assert (W : Forall (event_ok sites) (tp ++ tr)) by (rewrite Forall_forall in B; apply B; eapply nth_error_In; eauto).
        apply Forall_app in W. destruct W. apply Forall_app. split; auto. apply Forall_app. auto.
      * apply Forall2_update; auto. apply Forall2_app; auto. apply Forall2_app; auto.
      * unfold rstart. rewrite map_update, !concat_app. apply LT.
Qed.

(** ** A handler that logs inside a logging statement of its own thread *)
Definition waiting (r : list action) : Prop := r = [] \/ exists q, r = ALock :: q.
Lemma shaped_waiting : forall ps, Forall point_shape ps -> waiting (concat ps).
Proof. intros ps F. inversion F as [|? ? (ws & ->) _]; [left; reflexivity|right; eexists; reflexivity]. Qed.
(** Nothing moves any more. *)
Definition frozen (i : nat) (out : list byte) (x : list action) (s : rstate) : Prop :=
  r_lock s = Some i /\ r_out s = out /\ Forall waiting (r_threads s) /\ exists y, nth_error (r_threads s) i = Some (y ++ x) /\ y ++ x <> [].

Lemma waiting_at : forall ths j a q, Forall waiting ths -> nth_error ths j = Some (a :: q) -> a = ALock.
Proof. intros ths j a q F E. apply nth_error_In in E. rewrite Forall_forall in F. destruct (F _ E) as [X|(z & X)]; [discriminate|]. congruence. Qed.
Lemma frozen_step : forall i out x s s', frozen i out x s -> rstep s s' -> frozen i out x s'.
Proof.
  intros i out x s s' (L & OUT & W & y & Y & NE) ST.
  inversion ST as [out' d' ths' j q N|lk' out' d' ths' j q N|lk' out' d' ths' j bs q N|lk' out' d' ths' j q N|lk' out' d' ths' d2 L1 L2]; subst s s'; cbn [r_threads r_lock r_out r_disk] in *;
    try discriminate; try (pose proof (waiting_at _ _ _ _ W N); discriminate). repeat split; auto. eauto.
Qed.
Lemma frozen_signal : forall i out x s s' j es, frozen i out x s -> Forall (event_ok sites) es -> interrupt code j es s s' -> frozen i out x s'.
Proof.
  intros i out x s s' j es (L & OUT & W & y & Y & NE) OE ST. inversion ST as [lk o d th r hs N HR]; subst s s'. cbn [r_threads r_lock r_out r_disk] in *.
  pose proof (ran_shape _ _ OE HR) as SH. repeat split; auto.
  - apply Forall_update; auto. inversion SH as [|? ? (ws & ->) _]; subst; cbn [concat app].
    + rewrite Forall_forall in W. apply W. eapply nth_error_In; eauto.
    + right. eexists. reflexivity.
  - cbn. destruct (Nat.eq_dec j i) as [->|NJ].
    + rewrite update_same by (eapply nth_some; eauto). rewrite Y in N. injection N as <-. exists (concat hs ++ y). rewrite <- app_assoc. split; auto.
      destruct (concat hs); [exact NE|discriminate].
    + rewrite update_other by exact NJ. eauto.
Qed.

Lemma freeze_lemma : forall ths acts l s i es s1, Forall (Forall (event_ok sites)) ths -> Forall2 (Forall2 ran) ths acts ->
  sreach code (polite sites) (rstart names types (map (@concat action) acts)) l s ->
  r_lock s = Some i -> es <> [] -> Forall (event_ok sites) es -> interrupt code i es s s1 ->
  forall l2 s2, sreach code (fun _ _ es => Forall (event_ok sites) es) s1 l2 s2 ->
  exists rest, nth_error (r_threads s1) i = Some rest /\ frozen i (r_out s1) rest s2.
Proof.
  intros ths acts l s i es s1 O F R LK NE OE ST. destruct (signals_lemma _ _ _ _ O F R) as (ths' & acts' & _ & B & C & D).
  pose proof (rans_shape _ _ B C) as SH. destruct (inv_steps _ _ _ _ _ D (inv_start acts' names types SH)) as (o & I & _).
  inversion ST as [lk out d th r hs N HR]; subst s s1. cbn [r_lock r_out r_threads] in *. subst lk.
  pose proof (ran_shape _ _ OE HR) as SHH. destruct hs as [|h hs]; [inversion HR; subst; congruence|]. inversion SHH as [|? ? (ws & ->) _]; subst.
  assert (LI : (i < length th)%nat) by (eapply nth_some; eauto).
  intros l2 s2 R2. eexists. split; [apply update_same; exact LI|].
  match type of R2 with sreach _ _ ?s1 _ _ => remember s1 as s1' eqn:E1 end.
  induction R2 as [|l2 s2 s3 R2 IH S3|l2 s2 j es3 s3 R2 IH OK S3].
  - subst s1'. split; [reflexivity|]. split; [reflexivity|]. split.
    + cbn. destruct I as [rem TK HS LK' TH OUT D1 D2 | rem k p q pre post TK HS NP EP PP LK' TH OUT D1 D2]; cbn in *; [discriminate|]. injection LK' as <-.
      rewrite TH, update_update. apply Forall_update; [|right; eexists; reflexivity].
      clear -HS. induction HS as [|x rem X HS IH]; cbn; constructor; auto. apply shaped_waiting. exact X.
    + exists []. cbn. rewrite update_same by exact LI. split; [reflexivity|discriminate].
  - eapply frozen_step; eauto.
  - eapply frozen_signal; eauto.
Qed.
End Prog.
