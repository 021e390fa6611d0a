(** Proofs about end-to-end queries: runs. *)
From Verif Require Import BaseProofs Types Stream Reader SkipList FormatSpec AMap ReaderProps Compare Predicate PredSpec PredProofs Query QuerySpec QueryProofs QueryProofs2 P_Reader P_Pred P_Query.
From Verif Require Import CApi CApiSpec CApiProofs2 CApiProofs4 Instr InstrRun InstrSpec InstrText InstrEnd EndSpec EndProofs.

Lemma Forall2_filter : forall A B (R : A -> B -> Prop) f g l m, Forall2 R l m -> (forall x y, R x y -> f x = g y) ->
  Forall2 R (filter f l) (filter g m).
Proof.
  intros A B R f g l m H E. induction H as [|x y l m X _ IH]; [constructor|]. cbn [filter]. rewrite (E _ _ X). destruct (g y); [constructor; assumption|assumption].
Qed.
Lemma Forall2_map_r : forall A B C (R : A -> C -> Prop) (f : B -> C) l m, Forall2 (fun x y => R x (f y)) l m <-> Forall2 R l (map f m).
Proof.
  intros A B C R f l m. split; intros H.
  - induction H; cbn; constructor; auto.
  - revert l H. induction m as [|y m IH]; intros l H; inversion H; subst; constructor; auto.
Qed.
Lemma Forall2_both : forall A B (P R : A -> B -> Prop) l m, Forall2 P l m -> Forall2 R l m -> Forall2 (fun x y => P x y /\ R x y) l m.
Proof. intros A B P R l m H. induction H; intros H'; inversion H'; subst; constructor; auto. Qed.
Lemma Forall2_weaken : forall A B (P R : A -> B -> Prop) l m, (forall x y, P x y -> R x y) -> Forall2 P l m -> Forall2 R l m.
Proof. intros A B P R l m E H. induction H; constructor; auto. Qed.
Lemma Forall2_in_l : forall A B (R : A -> B -> Prop) l m x, Forall2 R l m -> In x l -> exists y, In y m /\ R x y.
Proof. intros A B R l m x H. induction H as [|a b l m X _ IH]; intros []; [subst; exists b; split; [left; reflexivity|exact X]|]. destruct (IH H) as (y & Y & Z). exists y. split; [right; exact Y|exact Z]. Qed.
Lemma Forall2_in_r : forall A B (R : A -> B -> Prop) l m y, Forall2 R l m -> In y m -> exists x, In x l /\ R x y.
Proof. intros A B R l m y H. induction H as [|a b l m X _ IH]; intros []; [subst; exists a; split; [left; reflexivity|exact X]|]. destruct (IH H) as (x & Y & Z). exists x. split; [right; exact Y|exact Z]. Qed.

Lemma numbered_snd : forall A B (R : A -> B -> Prop) l m k, Forall2 R l m -> Forall2 (fun x y => R (snd x) y) (numbered k l) m.
Proof. intros A B R l m k H. revert k. induction H; intros k; cbn [numbered]; constructor; auto. Qed.
Lemma numbered_in : forall A (l : list A) k x, In x (numbered k l) -> In (snd x) l.
Proof. intros A l. induction l as [|a l IH]; intros k x []; [subst; left; reflexivity|right; eapply IH; eassumption]. Qed.
Lemma in_numbered : forall A (l : list A) k x, In x l -> exists j, In (j, x) (numbered k l).
Proof. intros A l. induction l as [|a l IH]; intros k x []; [subst; exists k; left; reflexivity|]. destruct (IH (k + 1) x H) as (j & J). exists j. right. exact J. Qed.

Lemma counters_are : forall types i h pts ps, points_of types i h pts ps -> forall A (l : list A), length l = length ps ->
  Forall2 (fun x p => p_counter p = fst x) (numbered i l) ps.
Proof.
  intros types i h pts ps H. induction H as [|i h es p pts ps (HC & _) _ IH]; intros A [|a l] L; try discriminate; cbn [numbered]; constructor; auto.
Qed.
Lemma read_counters : forall ok coins pos t max bs tr A (l : list A), read ok coins pos t max bs = Ok tr -> length l = length (tr_points tr) ->
  Forall2 (fun x p => p_counter p = fst x) (numbered 0 l) (tr_points tr).
Proof.
  intros ok coins pos t max bs tr A l R L. apply read_iff in R. destruct (accepted_denotes _ _ _ _ R) as [(F & _ & _ & _ & D)|E].
  - eapply counters_are; eassumption.
  - rewrite E in *. destruct l; [constructor|discriminate].
Qed.

Lemma merge_Forall : forall A (P : A -> Prop) ll o, merge ll o -> Forall (Forall P) ll -> Forall P o.
Proof.
  intros A P ll o H. induction H as [|ll i x r l E _ IH]; intros F; [constructor|].
  assert (X : Forall P (x :: r)) by (rewrite Forall_forall in F; apply F; eapply nth_error_In; exact E). inversion X; subst. constructor; [assumption|]. apply IH.
  clear - F H2. revert i. induction F as [|y ll Y F IH]; intros i; destruct i; cbn; constructor; auto.
Qed.

Section Run.
Variables (O : fops) (ok : N -> bool) (coins : nat -> bool) (pos : nat) (pick : N -> N -> N) (garbage : N -> N) (t : tail_kind) (max : N) (bs : list byte).
Variables (tr : trace (option N)) (sites : list site) (order : list event).
Hypothesis READ : read ok coins pos t max bs = Ok tr.
Hypothesis SHOWS : Forall2 (event_shows sites tr) order (tr_points tr).
Hypothesis EOK : Forall (event_ok sites) order.
Hypothesis MEM : forall n, n < 2 ^ 64 -> ok n = true.
Variables (W : list (list name)) (fvs : list (list N)) (e : bexp) (hard : pred) (mask stmt : N).
Hypothesis HW : W <> [].
Hypothesis ASKS : asks (tr_names tr) (tr_types tr) W fvs.
Hypothesis REPR : repr_b e hard.
Hypothesis ONV : on_values (lenN W) e.
Hypothesis NOF : no_floats sites W e.
Hypothesis FEW : few_choices sites W.

Definition set_stmt (p : point (option N)) : point N :=
  map_stmt (fun s => match s with Some u => u | None => garbage (p_counter p) end) p.

Lemma all_about : Forall2 (fun x p => p_counter p = fst x /\ exists s l, nth_error sites (fst (snd x)) = Some s /\ env_ok s (snd (snd x)) /\
    p_stmt p = fst s /\ p_sizes p = [] /\ p_aux p = [] /\ site_vars (snd s) l /\ Forall2 (shown tr (snd (snd x))) l (p_vars p))
  (numbered 0 order) (tr_points (settle garbage tr)).
Proof.
  change (tr_points (settle garbage tr)) with (map set_stmt (tr_points tr)). apply -> Forall2_map_r.
  assert (LEN : length order = length (tr_points tr)) by (clear - SHOWS; induction SHOWS; cbn; auto).
  pose proof (read_counters _ _ _ _ _ _ _ _ order READ LEN) as C.
  assert (S2 : Forall2 (fun e p => event_ok sites e /\ event_shows sites tr e p) order (tr_points tr)).
  { clear - SHOWS EOK. induction SHOWS; inversion EOK; subst; constructor; auto. }
  apply (numbered_snd _ _ _ _ _ 0) in S2. apply (Forall2_both _ _ _ _ _ _ C) in S2. eapply Forall2_weaken; [|exact S2]. cbn beta.
  intros x p (K & (s & S1 & E1) & (s' & S1' & A1 & A2 & A3 & l & A4 & A5)). split; [exact K|]. exists s, l.
  assert (s' = s) by congruence. subst s'. unfold set_stmt, map_stmt. cbn [p_stmt p_sizes p_aux p_vars]. rewrite A1. conj_split; auto.
Qed.

Lemma lenW : lenN fvs = lenN W.
Proof. symmetry. eapply Forall2_same_len. exact ASKS. Qed.

Lemma good : good_points ok fvs (tr_points (settle garbage tr)).
Proof.
  unfold good_points. apply Forall_forall. intros p Hp. split.
  - destruct (settled_ok ok coins pos garbage t max bs tr READ) as (_ & V & _). cbn [fst] in V. rewrite Forall_forall in V. apply V. exact Hp.
  - destruct (Forall2_in_r _ _ _ _ _ _ all_about Hp) as (x & _ & _ & s & l & S1 & _ & _ & _ & _ & SV & SH).
    pose proof (n_assignments_le p fvs) as LE. rewrite <- (Forall2_same_len _ _ _ _ _ SH), lenW in LE.
    pose proof (FEW s l (nth_error_In _ _ S1) SV) as F. 
    assert (F' : 24 * n_assignments p fvs < 2 ^ 64) by (eapply N.le_lt_trans; [apply N.mul_le_mono_l; exact LE|exact F]).
    split; [lia|]. apply MEM. exact F'.
Qed.

Lemma run_answers : exists rs c', query unit (direct O) ok pick (tr_points (settle garbage tr)) [] tt fvs hard [] 0 mask stmt = Ok (rs, c', tt) /\
  answers_run (tr_names tr) (tr_types tr) sites W e mask stmt order rs.
Proof.
  destruct (C19_sound_complete O ok pick (tr_points (settle garbage tr)) [] fvs hard mask stmt) as (B & ps & c' & E & Eps & HB).
  - constructor.
  - intros ->. inversion ASKS; subst. congruence.
  - exact good.
  - rewrite lenW. eapply wt_b; eassumption.
  - eexists _, c'. split; [exact E|]. exists (map (fun p => map (result p) (B p)) ps). split; [|apply flat_map_concat_map].
    apply -> Forall2_map_r. rewrite Eps.
    pose proof all_about as AB. apply Forall2_filter with (f := fun x => passes sites mask stmt (snd x)) (g := fun p => N.land (p_stmt p) mask =? stmt) in AB.
    2:{ intros [k ev] p (_ & s & l & S1 & _ & P1 & _). unfold passes. cbn [fst snd] in *. rewrite S1, P1. reflexivity. }
    assert (VOK : forall p, In p (filter (fun p => N.land (p_stmt p) mask =? stmt) (tr_points (settle garbage tr))) -> Forall var_ok (p_vars p)).
    { intros p Hp. apply filter_In in Hp. destruct Hp as [Hp _]. pose proof good as G. unfold good_points in G. rewrite Forall_forall in G. apply G. exact Hp. }
    revert AB VOK. generalize (filter (fun x => passes sites mask stmt (snd x)) (numbered 0 order)) as evs.
    generalize (filter (fun p => N.land (p_stmt p) mask =? stmt) (tr_points (settle garbage tr))) as qs. intros qs evs AB VOK.
    induction AB as [|x p evs qs (K & s & l & S1 & EO & P1 & P2 & P3 & SV & SH) _ IH]; constructor; [|apply IH; intros q Hq; apply VOK; right; exact Hq].
    specialize (VOK p (or_introl eq_refl)). destruct x as [k ev]. cbn [fst snd] in *.
    destruct (HB p) as (ND & ASC & HIn). exists s, l, (B p).
    assert (INH : forall y k, In y l -> has_kind (lv_type y) k -> inhabits k (snd ev (lv_name y))) by (intros y k' Y K'; eapply env_in; eassumption).
    assert (MN : forall bs0, assignment p fvs bs0 -> (satisfied O (bound p bs0) hard = Ok true <-> true_in (snd ev) l bs0 e)).
    { intros bs0 A. assert (ONV' : on_values (lenN fvs) e) by (rewrite lenW; exact ONV).
      rewrite <- (truth_agrees tr (snd ev) l p SH INH fvs bs0 A e ONV').
      apply (C22_integer_predicates O (bound p bs0) e hard REPR).
      - apply bound_ok. exact VOK.
      - apply (closed_here tr (snd ev) l p SH fvs bs0 A e ONV'). intros i y U C.
        destruct (nthN W i) as [w|] eqn:Ew.
        + destruct C as (b & C1 & C2). apply (NOF s l i w y (nth_error_In _ _ S1) SV U Ew (nthN_In _ _ _ _ C2)).
          apply (choice_assignment tr (snd ev) l p SH W fvs bs0 ASKS) in A. pose proof (Forall2_nthN _ _ _ _ _ A i) as X. rewrite Ew, C1 in X.
          destruct X as (y' & Y1 & Y2). congruence.
        + exfalso. destruct C as (b & C1 & C2). apply (choice_assignment tr (snd ev) l p SH W fvs bs0 ASKS) in A.
          pose proof (Forall2_nthN _ _ _ _ _ A i) as X. rewrite Ew, C1 in X. exact X. }
    conj_split; auto.
    + intros bs0. rewrite HIn. rewrite (choice_assignment tr (snd ev) l p SH W fvs bs0 ASKS). split; intros [A1 A2]; (split; [exact A1|apply (MN bs0 A1); exact A2]).
    + assert (HA : forall bs0, In bs0 (B p) -> assignment p fvs bs0) by (intros bs0 X; apply HIn in X; apply X).
      clear - HA K P1 P2 P3 SH. induction (B p) as [|b0 bss IH]; cbn [map]; constructor; [|apply IH; intros; apply HA; right; assumption].
      unfold shows_choice, result. cbn [p_counter p_stmt p_sizes p_aux p_vars]. conj_split; auto.
      specialize (HA b0 (or_introl eq_refl)). clear - HA SH. unfold bound. induction HA as [|fv b fvs bs0 (v & V & _) _ IH]; [constructor|].
      cbn [flat_map]. rewrite V. cbn [app]. constructor; [|exact IH]. 
      assert (AT : match @nthN lvar l b with Some y => shown tr (snd ev) y v | None => False end)
        by (pose proof (at_pos tr (snd ev) l p SH b) as AT; rewrite V in AT; exact AT).
      destruct (@nthN lvar l b) as [y|] eqn:Y; [|destruct AT]. exists y. split; [reflexivity|]. exact AT.
Qed.
End Run.

(** ** The library *)
Lemma pushed : forall grow d tr, nthN (db_traces (push_trace grow d tr)) (lenN (db_traces d)) = Some (tr, []).
Proof.
  intros grow d tr. unfold push_trace. destruct (_ <? _); cbn [db_traces].
  - rewrite nthN_app2 by lia. rewrite N.sub_diag. reflexivity.
  - rewrite nthN_app2 by (rewrite lenN_map; lia). rewrite lenN_map, N.sub_diag. reflexivity.
Qed.

Lemma library_answers : forall O ok coins pos pick hash garbage grow d t max bs tr sites order W e q,
  read ok coins pos t max bs = Ok tr -> Forall2 (event_shows sites tr) order (tr_points tr) -> Forall (event_ok sites) order ->
  (forall n, n < 2 ^ 64 -> ok n = true) -> no_floats sites W e -> few_choices sites W ->
  question (tr_names tr) (tr_types tr) W e q ->
  exists d', add_trace ok (skip_map coins pos) garbage grow d (Ok (bs, t)) max = Ok (true, d') /\
  exists rs d'', query_trace unit (direct O) ok pick hash d' tt (lenN (db_traces d)) q = Ok (rs, d'', tt) /\
    answers_run (tr_names tr) (tr_types tr) sites W e (cq_mask q) (cq_stmt q) order rs.
Proof.
  intros O ok coins pos pick hash garbage grow d t max bs tr sites order W e q READ SH EOK MEM NOF FEW (Q1 & Q2 & Q3 & (p & Q4 & Q5 & Q6) & Q7 & Q8 & Q9).
  exists (push_trace grow d (settle garbage tr)). split.
  - unfold add_trace. cbn [bind]. rewrite READ. reflexivity.
  - destruct (run_answers O ok coins pos pick garbage t max bs tr sites order READ SH EOK MEM W (cq_fvs q) e p (cq_mask q) (cq_stmt q) Q1 Q3 Q4 Q2 NOF FEW)
      as (rs & c' & E & A).
    eexists rs, _. split; [|exact A]. unfold query_trace. rewrite pushed, Q6, Q7, Q8. cbn [create_predicate_obj]. rewrite (client_ok p Q5). cbn [bind mapO].
    cbn [settle tr_points] in E. cbn [settle tr_points]. rewrite E. cbn [bind]. destruct (N.eqb_spec (cq_keep q) 0); [contradiction|reflexivity].
Qed.

(** ** Nothing found, nothing happened *)
Lemma found_happened : forall names types sites W e mask stmt order rs,
  answers_run names types sites W e mask stmt order rs -> (rs <> [] <-> happened sites W e mask stmt order).
Proof.
  intros names types sites W e mask stmt order rs (groups & F & ->). split.
  - intros NE. assert (X : exists r, In r (concat groups)) by (destruct (concat groups) as [|r ?]; [congruence|exists r; left; reflexivity]).
    destruct X as (r & X). apply in_concat in X. destruct X as (g & G & X).
    destruct (Forall2_in_r _ _ _ _ _ _ F G) as ([k ev] & K & s & l & bss & S1 & SV & _ & _ & HI & SH). cbn [fst snd] in *.
    apply filter_In in K. destruct K as [K1 K2]. unfold passes in K2. cbn [snd] in K2. rewrite S1 in K2. apply N.eqb_eq in K2. apply numbered_in in K1.
    destruct (Forall2_in_r _ _ _ _ _ _ SH X) as (bs & BS & _). apply HI in BS. destruct BS. exists ev, s, l, bs. conj_split; auto.
  - intros (ev & s & l & bs & I1 & S1 & SEL & SV & C & TR) E.
    destruct (in_numbered _ order 0 ev I1) as (k & K).
    assert (K' : In (k, ev) (filter (fun x => passes sites mask stmt (snd x)) (numbered 0 order))).
    { apply filter_In. split; [exact K|]. unfold passes. cbn [snd]. rewrite S1. apply N.eqb_eq. exact SEL. }
    destruct (Forall2_in_l _ _ _ _ _ _ F K') as (g & G & s' & l' & bss & S1' & SV' & _ & _ & HI & SH). cbn [fst snd] in *.
    assert (s' = s) by congruence. subst s'. rewrite (site_det _ _ SV' _ SV) in *.
    destruct (Forall2_in_l _ _ _ _ _ bs SH) as (r & R & _); [apply HI; auto|].
    assert (X : In r (concat groups)) by (apply in_concat; eauto). rewrite E in X. destruct X.
Qed.
