(** Proofs about copies of software objects. *)
From Coq Require Import List Bool Arith ZArith Lia.
From Verif Require Import Base Collect Copies.
Import ListNotations.
Open Scope nat_scope.

Lemma put_length : forall A (l : list A) i x, length (put l i x) = length l.
Proof. induction l as [|y l IH]; intros [|i] x; cbn; auto. Qed.
Lemma put_same : forall A (l : list A) i x, i < length l -> nth_error (put l i x) i = Some x.
Proof. induction l as [|y l IH]; intros [|i] x H; cbn in *; try lia; auto. apply IH. lia. Qed.
Lemma put_other : forall A (l : list A) i j x, i <> j -> nth_error (put l i x) j = nth_error l j.
Proof. induction l as [|y l IH]; intros [|i] [|j] x H; cbn; auto; try lia. Qed.
Lemma put_cases : forall A (l : list A) i j x y, nth_error (put l i x) j = Some y ->
  (i = j /\ y = x /\ j < length l) \/ (i <> j /\ nth_error l j = Some y).
Proof.
  intros A l i j x y H. destruct (Nat.eq_dec i j) as [->|N].
  - left. assert (L : j < length l) by (rewrite <- (put_length A l j x); apply nth_error_Some; congruence).
    rewrite put_same in H by exact L. split; [reflexivity|]. split; [congruence|exact L].
  - right. rewrite put_other in H by exact N. auto.
Qed.
Lemma nth_some_lt : forall A (l : list A) i x, nth_error l i = Some x -> i < length l.
Proof. intros. apply nth_error_Some. congruence. Qed.
Lemma nth_snoc : forall A (l : list A) x j y, nth_error (l ++ [x]) j = Some y ->
  nth_error l j = Some y \/ (j = length l /\ y = x).
Proof.
  intros A l x j y H. destruct (Nat.lt_ge_cases j (length l)) as [L|L].
  - rewrite nth_error_app1 in H by exact L. auto.
  - rewrite nth_error_app2 in H by exact L. right.
    assert (E : j - length l < 1) by (apply nth_some_lt in H; exact H). assert (j = length l) as -> by lia.
    rewrite Nat.sub_diag in H. cbn in H. split; congruence.
Qed.

Section Proofs.
Variable T : Type.
Notation objects := (objects T). Notation op := (op T).

(** ** The databases in the model of collection *)

Lemma binary_some : forall (t : tcase T) num w d, w_db w = Some d -> exists l, w_db (fst (binary_case t num w)) = Some (d ++ l).
Proof.
  intros t num [b db p] d H. cbn in H. subst db. unfold binary_case, with_bin. cbn [w_bin].
  destruct b; [|destruct (tc_phen t) as [m|m ch]].
  - destruct (tc_run t (limited num)) as [|x l] eqn:E; cbn; eauto.
  - destruct (tc_run t (limited num)) as [|x l] eqn:E; cbn; eauto.
  - exists []. rewrite app_nil_r. destruct ch; reflexivity.
Qed.
Lemma sexp_some : forall (t : tcase T) num w d, w_db w = Some d -> exists l, w_db (fst (sexp_case t num w)) = Some (d ++ l).
Proof.
  intros t num [b db p] d H. cbn in H. subst db. unfold sexp_case, with_bin. cbn [w_bin].
  destruct b; [|destruct (tc_phen t) as [m|m ch]].
  - destruct (tc_run t (Some 1)) as [|x l]; [destruct (tc_ignore t); cbn; exists []; rewrite app_nil_r; reflexivity|].
    cbn. exists [x]. reflexivity.
  - destruct (tc_run t (Some 1)) as [|x l]; [destruct (tc_ignore t); cbn; exists []; rewrite app_nil_r; reflexivity|].
    cbn. exists [x]. reflexivity.
  - exists []. rewrite app_nil_r. destruct ch; reflexivity.
Qed.
Lemma one_some : forall one (t : tcase T) num w d, one = binary_case \/ one = sexp_case -> w_db w = Some d ->
  exists l, w_db (fst (one t num w)) = Some (d ++ l).
Proof. intros one t num w d [-> | ->] H; [apply binary_some|apply sexp_some]; exact H. Qed.
Lemma loop_some : forall one, one = binary_case \/ one = sexp_case -> forall num (ts : list (tcase T)) w d, w_db w = Some d ->
  exists l, w_db (fst (cases_loop one num ts w)) = Some (d ++ l).
Proof.
  intros one K num. induction ts as [|t r IH]; intros w d H; cbn [cases_loop].
  - exists []. rewrite app_nil_r. exact H.
  - destruct (one_some one t (option_map (fun n => (Z.of_nat n - Z.of_nat (n_traces w))%Z) num) w d K H) as (l & E).
    destruct (one t _ w) as [w' [|]]; cbn [fst] in E.
    + destruct (IH w' _ E) as (l' & E'). exists (l ++ l'). rewrite app_assoc. exact E'.
    + exists l. exact E.
Qed.
Lemma collect_reset : forall one bin ph num (ts : list (tcase T)) v, one = binary_case \/ one = sexp_case -> resets bin ph = true ->
  exists d, w_db (fst (collect_traces one ph num ts (mkW bin v 0))) = Some d.
Proof.
  intros one bin ph num ts v K R. unfold collect_traces, with_bin. cbn [w_bin]. destruct bin.
  - destruct (loop_some one K num ts (mkW true (Some []) 0) [] eq_refl) as (l & E). eauto.
  - destruct ph as [m|m ch]; [|discriminate]. cbn [set_bin w_bin w_procs].
    destruct (loop_some one K num ts (mkW m (Some []) 0) [] eq_refl) as (l & E).
    cbn [w_db w_procs]. destruct (cases_loop one num ts (mkW m (Some []) 0)) as [w' e]. cbn in *. eauto.
Qed.
Lemma collect_stays : forall one bin ph num (ts : list (tcase T)) v, resets bin ph = false ->
  w_db (fst (collect_traces one ph num ts (mkW bin v 0))) = match ph with PhErr _ ChNil => None | _ => v end.
Proof.
  intros one bin ph num ts v R. unfold resets in R. apply orb_false_iff in R. destruct R as [-> R].
  destruct ph as [m|m ch]; [discriminate|]. unfold collect_traces, with_bin. cbn. destruct ch; reflexivity.
Qed.

(** ** The invariant *)

Record good (st : objects) (vs : values T) : Prop := {
  g_len : length vs = length (o_slots st);
  g_val : forall o s v f, nth_error (o_slots st) o = Some s -> nth_error vs o = Some (v, f) -> slot_content st s = v;
  g_ref : forall o r, nth_error (o_slots st) o = Some (Some r) -> r < length (o_dbs st);
  g_own : forall o o' r v, nth_error (o_slots st) o = Some (Some r) -> nth_error vs o = Some (v, true) ->
            nth_error (o_slots st) o' = Some (Some r) -> o = o'
}.

Lemma slot_grow : forall (st : objects) d sl s, (forall r, s = Some r -> r < length (o_dbs st)) ->
  slot_content (mkO (o_dbs st ++ [d]) sl) s = slot_content st s.
Proof.
  intros st d sl [r|] H; [|reflexivity]. cbn [slot_content o_dbs]. apply nth_error_app1. apply H. reflexivity.
Qed.

Lemma step_good : forall st vs x, op_known x -> good st vs ->
  (match x with CollectCase o _ _ _ _ => forall v f, nth_error vs o = Some (v, f) -> f = true | _ => True end) ->
  good (step_op st x) (spec_op vs x).
Proof.
  intros st vs x K G C. destruct G as [GL GV GR GO]. destruct x as [|o|o one bin ph num ts|o one bin t num]; cbn [step_op spec_op].
  - (* Make *)
    constructor; cbn [o_slots o_dbs].
    + rewrite !app_length, GL. reflexivity.
    + intros o s v f H1 H2. apply nth_snoc in H1. apply nth_snoc in H2.
      destruct H1 as [H1|[E1 ->]], H2 as [H2|[E2 E3]].
      * exact (GV _ _ _ _ H1 H2).
      * apply nth_some_lt in H1. lia.
      * apply nth_some_lt in H2. lia.
      * assert (v = None) as -> by congruence. reflexivity.
    + intros o r H. apply nth_snoc in H. destruct H as [H|[_ H]]; [|discriminate]. eapply GR; eauto.
    + intros o o' r v H1 H2 H3. apply nth_snoc in H1. apply nth_snoc in H3.
      destruct H1 as [H1|[_ H1]]; [|discriminate]. destruct H3 as [H3|[_ H3]]; [|discriminate].
      apply nth_snoc in H2. destruct H2 as [H2|[E2 _]]; [exact (GO _ _ _ _ H1 H2 H3)|]. apply nth_some_lt in H1. lia.
  - (* Copy *)
    destruct (nth_error (o_slots st) o) as [s|] eqn:Es.
    2:{ assert (nth_error vs o = None) as -> by (apply nth_error_None; apply nth_error_None in Es; lia). constructor; assumption. }
    destruct (nth_error vs o) as [[v f]|] eqn:Ev.
    2:{ apply nth_error_None in Ev. apply nth_some_lt in Es. lia. }
    constructor; cbn [o_slots o_dbs].
    + rewrite !app_length, put_length, GL. reflexivity.
    + intros o1 s1 v1 f1 H1 H2. apply nth_snoc in H1. apply nth_snoc in H2. rewrite put_length in H2.
      destruct H1 as [H1|[E1 ->]], H2 as [H2|[E2 E3]].
      * apply put_cases in H2. destruct H2 as [(-> & E & _)|[_ H2]].
        -- assert (v1 = v) as -> by congruence. assert (s1 = s) as -> by congruence. exact (GV _ _ _ _ Es Ev).
        -- exact (GV _ _ _ _ H1 H2).
      * apply nth_some_lt in H1. lia.
      * apply nth_some_lt in H2. rewrite put_length in H2. lia.
      * assert (v1 = v) as -> by congruence. exact (GV _ _ _ _ Es Ev).
    + intros o1 r H. apply nth_snoc in H. destruct H as [H|[_ H]]; [eapply GR; eauto|]. eapply GR. rewrite Es. congruence.
    + intros o1 o2 r v1 H1 H2 H3. apply nth_snoc in H2. destruct H2 as [H2|[_ H2]]; [|congruence].
      apply put_cases in H2. destruct H2 as [(_ & H2 & _)|[N H2]]; [congruence|].
      apply nth_snoc in H1. destruct H1 as [H1|[E1 _]]; [|apply nth_some_lt in H2; lia].
      apply nth_snoc in H3. destruct H3 as [H3|[_ H3]]; [exact (GO _ _ _ _ H1 H2 H3)|].
      exfalso. apply N. symmetry. apply (GO o1 o r v1 H1 H2). congruence.
  - (* Collect *)
    destruct (nth_error (o_slots st) o) as [s|] eqn:Es.
    2:{ assert (nth_error vs o = None) as -> by (apply nth_error_None; apply nth_error_None in Es; lia). constructor; assumption. }
    destruct (nth_error vs o) as [[v f]|] eqn:Ev.
    2:{ apply nth_error_None in Ev. apply nth_some_lt in Es. lia. }
    rewrite (GV _ _ _ _ Es Ev). destruct (resets bin ph) eqn:Er.
    + destruct (collect_reset one bin ph num ts v K Er) as (d & Ed). unfold contents. rewrite Ed. rewrite orb_true_r.
      constructor; cbn [o_slots o_dbs].
      * rewrite !put_length. exact GL.
      * intros o1 s1 v1 f1 H1 H2. apply put_cases in H1. apply put_cases in H2.
        destruct H1 as [(<- & -> & _)|[N1 H1]], H2 as [(E2 & E3 & _)|[N2 H2]]; try congruence.
        -- assert (v1 = Some d) as -> by congruence. cbn [slot_content o_dbs].
           rewrite nth_error_app2, Nat.sub_diag by lia. reflexivity.
        -- rewrite slot_grow; [exact (GV _ _ _ _ H1 H2)|]. intros r ->. eapply GR; eauto.
      * intros o1 r H. rewrite app_length. cbn [length]. apply put_cases in H. destruct H as [(_ & E & _)|[_ H]].
        -- assert (r = length (o_dbs st)) by congruence. lia.
        -- apply GR in H. lia.
      * intros o1 o2 r v1 H1 H2 H3. apply put_cases in H1. apply put_cases in H2. apply put_cases in H3.
        destruct H1 as [(E1 & E2 & _)|[N1 H1]], H3 as [(E3 & E4 & _)|[N3 H3]]; try congruence.
        -- exfalso. apply GR in H3. assert (r = length (o_dbs st)) by congruence. lia.
        -- exfalso. apply GR in H1. assert (r = length (o_dbs st)) by congruence. lia.
        -- destruct H2 as [(E & _)|[_ H2]]; [congruence|]. exact (GO _ _ _ _ H1 H2 H3).
    + rewrite collect_stays by exact Er. rewrite orb_false_r.
      assert (Keep : good st (put vs o (v, f))).
      { constructor; auto.
        - rewrite put_length. exact GL.
        - intros o1 s1 v1 f1 H1 H2. apply put_cases in H2. destruct H2 as [(<- & E & _)|[_ H2]]; [|exact (GV _ _ _ _ H1 H2)].
          assert (v1 = v) as -> by congruence. exact (GV _ _ _ _ H1 Ev).
        - intros o1 o2 r v1 H1 H2 H3. apply put_cases in H2. destruct H2 as [(<- & E & _)|[_ H2]]; [|exact (GO _ _ _ _ H1 H2 H3)].
          assert (f = true) as -> by congruence. exact (GO _ _ _ _ H1 Ev H3). }
      destruct ph as [m|m [| |]]; try exact Keep.
      constructor; cbn [o_slots o_dbs].
      * rewrite !put_length. exact GL.
      * intros o1 s1 v1 f1 H1 H2. apply put_cases in H1. apply put_cases in H2.
        destruct H1 as [(<- & -> & _)|[N1 H1]], H2 as [(E2 & E3 & _)|[N2 H2]]; try congruence.
        -- assert (v1 = None) as -> by congruence. reflexivity.
        -- exact (GV _ _ _ _ H1 H2).
      * intros o1 r H. apply put_cases in H. destruct H as [(_ & E & _)|[_ H]]; [discriminate|eapply GR; eauto].
      * intros o1 o2 r v1 H1 H2 H3. apply put_cases in H1. apply put_cases in H2. apply put_cases in H3.
        destruct H1 as [(E1 & E2 & _)|[N1 H1]]; [discriminate|]. destruct H3 as [(E3 & E4 & _)|[N3 H3]]; [discriminate|].
        destruct H2 as [(E & _)|[_ H2]]; [congruence|]. exact (GO _ _ _ _ H1 H2 H3).
  - (* CollectCase *)
    destruct (nth_error (o_slots st) o) as [[r|]|] eqn:Es.
    3:{ assert (nth_error vs o = None) as -> by (apply nth_error_None; apply nth_error_None in Es; lia). constructor; assumption. }
    2:{ destruct (nth_error vs o) as [[v f]|] eqn:Ev; [|constructor; assumption].
        pose proof (GV _ _ _ _ Es Ev) as E. cbn in E. subst v. constructor; assumption. }
    destruct (nth_error vs o) as [[v f]|] eqn:Ev.
    2:{ apply nth_error_None in Ev. apply nth_some_lt in Es. lia. }
    assert (f = true) as -> by (eapply C; eauto).
    pose proof (GV _ _ _ _ Es Ev) as E. cbn [slot_content] in E. rewrite E.
    assert (Hr : r < length (o_dbs st)) by (eapply GR; eauto).
    destruct v as [d|]; [|apply nth_error_None in E; lia].
    destruct (one_some one t num (mkW bin (Some d) 0) d K eq_refl) as (l & El). unfold contents. rewrite El.
    constructor; cbn [o_slots o_dbs].
    + rewrite put_length. exact GL.
    + intros o1 s1 v1 f1 H1 H2. apply put_cases in H2. destruct H2 as [(<- & E2 & _)|[N2 H2]].
      * assert (s1 = Some r) as -> by congruence. assert (v1 = Some (d ++ l)) as -> by congruence.
        cbn [slot_content o_dbs]. apply put_same. exact Hr.
      * rewrite <- (GV _ _ _ _ H1 H2). destruct s1 as [r1|]; [|reflexivity]. cbn [slot_content o_dbs].
        apply put_other. intros ->. apply N2. exact (GO _ _ _ _ Es Ev H1).
    + intros o1 r1 H. rewrite put_length. eapply GR; eauto.
    + intros o1 o2 r1 v1 H1 H2 H3. apply put_cases in H2. destruct H2 as [(<- & _)|[_ H2]].
      * assert (r1 = r) as -> by congruence. exact (GO _ _ _ _ Es Ev H3).
      * exact (GO _ _ _ _ H1 H2 H3).
Qed.

Lemma run_good : forall (l : list op) (st : objects) (vs : values T), Forall op_known l -> good st vs -> cases_own vs l -> good (run_ops st l) (spec_run vs l).
Proof.
  induction l as [|x l IH]; intros st vs K G C; [exact G|]. inversion K as [|? ? K1 K2]; subst.
  cbn [cases_own] in C. destruct C as [C1 C2]. cbn [run_ops spec_run fold_left].
  apply (IH (step_op st x) (spec_op vs x)); auto. apply step_good; auto.
Qed.

Lemma good_nil : good no_objects [].
Proof. constructor; cbn; auto; intros [|o]; intros; discriminate. Qed.

Lemma good_seen : forall st vs, good st vs -> forall o, traces_of st o = option_map fst (nth_error vs o).
Proof.
  intros st vs [GL GV _ _] o. unfold traces_of. destruct (nth_error (o_slots st) o) as [s|] eqn:Es.
  - destruct (nth_error vs o) as [[v f]|] eqn:Ev; [|apply nth_error_None in Ev; apply nth_some_lt in Es; lia].
    cbn. f_equal. exact (GV _ _ _ _ Es Ev).
  - assert (nth_error vs o = None) as -> by (apply nth_error_None; apply nth_error_None in Es; lia). reflexivity.
Qed.

Lemma copies_lemma : forall l : list op, Forall op_known l -> cases_own [] l ->
  forall o, traces_of (run_ops no_objects l) o = option_map fst (nth_error (spec_run [] l) o).
Proof. intros l K C. apply good_seen. apply run_good; auto. apply good_nil. Qed.

Lemma whole_own : forall (l : list op) vs, Forall whole_only l -> cases_own vs l.
Proof.
  induction l as [|x l IH]; intros vs H; [exact I|]. inversion H as [|? ? H1 H2]; subst. cbn [cases_own].
  split; [destruct x; auto; contradiction|apply IH; exact H2].
Qed.

Lemma handed_lemma : forall (l : list op) (st : objects) r d, Forall whole_only l -> nth_error (o_dbs st) r = Some d ->
  nth_error (o_dbs (run_ops st l)) r = Some d.
Proof.
  induction l as [|x l IH]; intros st r d H E; [exact E|]. inversion H as [|? ? H1 H2]; subst.
  cbn [run_ops fold_left]. apply (IH (step_op st x)); [exact H2|].
  destruct x as [|o|o one bin ph num ts|]; cbn [step_op]; try contradiction; auto.
  - destruct (nth_error (o_slots st) o); exact E.
  - destruct (nth_error (o_slots st) o) as [s|]; [|exact E]. destruct (resets bin ph); cbn [o_dbs].
    + rewrite nth_error_app1 by (apply nth_some_lt in E; exact E). exact E.
    + destruct ph as [m|m [| |]]; exact E.
Qed.

Lemma shared_lemma : forall (st : objects) o d (t : tcase T) num x l, traces_of st o = Some (Some d) ->
  tc_run t (limited num) = x :: l ->
  traces_of (run_ops st [Copy o; CollectCase (length (o_slots st)) binary_case true t num]) o = Some (Some (d ++ x :: l)).
Proof.
  intros st o d t num x l H R. unfold traces_of in H. destruct (nth_error (o_slots st) o) as [s|] eqn:Es; [|discriminate].
  cbn in H. assert (E : slot_content st s = Some d) by congruence. destruct s as [r|]; [|discriminate]. cbn in E.
  cbn [run_ops fold_left step_op]. rewrite Es. cbn [o_slots o_dbs].
  rewrite nth_error_app2, Nat.sub_diag by lia. cbn [nth_error]. rewrite E.
  unfold traces_of. cbn [o_slots]. rewrite nth_error_app1 by (apply nth_some_lt in Es; exact Es). rewrite Es.
  cbn [option_map slot_content o_dbs]. rewrite put_same by (apply nth_some_lt in E; exact E).
  unfold binary_case, with_bin. cbn [w_bin]. rewrite R. reflexivity.
Qed.
End Proofs.
