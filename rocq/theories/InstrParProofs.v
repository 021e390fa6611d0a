(** Instrumenting with several threads: proofs. *)
From Coq Require Import Strings.String Permutation.
From Verif Require Import BaseProofs Types Compare PrintPred FormatSpec Instr InstrRun InstrSpec InstrText InstrTable InstrConc InstrProofs InstrReq InstrPar.

Section Par.
Variable test : name -> name -> bool.

Definition put_type (x : tctx) (c : N) (st : istate) : N * istate :=
  (c, mkI (i_names st) (puthash (key_test test) (tctx_key x) c (i_types st)) (i_descs st)).
Definition finish_type (x : tctx) (ni : N) (st : istate) : N * istate :=
  let '(t, f, size, ps) := x in
  let st1 := mkI (i_names st) (i_types st) (puthash (key_test test) (tctx_key x) (mkT ni f size) (i_descs st)) in
  put_type x (lenN (i_types st1)) st1.
Definition finish_k (k : option tctx) (r : N * istate) : N * istate :=
  match k with None => r | Some x => finish_type x (fst r) (snd r) end.

(** What the rest of a request computes when nobody else intervenes. *)
Definition finish (p : pc) (st : istate) : N * istate :=
  match p with
  | NGet n k => finish_k k (get_name_index test n st)
  | NCount n k => finish_k k (lenN (i_names st), mkI (puthash test n (lenN (i_names st)) (i_names st)) (i_types st) (i_descs st))
  | NPut n c k => finish_k k (c, mkI (puthash test n c (i_names st)) (i_types st) (i_descs st))
  | TGet x => let '(t, f, size, ps) := x in get_type_index test t f size ps st
  | TDesc x ni => finish_type x ni st
  | TCount x => put_type x (lenN (i_types st)) st
  | TPut x c => put_type x c st
  end.

Lemma mstep_finish : forall p st r st', mstep test p st = (r, st') ->
  finish p st = match r with Goes p' => finish p' st' | Done i => (i, st') end.
Proof.
  intros p st r st' E. destruct p as [n k|n k|n c k|[[[t f] size] ps]|[[[t f] size] ps] ni|x|x c]; cbn [mstep] in E.
  - cbn [finish]. unfold get_name_index. destruct (gethash test n (i_names st)) as [i|].
    + injection E as <- <-. destruct k; reflexivity.
    + injection E as <- <-. reflexivity.
  - injection E as <- <-. reflexivity.
  - injection E as <- <-. destruct k; reflexivity.
  - cbn [finish]. unfold get_type_index. cbn [tctx_key] in E.
    destruct (gethash (key_test test) (string_flag t ps, type_trace_string t) (i_types st)) as [i|].
    + injection E as <- <-. reflexivity.
    + injection E as <- <-. cbn [finish finish_k snd tctx_key]. unfold type_description_struct.
      destruct (get_name_index test (type_trace_string t) st) as [ni st1]. reflexivity.
  - injection E as <- <-. reflexivity.
  - injection E as <- <-. reflexivity.
  - injection E as <- <-. reflexivity.
Qed.

Lemma start_ask : forall r st, ask test r st = match start r with
  | Some p => let '(i, st') := finish p st in (Some i, st')
  | None => (None, st) end.
Proof.
  intros [n|t ps] st; cbn.
  - destruct (get_name_index test n st); reflexivity.
  - destruct (type_format_and_size t ps) as [[f size]|]; reflexivity.
Qed.

Lemma ask_all_snoc : forall rs r st is st1 i st2, ask_all test rs st = (is, st1) -> ask test r st1 = (i, st2) ->
  ask_all test (rs ++ [r]) st = (is ++ [i], st2).
Proof.
  induction rs as [|x rs IH]; intros r st is st1 i st2 E1 E2; cbn [ask_all app] in *.
  - injection E1 as <- <-. rewrite E2. reflexivity.
  - destruct (ask test x st) as [j s]. destruct (ask_all test rs s) as [js s'] eqn:E. injection E1 as <- <-.
    rewrite (IH _ _ _ _ _ _ E E2). reflexivity.
Qed.

(** Requests answered so far, in order, with the threads' shares. *)
Inductive shares : list (list (request * option N)) -> list (request * option N) -> Prop :=
| sh_start : forall l, Forall (eq []) l -> shares l []
| sh_snoc : forall l o i d x, shares l o -> nth_error l i = Some d -> shares (update l i (d ++ [x])) (o ++ [x]).

Definition left (t : pthread) : list request :=
  match pt_pc t with Some (r, _) => r :: pt_todo t | None => pt_todo t end.

Record xinv (reqs : list (list request)) (o : list (request * option N)) (s : pstate) : Prop := {
  xi_shares : shares (map pt_done (ps_threads s)) o;
  xi_left : map (fun t => map fst (pt_done t) ++ left t) (ps_threads s) = reqs;
  xi_ask : exists st, ask_all test (map fst o) istate0 = (map snd o, st) /\
    ((forall i t, nth_error (ps_threads s) i = Some t -> pt_pc t = None) /\ ps_tab s = st \/
     exists i t r p, nth_error (ps_threads s) i = Some t /\ pt_pc t = Some (r, p) /\ alone i s /\
       ask test r st = (let '(j, st') := finish p (ps_tab s) in (Some j, st')))
}.

Lemma map_update_same : forall A B (f : A -> B) l i x y, nth_error l i = Some y -> f x = f y -> map f (update l i x) = map f l.
Proof. intros. rewrite map_update, H0. apply update_id. rewrite nth_error_map, H. reflexivity. Qed.

Lemma nth_update : forall A (l : list A) i j x y, nth_error (update l i x) j = Some y -> (j = i /\ y = x) \/ (j <> i /\ nth_error l j = Some y).
Proof.
  intros A l i j x y H. destruct (Nat.eq_dec j i) as [->|N].
  - left. split; auto. assert (L : (i < length l)%nat) by (apply nth_some in H; now rewrite update_length in H).
    rewrite update_same in H by auto. congruence.
  - right. split; auto. rewrite update_other in H by auto. auto.
Qed.

Lemma xinv_step : forall reqs o s i s', xinv reqs o s -> alone i s -> pstep test i s s' -> exists o', xinv reqs o' s'.
Proof.
  intros reqs o s i s' [SH LF (st & AK & TB)] AL ST.
  destruct ST as [tab ths r q d p H S|tab ths r q d H S|tab ths r p q d p' st' H M|tab ths r p q d j st' H M];
    cbn [ps_threads ps_tab] in *.
  - (* start *)
    assert (ID : tab = st).
    { destruct TB as [(_ & ->)|(i' & t & r' & p' & H1 & H2 & H3 & _)]; auto. exfalso.
      destruct (Nat.eq_dec i' i) as [->|NE]; [rewrite H in H1; injection H1 as <-; discriminate|].
      rewrite (AL i' t H1 NE) in H2. discriminate. }
    subst st. exists o. constructor; cbn [ps_threads ps_tab].
    + erewrite map_update_same; eauto.
    + erewrite map_update_same; eauto.
    + exists tab. split; auto. right. exists i, (mkPT (Some (r, p)) q d), r, p.
      rewrite update_same by (eapply nth_some; eauto). split; auto. split; auto. split.
      * intros j t Hj NE. cbn in Hj. apply nth_update in Hj. destruct Hj as [[E _]|[_ Hj]]; [congruence|]. eapply AL; eauto.
      * rewrite start_ask, S. reflexivity.
  - (* skip *)
    assert (ID : tab = st).
    { destruct TB as [(_ & ->)|(i' & t & r' & p' & H1 & H2 & H3 & _)]; auto. exfalso.
      destruct (Nat.eq_dec i' i) as [->|NE]; [rewrite H in H1; injection H1 as <-; discriminate|].
      rewrite (AL i' t H1 NE) in H2. discriminate. }
    subst st. exists (o ++ [(r, None)]). constructor; cbn [ps_threads ps_tab].
    + rewrite map_update. cbn [pt_done]. apply sh_snoc; auto. rewrite nth_error_map, H. reflexivity.
    + erewrite map_update_same; eauto. unfold left. cbn. rewrite map_app, <- app_assoc. reflexivity.
    + exists tab. split.
      * rewrite !map_app. cbn. eapply ask_all_snoc; eauto. rewrite start_ask, S. reflexivity.
      * left. split; auto. intros j t Hj. apply nth_update in Hj. destruct Hj as [[_ ->]|[NE Hj]]; auto. eapply AL; eauto.
  - (* goes *)
    destruct TB as [(Z & _)|(i' & t & r' & p0 & H1 & H2 & H3 & AR)]; [specialize (Z i _ H); discriminate|].
    assert (i' = i) as ->.
    { destruct (Nat.eq_dec i' i) as [->|NE]; auto. rewrite (AL i' t H1 NE) in H2. discriminate. }
    rewrite H in H1. injection H1 as <-. injection H2 as <- <-. exists o. constructor; cbn [ps_threads ps_tab].
    + erewrite map_update_same; eauto.
    + erewrite map_update_same; eauto.
    + exists st. split; auto. right. exists i, (mkPT (Some (r, p')) q d), r, p'.
      rewrite update_same by (eapply nth_some; eauto). split; auto. split; auto. split.
      * intros j t Hj NE. cbn in Hj. apply nth_update in Hj. destruct Hj as [[E _]|[_ Hj]]; [congruence|]. eapply AL; eauto.
      * rewrite AR, (mstep_finish _ _ _ _ M). reflexivity.
  - (* done *)
    destruct TB as [(Z & _)|(i' & t & r' & p0 & H1 & H2 & H3 & AR)]; [specialize (Z i _ H); discriminate|].
    assert (i' = i) as ->.
    { destruct (Nat.eq_dec i' i) as [->|NE]; auto. rewrite (AL i' t H1 NE) in H2. discriminate. }
    rewrite H in H1. injection H1 as <-. injection H2 as <- <-. exists (o ++ [(r, Some j)]). constructor; cbn [ps_threads ps_tab].
    + rewrite map_update. cbn [pt_done]. apply sh_snoc; auto. rewrite nth_error_map, H. reflexivity.
    + erewrite map_update_same; eauto. unfold left. cbn. rewrite map_app, <- app_assoc. reflexivity.
    + exists st'. split.
      * rewrite !map_app. cbn. eapply ask_all_snoc; eauto. rewrite AR, (mstep_finish _ _ _ _ M). reflexivity.
      * left. split; auto. intros k t Hk. apply nth_update in Hk. destruct Hk as [[_ ->]|[NE Hk]]; auto. eapply AL; eauto.
Qed.

Lemma xinv_start : forall reqs, xinv reqs [] (pstart reqs).
Proof.
  intros reqs. constructor; cbn [ps_threads ps_tab pstart].
  - constructor. rewrite map_map. cbn. apply Forall_forall. intros x H. apply in_map_iff in H. destruct H as (? & <- & _). auto.
  - rewrite map_map. cbn. apply map_id.
  - exists istate0. split; auto. left. split; auto. intros i t H. rewrite nth_error_map in H. destruct (nth_error reqs i); [|discriminate]. injection H as <-. auto.
Qed.

Lemma xinv_steps : forall reqs s, xsteps test (pstart reqs) s -> exists o, xinv reqs o s.
Proof.
  intros reqs s H. remember (pstart reqs) as s0 eqn:E. induction H as [s|s i s' s'' H IH AL ST].
  - subst. exists []. apply xinv_start.
  - destruct (IH E) as (o & I). eapply xinv_step; eauto.
Qed.

Lemma shares_in : forall l o, shares l o -> forall i d x, nth_error l i = Some d -> In x d -> In x o.
Proof.
  intros l o S. induction S as [l F|l o i d x S IH H]; intros j d' y Hj I.
  - rewrite Forall_forall in F. apply nth_error_In in Hj. rewrite <- (F _ Hj) in I. destruct I.
  - apply in_or_app. apply nth_update in Hj. destruct Hj as [[-> ->]|[NE Hj]].
    + apply in_app_or in I. destruct I as [I|[<-|[]]]; [left; eauto|right; now left].
    + left. eauto.
Qed.

Lemma shares_from : forall l o, shares l o -> forall x, In x o -> exists i d, nth_error l i = Some d /\ In x d.
Proof.
  intros l o S. induction S as [l F|l o i d x S IH H]; intros y I; [destruct I|].
  apply in_app_or in I. destruct I as [I|[<-|[]]].
  - destruct (IH _ I) as (j & d' & Hj & Id). destruct (Nat.eq_dec j i) as [->|NE].
    + exists i, (d ++ [x]). rewrite update_same by (eapply nth_some; eauto). split; auto. rewrite H in Hj. injection Hj as <-. apply in_or_app. auto.
    + exists j, d'. rewrite update_other by auto. auto.
  - exists i, (d ++ [x]). rewrite update_same by (eapply nth_some; eauto). split; auto. apply in_or_app. right. now left.
Qed.

Lemma Forall2_combine : forall A B (R : A -> B -> Prop) (o : list (A * B)), Forall2 R (map fst o) (map snd o) -> forall x, In x o -> R (fst x) (snd x).
Proof. induction o as [|y o IH]; intros F x I; [destruct I|]. cbn in F. inversion F; subst. destruct I as [<-|I]; auto. Qed.

(** Requests that do not overlap are answered consistently. *)
Lemma exclusive_lemma : forall kf reqs s names types,
  Forall (request_ok kf) (concat reqs) -> tells_apart test (map request_text (concat reqs)) ->
  xsteps test (pstart reqs) s -> finished s -> emitted test (ps_tab s) names types ->
  map (fun t => map fst (pt_done t)) (ps_threads s) = reqs /\ NoDup names /\
  forall t r i, In t (ps_threads s) -> In (r, i) (pt_done t) -> answers names types r i.
Proof.
  intros kf reqs s names types OK TA R F EM. destruct (xinv_steps _ _ R) as (o & [SH LF (st & AK & TB)]).
  assert (DONE : map (fun t => map fst (pt_done t)) (ps_threads s) = reqs).
  { rewrite <- LF. apply map_ext_in. intros t It. unfold finished in F. rewrite Forall_forall in F. destruct (F _ It) as [F1 F2].
    unfold left. rewrite F1, F2. now rewrite app_nil_r. }
  assert (TS : ps_tab s = st).
  { destruct TB as [(_ & ->)|(i & t & r & p & H1 & H2 & _)]; auto. unfold finished in F. rewrite Forall_forall in F.
    apply nth_error_In in H1. destruct (F _ H1) as [F1 _]. congruence. }
  rewrite TS in EM.
  assert (SUB : forall r, In r (map fst o) -> In r (concat reqs)).
  { intros r I. apply in_map_iff in I. destruct I as (x & <- & I). destruct (shares_from _ _ SH _ I) as (i & d & Hi & Id).
    rewrite nth_error_map in Hi. destruct (nth_error (ps_threads s) i) as [t|] eqn:Ht; [|discriminate]. injection Hi as <-.
    apply in_concat. exists (map fst (pt_done t)). split; [|apply in_map; auto]. rewrite <- DONE. apply in_map_iff. exists t. split; auto. eapply nth_error_In; eauto. }
  destruct (requests_lemma test kf (map fst o) (map snd o) st names types) as (A & ND & _); auto.
  - rewrite Forall_forall in *. auto.
  - intros a b Ia Ib. apply TA; [clear Ib|clear Ia]; match goal with H : In _ _ |- _ => apply in_map_iff in H; destruct H as (r & <- & H); apply in_map; auto end.
  - split; auto. split; auto. intros t r i It I. apply In_nth_error in It. destruct It as (k & It).
    apply (Forall2_combine _ _ _ _ A (r, i)). eapply shares_in; eauto. rewrite nth_error_map, It. reflexivity.
Qed.

(** One thread is always alone. *)
Lemma one_alone : forall rs s, psteps test (pstart [rs]) s -> xsteps test (pstart [rs]) s /\ length (ps_threads s) = 1%nat.
Proof.
  intros rs s H. remember (pstart [rs]) as s0 eqn:E. induction H as [s|s i s' s'' H IH ST].
  - subst. split; [constructor|reflexivity].
  - destruct (IH E) as [X L]. assert (i = 0)%nat as ->.
    { destruct ST as [? ? ? ? ? ? Hn|? ? ? ? ? Hn|? ? ? ? ? ? ? ? Hn|? ? ? ? ? ? ? ? Hn]; cbn [ps_threads] in L; apply nth_some in Hn; lia. }
    split.
    + econstructor; eauto. intros j t Hj NE. exfalso. apply nth_some in Hj. lia.
    + destruct ST; cbn [ps_threads] in *; now rewrite update_length.
Qed.
End Par.
