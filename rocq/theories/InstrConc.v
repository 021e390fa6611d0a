(** Threads logging points under the lock: proofs. *)
From Verif Require Import BaseProofs Types Instr InstrRun InstrSpec.

(** ** Lists *)
Lemma update_length : forall A (l : list A) i x, length (update l i x) = length l.
Proof. induction l; destruct i; cbn; auto. Qed.
Lemma update_same : forall A (l : list A) i x, (i < length l)%nat -> nth_error (update l i x) i = Some x.
Proof. induction l; destruct i; cbn; intros; auto; try lia. apply IHl. lia. Qed.
Lemma update_other : forall A (l : list A) i j x, i <> j -> nth_error (update l i x) j = nth_error l j.
Proof. induction l; destruct i, j; cbn; intros; auto; try lia. Qed.
Lemma update_update : forall A (l : list A) i x y, update (update l i x) i y = update l i y.
Proof. induction l; destruct i; cbn; intros; auto. f_equal; auto. Qed.
Lemma update_id : forall A (l : list A) i x, nth_error l i = Some x -> update l i x = l.
Proof. induction l; destruct i; cbn; intros; try discriminate; auto; try congruence. f_equal; auto. Qed.
Lemma map_update : forall A B (f : A -> B) l i x, map f (update l i x) = update (map f l) i (f x).
Proof. induction l; destruct i; cbn; intros; auto. f_equal; auto. Qed.
Lemma nth_some : forall A (l : list A) i x, nth_error l i = Some x -> (i < length l)%nat.
Proof. intros. apply nth_error_Some. congruence. Qed.

(** ** Taking elements from several lists *)
Inductive taken {A} : list (list A) -> list A -> list (list A) -> Prop :=
| tk_nil : forall ll, taken ll [] ll
| tk_snoc : forall ll o ll' i x r, taken ll o ll' -> nth_error ll' i = Some (x :: r) ->
    taken ll (o ++ [x]) (update ll' i r).

Lemma taken_merge : forall A (ll : list (list A)) o ll', taken ll o ll' -> forall l, merge ll' l -> merge ll (o ++ l).
Proof.
  induction 1; intros l M; auto. rewrite <- app_assoc. cbn. apply IHtaken.
  eapply mg_cons; eauto.
Qed.

Lemma merge_total : forall A n (ll : list (list A)), length (concat ll) = n -> exists l, merge ll l.
Proof.
  induction n; intros ll E.
  - exists []. constructor. apply Forall_forall. intros x Hx.
    apply in_split in Hx. destruct Hx as (a & b & ->). rewrite concat_app in E. cbn in E.
    rewrite !app_length in E. destruct x; auto. cbn in E. lia.
  - assert (X : exists i x r, nth_error ll i = Some (x :: r)).
    { clear IHn. revert E. induction ll as [|l ll IH]; cbn; intros E; [discriminate|].
      destruct l as [|x r].
      - destruct (IH E) as (i & x & r & H). exists (S i), x, r. auto.
      - exists O, x, r. auto. }
    destruct X as (i & x & r & H).
    destruct (IHn (update ll i r)) as (l & M).
    + clear IHn. revert n i E H. induction ll as [|y ll IH]; intros n i E H; [destruct i; discriminate|].
      destruct i; cbn in *.
      * injection H as ->. cbn in E. lia.
      * rewrite app_length in *. destruct (length (concat ll)) eqn:L.
        { exfalso. apply nth_error_In in H. apply in_split in H. destruct H as (a & b & ->).
          rewrite concat_app in L. cbn in L. rewrite !app_length in L. cbn in L. lia. }
        rewrite (IH n0 i); auto. lia.
    + exists (x :: l). eapply mg_cons; eauto.
Qed.

(** ** Points as the threads log them *)
Definition point_shape (p : list action) : Prop :=
  exists ws, p = ALock :: map AWrite ws ++ [AFlush; AUnlock].

Definition wr (o : list (list action)) : list byte := concat (map written o).

Lemma wr_snoc : forall o p, wr (o ++ [p]) = wr o ++ written p.
Proof. intros. unfold wr. rewrite map_app, concat_app. cbn. now rewrite app_nil_r. Qed.

Lemma written_app : forall a b, written (a ++ b) = written a ++ written b.
Proof. intros. unfold written. now rewrite map_app, concat_app. Qed.

(** State of the threads: [o] are the points logged so far. *)
Inductive inv (ths : list (list (list action))) (out0 : list byte) (o : list (list action)) (s : rstate) : Prop :=
| inv_free : forall rem,
    taken ths o rem -> Forall (Forall point_shape) rem ->
    r_lock s = None -> r_threads s = map (@concat action) rem -> r_out s = out0 ++ wr o ->
    r_disk s <= lenN (r_out s) -> (o <> [] -> r_disk s = lenN (r_out s)) ->
    inv ths out0 o s
| inv_held : forall rem i p r pre post,
    taken ths o rem -> Forall (Forall point_shape) rem ->
    nth_error rem i = Some (p :: r) -> p = pre ++ post ->
    (exists ws fl, post = map AWrite ws ++ fl ++ [AUnlock] /\ (fl = [AFlush] \/ fl = [] /\ ws = [] /\ r_disk s = lenN (r_out s))) ->
    r_lock s = Some i ->
    r_threads s = update (map (@concat action) rem) i (post ++ concat r) ->
    r_out s = out0 ++ wr o ++ written pre ->
    r_disk s <= lenN (r_out s) -> (o <> [] -> lenN (out0 ++ wr o) <= r_disk s) ->
    inv ths out0 o s.

Lemma Forall_update : forall A (P : A -> Prop) l i x, Forall P l -> P x -> Forall P (update l i x).
Proof. induction l; destruct i; cbn; intros x H Hx; inversion H; subst; auto. Qed.

(** What a thread outside of a point does next. *)
Lemma next_outside : forall rem j a q, Forall (Forall point_shape) rem ->
  nth_error (map (@concat action) rem) j = Some (a :: q) ->
  exists p r q', nth_error rem j = Some (p :: r) /\ p = ALock :: q' /\ a = ALock /\ q = q' ++ concat r /\
    exists ws, q' = map AWrite ws ++ [AFlush; AUnlock].
Proof.
  intros rem j a q HS E. rewrite nth_error_map in E. destruct (nth_error rem j) as [ps|] eqn:N; [|discriminate].
  cbn in E. injection E as E.
  assert (F : Forall point_shape ps) by (rewrite Forall_forall in HS; apply HS; eapply nth_error_In; eauto).
  destruct ps as [|p r]; [discriminate|]. inversion F as [|? ? (ws & ->) ?]; subst.
  cbn in E. injection E as <- <-. exists (ALock :: map AWrite ws ++ [AFlush; AUnlock]), r, (map AWrite ws ++ [AFlush; AUnlock]).
  conj_split; eauto.
Qed.

Lemma inv_step : forall ths out0 o s s', inv ths out0 o s -> rstep s s' ->
  exists o', inv ths out0 o' s' /\ exists more, o' = o ++ more.
Proof.
  intros ths out0 o s s' I ST.
  destruct I as [rem TK HS LK TH OUT D1 D2 | rem i p r pre post TK HS NP EP PO LK TH OUT D1 D2].
  - (* lock free *)
    inversion ST as [out d ths' j q E|lk out d ths' j q E|lk out d ths' j bs q E|lk out d ths' j q E|lk out d ths' d' L1 L2]; subst; cbn in *; subst.
    + destruct (next_outside _ _ _ _ HS E) as (p & r & q' & N & EP & _ & EQ & ws & EW).
      exists o. split; [|exists []; now rewrite app_nil_r].
      eapply (inv_held ths out0 o _ rem j p r [ALock] q'); cbn; eauto.
      * exists ws, [AFlush]. split; auto.
      * now rewrite EQ.
      * unfold written. cbn. now rewrite app_nil_r.
      * intros. rewrite D2; auto. lia.
    + destruct (next_outside _ _ _ _ HS E) as (? & ? & ? & _ & _ & X & _). discriminate X.
    + destruct (next_outside _ _ _ _ HS E) as (? & ? & ? & _ & _ & X & _). discriminate X.
    + destruct (next_outside _ _ _ _ HS E) as (? & ? & ? & _ & _ & X & _). discriminate X.
    + exists o. split; [|exists []; now rewrite app_nil_r].
      eapply inv_free; cbn; eauto. intros H. specialize (D2 H). lia.
  - (* lock held by i *)
    assert (Li : (i < length (map (@concat action) rem))%nat) by (rewrite map_length; eapply nth_some; eauto).
    inversion ST as [out d ths' j q E|lk out d ths' j q E|lk out d ths' j bs q E|lk out d ths' j q E|lk out d ths' d' L1 L2]; subst; cbn in *; subst; try discriminate LK.
    + destruct (Nat.eq_dec i j) as [<-|NE].
      2:{ rewrite update_other in E by auto. destruct (next_outside _ _ _ _ HS E) as (? & ? & ? & _ & _ & X & _). discriminate X. }
      rewrite update_same in E by auto. injection E as E.
      destruct PO as (ws & fl & -> & HF). destruct ws as [|w ws]; [|discriminate E].
      destruct HF as [->|[-> [_ DD]]]; [discriminate E|]. cbn in E. injection E as <-.
      exists (o ++ [pre ++ [AUnlock]]). split; [|eauto].
      eapply (inv_free ths out0 _ _ (update rem i r)); cbn; eauto.
      * econstructor; eauto.
      * apply Forall_update; auto. rewrite Forall_forall in HS. apply nth_error_In in NP. apply HS in NP. inversion NP; auto.
      * rewrite update_update, map_update. reflexivity.
      * rewrite wr_snoc, written_app. cbn. now rewrite app_nil_r.
    + destruct (Nat.eq_dec i j) as [<-|NE].
      2:{ rewrite update_other in E by auto. destruct (next_outside _ _ _ _ HS E) as (? & ? & ? & _ & _ & X & _). discriminate X. }
      rewrite update_same in E by auto. injection E as E.
      destruct PO as (ws & fl & -> & HF). destruct ws as [|w ws].
      { destruct HF as [->|[-> _]]; discriminate E. }
      cbn in E. injection E as -> <-.
      exists o. split; [|exists []; now rewrite app_nil_r].
      eapply (inv_held ths out0 o _ rem i _ r (pre ++ [AWrite bs]) (map AWrite ws ++ fl ++ [AUnlock])); cbn; eauto.
      * rewrite <- app_assoc. reflexivity.
      * exists ws, fl. split; auto. destruct HF as [->|(-> & X & _)]; [auto|discriminate X].
      * rewrite update_update. reflexivity.
      * rewrite written_app. cbn. rewrite !app_nil_r. now rewrite <- !app_assoc.
      * rewrite lenN_app. lia.
    + destruct (Nat.eq_dec i j) as [<-|NE].
      2:{ rewrite update_other in E by auto. destruct (next_outside _ _ _ _ HS E) as (? & ? & ? & _ & _ & X & _). discriminate X. }
      rewrite update_same in E by auto. injection E as E.
      destruct PO as (ws & fl & -> & HF). destruct ws as [|w ws]; [|discriminate E].
      destruct HF as [->|[-> _]]; [|discriminate E]. cbn in E. injection E as <-.
      exists o. split; [|exists []; now rewrite app_nil_r].
      eapply (inv_held ths out0 o _ rem i _ r (pre ++ [AFlush]) [AUnlock]); cbn; eauto.
      * rewrite <- app_assoc. reflexivity.
      * exists [], []. split; auto.
      * rewrite update_update. reflexivity.
      * rewrite written_app. cbn. now rewrite app_nil_r.
      * lia.
      * intros _. rewrite !lenN_app. lia.
    + exists o. split; [|exists []; now rewrite app_nil_r].
      eapply (inv_held ths out0 o _ rem i _ r pre post); cbn; eauto.
      * destruct PO as (ws & fl & -> & [->|(-> & -> & DD)]).
        -- exists ws, [AFlush]. auto.
        -- exists [], []. split; auto. right. repeat split; auto. lia.
      * intros H. specialize (D2 H). lia.
Qed.

Lemma inv_steps : forall ths out0 o s s', rsteps s s' -> inv ths out0 o s ->
  exists o', inv ths out0 o' s' /\ exists more, o' = o ++ more.
Proof.
  induction 1 as [|s s' s'' _ IH ST]; intros I; eauto.
  - exists o. split; auto. exists []. now rewrite app_nil_r.
  - destruct (IH I) as (o1 & I1 & m1 & ->). destruct (inv_step _ _ _ _ _ I1 ST) as (o2 & I2 & m2 & ->).
    exists ((o ++ m1) ++ m2). split; auto. exists (m1 ++ m2). now rewrite app_assoc.
Qed.

Lemma inv_start : forall ths names types, Forall (Forall point_shape) ths ->
  inv ths (written (write_trace_header names types)) [] (rstart names types (map (@concat action) ths)).
Proof.
  intros. apply (inv_free _ _ _ _ ths); cbn; auto.
  - constructor.
  - unfold wr. cbn. now rewrite app_nil_r.
  - lia.
  - congruence.
Qed.

(** When all threads have finished, the log is the header and the points. *)
Lemma finished_lemma : forall ths names types s, Forall (Forall point_shape) ths ->
  rsteps (rstart names types (map (@concat action) ths)) s -> Forall (eq []) (r_threads s) ->
  exists o, merge ths o /\ r_out s = written (write_trace_header names types) ++ wr o /\
    r_lock s = None /\ (o <> [] -> r_disk s = lenN (r_out s)).
Proof.
  intros ths names types s HS R F. destruct (inv_steps _ _ _ _ _ R (inv_start ths names types HS)) as (o & I & _).
  destruct I as [rem TK HS' LK TH OUT D1 D2 | rem i p r pre post TK HS' NP EP PO LK TH OUT D1 D2].
  - exists o. split; [|auto]. rewrite <- (app_nil_r o). eapply taken_merge; eauto. constructor.
    rewrite TH in F. apply Forall_forall. intros x Hx. rewrite Forall_forall in F, HS'.
    specialize (F (concat x) (in_map _ _ _ Hx)). specialize (HS' x Hx). destruct x as [|p r]; auto.
    inversion HS' as [|? ? (ws & ->) ?]; subst. discriminate F.
  - exfalso. rewrite TH in F. rewrite Forall_forall in F.
    assert (X : In (post ++ concat r) (update (map (@concat action) rem) i (post ++ concat r))).
    { eapply nth_error_In. apply update_same. rewrite map_length. eapply nth_some; eauto. }
    apply F in X. destruct PO as (ws & fl & -> & _). symmetry in X. apply app_eq_nil in X. destruct X as [X _].
    apply app_eq_nil in X. destruct X as [_ X]. apply app_eq_nil in X. destruct X; discriminate.
Qed.

(** At any moment: the points logged so far, then the beginning of one point. *)
Lemma anytime_lemma : forall ths names types s, Forall (Forall point_shape) ths ->
  rsteps (rstart names types (map (@concat action) ths)) s ->
  exists o rest part, merge ths (o ++ rest) /\
    r_out s = written (write_trace_header names types) ++ wr o ++ part /\
    (part <> [] -> exists p rest' more, rest = p :: rest' /\ written p = part ++ more) /\
    (r_lock s = None -> part = []) /\
    r_disk s <= lenN (r_out s) /\
    (o <> [] -> lenN (written (write_trace_header names types) ++ wr o) <= r_disk s).
Proof.
  intros ths names types s HS R. destruct (inv_steps _ _ _ _ _ R (inv_start ths names types HS)) as (o & I & _).
  destruct I as [rem TK HS' LK TH OUT D1 D2 | rem i p r pre post TK HS' NP EP PO LK TH OUT D1 D2].
  - destruct (merge_total _ _ rem eq_refl) as (rest & M).
    exists o, rest, []. conj_split; auto.
    + eapply taken_merge; eauto.
    + now rewrite app_nil_r.
    + congruence.
    + intros H. rewrite <- OUT, D2; auto. lia.
  - destruct (merge_total _ _ (update rem i r) eq_refl) as (rest & M).
    exists o, (p :: rest), (written pre). conj_split; auto.
    + eapply taken_merge; eauto. eapply mg_cons; eauto.
    + intros _. exists p, rest, (written post). split; auto. subst p. apply written_app.
    + congruence.
Qed.

(** Some thread can always go on. *)
Lemma progress_lemma : forall ths names types s, Forall (Forall point_shape) ths ->
  rsteps (rstart names types (map (@concat action) ths)) s -> ~ Forall (eq []) (r_threads s) ->
  exists s', rstep s s' /\ length (concat (r_threads s)) = S (length (concat (r_threads s'))).
Proof.
  intros ths names types s HS R F. destruct (inv_steps _ _ _ _ _ R (inv_start ths names types HS)) as (o & I & _).
  assert (CNT : forall l i (a : action) q, nth_error l i = Some (a :: q) ->
    length (concat l) = S (length (concat (update l i q)))).
  { induction l as [|x l IH]; destruct i; cbn; intros a q H; try discriminate.
    - injection H as ->. cbn. reflexivity.
    - rewrite !app_length. rewrite (IH _ _ _ H). lia. }
  destruct s as [lk out d th]. cbn in F.
  destruct I as [rem TK HS' LK TH OUT D1 D2 | rem i p r pre post TK HS' NP EP PO LK TH OUT D1 D2]; cbn in *; subst lk.
  - assert (X : exists j a q, nth_error th j = Some (a :: q)).
    { clear -F. induction th as [|x th IH]; [contradiction F; constructor|].
      destruct x as [|a q]; [|exists O, a, q; reflexivity].
      destruct IH as (j & a & q & H); [|exists (S j), a, q; auto].
      intros G. apply F. constructor; auto. }
    destruct X as (j & a & q & E). rewrite TH in E. destruct (next_outside _ _ _ _ HS' E) as (_ & _ & _ & _ & _ & -> & _).
    rewrite <- TH in E. eexists. split; [eapply st_lock; eauto|]. cbn. eapply CNT; eauto.
  - assert (Li : (i < length (map (@concat action) rem))%nat) by (rewrite map_length; eapply nth_some; eauto).
    assert (X : exists a q, nth_error th i = Some (a :: q) /\ a <> ALock).
    { rewrite TH, update_same by auto. destruct PO as (ws & fl & -> & HF). destruct ws as [|w ws].
      - destruct HF as [->|[-> _]]; eexists; eexists; (split; [reflexivity|discriminate]).
      - eexists; eexists; (split; [reflexivity|discriminate]). }
    destruct X as (a & q & E & NA). destruct a; try congruence.
    + eexists. split; [eapply st_unlock; eauto|]. cbn. eapply CNT; eauto.
    + eexists. split; [eapply st_write; eauto|]. cbn. eapply CNT; eauto.
    + eexists. split; [eapply st_flush; eauto|]. cbn. eapply CNT; eauto.
Qed.
