(** Property C90: opening s-expression traces with a timeout.
    [polls o timeout tenth strict lag over n s]: open-file-timeout, for a file whose
    opening goes as [o] says, can be in state [s] after [n] steps; [lag] and
    [over] bound delays of the loop and of its sleeps. *)
From Verif Require Import BaseProofs Types CApi Lisp SexpDb SexpOpen.
Open Scope Z_scope.

(** In the states of the loop: how late it can be. *)
Lemma bound_lemma : forall o T tenth strict lag over n s s', 0 <= lag -> 0 <= over -> osteps o (Some T) tenth strict lag over n s s' ->
  match s with PTest t => t <= Z.max lag (T + over) | PClock t => t <= Z.max lag (T + over) + lag | PKill t | PEnd t _ _ => t <= Z.max lag (T + over) + 2 * lag end ->
  match s' with PTest t => t <= Z.max lag (T + over) | PClock t => t <= Z.max lag (T + over) + lag | PKill t | PEnd t _ _ => t <= Z.max lag (T + over) + 2 * lag end.
Proof.
  intros o T tenth strict lag over n s s' HL HO H. induction H as [s|n s s1 s2 S _ IH]; auto. intros I. apply IH. clear IH.
  destruct S; unfold remaining in *; try (destruct strict); lia.
Qed.

(** C90.  Whatever the file, open-file-timeout ends at the latest a few delays
    after the timeout, ... *)
Theorem C90_bounded : forall o T tenth strict lag over n t r fd, 0 <= lag -> 0 <= over ->
  polls o (Some T) tenth strict lag over n (PEnd t r fd) -> t <= Z.max lag (T + over) + 2 * lag.
Proof. intros o T tenth strict lag over n t r fd HL HO (t0 & I & H). apply (bound_lemma _ _ _ _ _ _ _ _ _ HL HO H). lia. Qed.
Print Assumptions C90_bounded.

(** ... it does end: it never gets stuck, and takes at most so many steps. *)
Theorem C90_ends : forall o T tenth strict lag over n s, 0 <= lag -> 0 <= over -> 0 < tenth ->
  polls o (Some T) tenth strict lag over n s ->
  Z.of_nat n <= 2 * Z.max 0 ((T + tenth - 1) / tenth) + 3 /\
  ((exists t r fd, s = PEnd t r fd) \/ exists s', ostep o (Some T) tenth strict lag over s s').
Proof.
  intros o T tenth strict lag over n s HL HO HT (t0 & I & H). split.
  - set (k := fun t => Z.max 0 ((T - t + tenth - 1) / tenth)).
    assert (KM : forall a b, a <= b -> k b <= k a). { intros a b L. unfold k. assert ((T - b + tenth - 1) / tenth <= (T - a + tenth - 1) / tenth) by (apply Z.div_le_mono; lia). lia. }
    assert (KD : forall a b, 0 < T - a -> a + Z.min tenth (T - a) <= b -> k b <= k a - 1).
    { intros a b P L. unfold k. assert (1 <= (T - a + tenth - 1) / tenth) by (apply Z.div_le_lower_bound; lia).
      assert ((T - b + tenth - 1) / tenth <= (T - a + tenth - 1) / tenth - 1); [|lia].
      destruct (Z.le_gt_cases tenth (T - a)).
      - rewrite Z.min_l in L by lia. replace (T - a + tenth - 1) with (T - (a + tenth) + tenth - 1 + 1 * tenth) by lia. rewrite Z.div_add by lia.
        assert ((T - b + tenth - 1) / tenth <= (T - (a + tenth) + tenth - 1) / tenth) by (apply Z.div_le_mono; lia). lia.
      - rewrite Z.min_r in L by lia. assert ((T - b + tenth - 1) / tenth <= (tenth - 1) / tenth) by (apply Z.div_le_mono; lia).
        rewrite (Z.div_small (tenth - 1)) in H2 by lia. lia. }
    set (mu := fun s => match s with PTest t => 2 * k t + 3 | PClock t => 2 * k t + 2 | PKill _ => 1 | PEnd _ _ _ => 0 end).
    assert (ST : forall s s', ostep o (Some T) tenth strict lag over s s' -> mu s' + 1 <= mu s).
    { intros a b S. destruct S as [t _|t t' _ L|t t' P L|t t' P L|t _|t _]; cbn [mu]; unfold remaining in *; try match goal with |- context [if strict then _ else _] => destruct strict end; cbn [mu];
        try (pose proof (KM t t' ltac:(lia))); try lia; try (unfold k; lia). pose proof (KD t t' P ltac:(lia)). lia. }
    assert (MU : forall n s s', osteps o (Some T) tenth strict lag over n s s' -> mu s' + Z.of_nat n <= mu s).
    { clear -ST. intros n s s' H. induction H as [s|n s s1 s2 S _ IH]; [lia|]. specialize (ST _ _ S). lia. }
    specialize (MU _ _ _ H). assert (0 <= mu s) by (destruct s; unfold mu, k; lia). pose proof (KM 0 t0 ltac:(lia)).
    assert (K0 : k 0 = Z.max 0 ((T + tenth - 1) / tenth)) by (unfold k; do 2 f_equal; lia). cbn [mu] in MU. lia.
  - destruct s as [t|t|t|t r lf]; [right|right|right|left; eauto].
    + destruct (alive o t) eqn:E; eexists; [apply (os_alive _ _ _ _ _ _ t t); auto; lia|apply os_dead; exact E].
    + destruct (Z.leb_spec (remaining (Some T) tenth t) 0); eexists; [apply os_give_up with (t' := t); auto; lia|].
      eapply os_sleep; eauto. split; [apply Z.le_refl|lia].
    + destruct (alive o t) eqn:E; eexists; [apply os_kill; exact E|apply os_late; exact E].
Qed.
Print Assumptions C90_ends.

(** A stream is only returned once the file is open, NIL only if it is not open
    when the time is up. *)
Theorem C90_result : forall o T tenth strict lag over n t r fd, polls o (Some T) tenth strict lag over n (PEnd t r fd) ->
  match r with
  | RStream => fd = false /\ exists d, op_end o = Some (d, GotStream) /\ d <= t
  | RError => exists d, op_end o = Some (d, GotError) /\ d <= t
  | RNil => forall d e, op_end o = Some (d, e) -> T < d
  | RDead => strict = true /\ exists d e, op_end o = Some (d, e) /\ T - lag < d <= t
  end.
Proof.
  intros o T tenth strict lag over n t r fd (t0 & I & H).
  assert (G : forall n s s', osteps o (Some T) tenth strict lag over n s s' ->
    match s with PTest _ => True | PClock t => forall d e, op_end o = Some (d, e) -> t - lag < d
      | PKill t => T <= t /\ (forall d e, op_end o = Some (d, e) -> T - lag < d)
      | PEnd t r fd => match r with
        | RStream => fd = false /\ exists d, op_end o = Some (d, GotStream) /\ d <= t
        | RError => exists d, op_end o = Some (d, GotError) /\ d <= t
        | RNil => forall d e, op_end o = Some (d, e) -> T < d
        | RDead => strict = true /\ exists d e, op_end o = Some (d, e) /\ T - lag < d <= t end end ->
    match s' with PTest _ => True | PClock t => forall d e, op_end o = Some (d, e) -> t - lag < d
      | PKill t => T <= t /\ (forall d e, op_end o = Some (d, e) -> T - lag < d)
      | PEnd t r fd => match r with
        | RStream => fd = false /\ exists d, op_end o = Some (d, GotStream) /\ d <= t
        | RError => exists d, op_end o = Some (d, GotError) /\ d <= t
        | RNil => forall d e, op_end o = Some (d, e) -> T < d
        | RDead => strict = true /\ exists d e, op_end o = Some (d, e) /\ T - lag < d <= t end end).
  { clear. intros n s s' H. induction H as [s|n s s1 s2 S _ IH]; auto. intros I. apply IH. clear IH.
    destruct S as [t A|t t' A L|t t' P L|t t' P L|t A|t A]; unfold alive, joined, remaining, is_stream in *; auto.
    - destruct (op_end o) as [[d []]|] eqn:E; try discriminate; apply Z.ltb_ge in A; eauto.
    - intros d e E. rewrite E in A. apply Z.ltb_lt in A. lia.
    - split; [lia|]. intros d e E. specialize (I d e E). lia.
    - intros d e E. rewrite E in A. apply Z.ltb_lt in A. lia.
    - destruct I as [I1 I2]. destruct (op_end o) as [[d e]|] eqn:E; [|discriminate]. apply Z.ltb_ge in A. destruct strict; [|destruct e; eauto].
      split; auto. exists d, e. split; auto. specialize (I2 d e eq_refl). lia. }
  apply (G _ _ _ H). exact Logic.I.
Qed.
Print Assumptions C90_result.

(** A file that is open before the timeout, up to a delay, is returned (or the
    error of opening it signalled) soon after it is open. *)
Theorem C90_in_time : forall o T tenth strict lag over n t r fd d e, 0 <= lag -> 0 <= over -> 0 < tenth ->
  op_end o = Some (d, e) -> 0 <= d -> d + lag < T ->
  polls o (Some T) tenth strict lag over n (PEnd t r fd) ->
  r = match e with GotStream => RStream | GotError => RError end /\ fd = false /\ t <= d + lag + tenth + over.
Proof.
  intros o T tenth strict lag over n t r fd d e HL HO HT E D0 DT (t0 & I & H).
  assert (G : forall n s s', osteps o (Some T) tenth strict lag over n s s' ->
    match s with PTest t => t <= d + lag + tenth + over | PClock t => t < d + lag | PKill _ => False
      | PEnd t r fd => r = match e with GotStream => RStream | GotError => RError end /\ fd = false /\ t <= d + lag + tenth + over end ->
    match s' with PTest t => t <= d + lag + tenth + over | PClock t => t < d + lag | PKill _ => False
      | PEnd t r fd => r = match e with GotStream => RStream | GotError => RError end /\ fd = false /\ t <= d + lag + tenth + over end).
  { clear -HL HO HT E DT. intros n s s' H. induction H as [s|n s s1 s2 S _ IH]; auto. intros I. apply IH. clear IH.
    destruct S as [t A|t t' A L|t t' P L|t t' P L|t A|t A]; unfold alive, joined, remaining in *; rewrite ?E in *; try contradiction; try lia.
    destruct e; auto. }
  apply (G _ _ _ H). lia.
Qed.
Print Assumptions C90_in_time.

(** Without a timeout the file is waited for: the loop ends only when it is open
    or opening it has failed. *)
Theorem C90_no_timeout : forall o tenth strict lag over n t r fd, 0 < tenth ->
  polls o None tenth strict lag over n (PEnd t r fd) ->
  fd = false /\ exists d e, op_end o = Some (d, e) /\ d <= t /\ r = match e with GotStream => RStream | GotError => RError end.
Proof.
  intros o tenth strict lag over n t r fd HT (t0 & I & H).
  assert (G : forall n s s', osteps o None tenth strict lag over n s s' ->
    match s with PTest _ | PClock _ => True | PKill _ => False
      | PEnd t r fd => fd = false /\ exists d e, op_end o = Some (d, e) /\ d <= t /\ r = match e with GotStream => RStream | GotError => RError end end ->
    match s' with PTest _ | PClock _ => True | PKill _ => False
      | PEnd t r fd => fd = false /\ exists d e, op_end o = Some (d, e) /\ d <= t /\ r = match e with GotStream => RStream | GotError => RError end end).
  { clear -HT. intros n s s' H. induction H as [s|n s s1 s2 S _ IH]; auto. intros I. apply IH. clear IH.
    destruct S as [t A|t t' A L|t t' P L|t t' P L|t A|t A]; unfold alive, joined, remaining in *; try contradiction; try lia; auto.
    destruct (op_end o) as [[d []]|]; [| |discriminate]; apply Z.ltb_ge in A; eauto 6. }
  apply (G _ _ _ H). exact Logic.I.
Qed.
Print Assumptions C90_no_timeout.

(** add-trace: with a stream, what C86 says, and the file is closed afterwards,
    also if reading fails; after a timeout nothing is added, and no error is
    signalled. *)
Theorem C90_add : forall A (w : sworld A) i max m fd s,
  add_file A w i max m RNil fd s = (Ok w, fd) /\
  add_file A w i max m RError fd s = (Throw ELisp, fd) /\
  fst (add_file A w i max m RStream fd s) = add_stream A w i max s m /\
  (add_stream A w i max s m <> Diverge -> snd (add_file A w i max m RStream false s) = false).
Proof.
  intros A w i max m fd s. split; [reflexivity|]. split; [reflexivity|]. split; [reflexivity|]. intros H. cbn. destruct (add_stream A w i max s m); auto. congruence.
Qed.
Print Assumptions C90_add.

(** A file that is open after 3 units, with a timeout of 200 and naps of 100:
    returned at 105. *)
Example C90_ex : polls (mkOp (Some 2) (Some (3, GotStream))) (Some 200) 100 true 5 10 3 (PEnd 105 RStream false).
Proof.
  exists 1. split; [lia|]. eapply ot_step; [apply (os_alive _ _ _ _ _ _ 1 2); [reflexivity|lia]|].
  eapply ot_step; [apply (os_sleep _ _ _ _ _ _ 2 105); unfold remaining; lia|].
  eapply ot_step; [apply os_dead; reflexivity|]. apply ot_refl.
Qed.
(** A pipe that nobody writes to: NIL after the timeout. *)
Example C90_ex_nil : polls (mkOp None None) (Some 150) 100 true 5 10 7 (PEnd 153 RNil false).
Proof.
  exists 0. split; [lia|]. eapply ot_step; [apply (os_alive _ _ _ _ _ _ 0 1); [reflexivity|lia]|].
  eapply ot_step; [apply (os_sleep _ _ _ _ _ _ 1 102); unfold remaining; lia|].
  eapply ot_step; [apply (os_alive _ _ _ _ _ _ 102 102); [reflexivity|lia]|].
  eapply ot_step; [apply (os_sleep _ _ _ _ _ _ 102 151); unfold remaining; lia|].
  eapply ot_step; [apply (os_alive _ _ _ _ _ _ 151 152); [reflexivity|lia]|].
  eapply ot_step; [apply (os_give_up _ _ _ _ _ _ 152 153); unfold remaining; lia|].
  eapply ot_step; [apply (os_kill _ _ _ _ _ _ 153); reflexivity|]. apply ot_refl.
Qed.

(** Expected: as for binary traces, timeout 0 means no timeout, or at least files
    that are there are read.  False: with timeout 0 no file is returned that is
    not open before the loop begins; so add-trace adds nothing. *)
Theorem C90_zero_refuted : forall o T tenth strict over n t0 t r fd, T <= 0 -> 0 <= t0 -> alive o t0 = true ->
  osteps o (Some T) tenth strict 0 over n (PTest t0) (PEnd t r fd) -> r = RNil.
Proof.
  intros o T tenth strict over n t0 t r fd HT H0 A H.
  inversion H as [|? ? ? ? S1 H1]; subst. inversion S1 as [? A1|? ? A1 L1| | | |]; subst; [congruence|]. assert (t' = t0) by lia. subst t'.
  inversion H1 as [|? ? ? ? S2 H2]; subst. inversion S2 as [| |? ? P2 L2|? ? P2 L2| |]; subst; unfold remaining in P2; [lia|]. assert (t' = t0) by lia. subst t'.
  inversion H2 as [|? ? ? ? S3 H3]; subst. inversion S3 as [| | | |? A3|? A3]; subst; [|congruence].
  inversion H3 as [|? ? ? ? S4 H4]; subst; auto. inversion S4.
Qed.
Print Assumptions C90_zero_refuted.

(** Expected: a file that is open within the timeout is read.  False: if it is
    just opened between the test and the call of destroy-thread, SBCL signals an
    error, and the stream is lost without being closed. *)
Theorem C90_race_refuted : exists o T tenth lag over n t d, op_end o = Some (d, GotStream) /\ d < T /\ d <= t /\
  polls o (Some T) tenth true lag over n (PEnd t RDead true).
Proof.
  exists (mkOp (Some 40) (Some (49, GotStream))), 50, 48, 2, 0, 5%nat, 52, 49. split; [reflexivity|]. split; [lia|]. split; [lia|].
  exists 0. split; [lia|]. eapply ot_step; [apply (os_alive _ _ _ _ _ _ 0 0); [reflexivity|lia]|].
  eapply ot_step; [apply (os_sleep _ _ _ _ _ _ 0 48); unfold remaining; lia|].
  eapply ot_step; [apply (os_alive _ _ _ _ _ _ 48 50); [reflexivity|lia]|].
  eapply ot_step; [apply (os_give_up _ _ _ _ _ _ 50 52); unfold remaining; lia|].
  eapply ot_step; [apply (os_late _ _ _ true _ _ 52); reflexivity|]. apply ot_refl.
Qed.
Print Assumptions C90_race_refuted.

(** Expected: no descriptor is left open after a timeout.  False: the thread may
    be destroyed inside OPEN, after the file was opened. *)
Theorem C90_leak_refuted : exists o T tenth lag over n t, polls o (Some T) tenth true lag over n (PEnd t RNil true).
Proof.
  exists (mkOp (Some 49) (Some (60, GotStream))), 50, 50, 2, 0, 5%nat, 52.
  exists 0. split; [lia|]. eapply ot_step; [apply (os_alive _ _ _ _ _ _ 0 0); [reflexivity|lia]|].
  eapply ot_step; [apply (os_sleep _ _ _ _ _ _ 0 50); unfold remaining; lia|].
  eapply ot_step; [apply (os_alive _ _ _ _ _ _ 50 51); [reflexivity|lia]|].
  eapply ot_step; [apply (os_give_up _ _ _ _ _ _ 51 52); unfold remaining; lia|].
  eapply ot_step; [apply (os_kill _ _ _ true _ _ 52); reflexivity|]. apply ot_refl.
Qed.
Print Assumptions C90_leak_refuted.

(** These are the only two ways: a descriptor is left open exactly if the thread
    is destroyed inside OPEN, or found to have ended when it is to be destroyed. *)
Theorem C90_left : forall o T tenth strict lag over n t r, polls o (Some T) tenth strict lag over n (PEnd t r true) ->
  T <= t /\ ((r = RNil /\ exists f, op_fd o = Some f /\ f <= t) \/
             (r = RDead /\ strict = true /\ exists d, op_end o = Some (d, GotStream) /\ T - lag < d <= t)).
Proof.
  intros o T tenth strict lag over n t r P. pose proof (C90_result _ _ _ _ _ _ _ _ _ _ P) as R.
  destruct P as (t0 & I & H).
  assert (G : forall n s s', osteps o (Some T) tenth strict lag over n s s' ->
     match s with PKill t => T <= t | PEnd t r true => T <= t /\ (r = RNil /\ has_fd o t = true \/ r = RDead /\ is_stream o = true) | _ => True end ->
     match s' with PKill t => T <= t | PEnd t r true => T <= t /\ (r = RNil /\ has_fd o t = true \/ r = RDead /\ is_stream o = true) | _ => True end).
  { clear. intros n s s' H. induction H as [s|n s s1 s2 S _ IH]; auto. intros I. apply IH. clear IH.
    destruct S as [t A|t t' A L|t t' P L|t t' P L|t A|t A]; auto.
    - unfold remaining in P. lia.
    - destruct (has_fd o t) eqn:E; auto.
    - destruct strict; auto. destruct (is_stream o) eqn:E; auto. }
  specialize (G _ _ _ H Logic.I). cbv beta iota in G. destruct G as [G1 [[-> G2]|[-> G2]]]; split; auto.
  - left. split; auto. unfold has_fd in G2. destruct (op_fd o) as [f|]; [|discriminate]. apply Z.leb_le in G2. eauto.
  - right. split; auto. destruct R as (R1 & d & e & E & L). split; auto. unfold is_stream in G2. rewrite E in G2. destruct e; [|discriminate]. eauto.
Qed.
Print Assumptions C90_left.
