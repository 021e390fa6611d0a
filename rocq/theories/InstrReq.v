(** Requests to the tables of names and types: proofs. *)
From Coq Require Import Strings.String Permutation.
From Verif Require Import BaseProofs Types Compare PrintPred FormatSpec Instr InstrRun InstrSpec InstrText InstrTable InstrProofs.

Section Req.
Variable test : name -> name -> bool.
Variable kf : name -> skind.
Variable texts : name -> Prop.
Hypothesis AG : forall a b, texts a -> texts b -> (test a b = true <-> a = b).

Definition keys_of (st : istate) : list tkey := map fst (i_types st).

Lemma keys_ext : forall a b, ext a b -> exists x, keys_of b = keys_of a ++ x.
Proof. intros a b (_ & (x & E) & _). exists (map fst x). unfold keys_of. now rewrite E, map_app. Qed.

Lemma type_key : forall t f size ps st i st', sinv texts kf st -> type_ok kf t -> texts (type_text t) ->
  get_type_index test t f size ps st = (i, st') -> nthN (keys_of st') i = Some (string_flag t ps, type_text t).
Proof.
  intros t f size ps st i st' I OK T E. unfold get_type_index in E. rewrite (type_trace_string_text _ _ OK) in E.
  destruct (gethash (key_test test) (string_flag t ps, type_text t) (i_types st)) as [j|] eqn:G.
  - injection E as -> ->. apply (gethash_some _ _ (AGK _ _ AG)) in G; [|apply I|exact T].
    destruct (in_numbered _ _ _ _ (si_tum _ _ _ I) G) as (q & Q1 & Q2). injection Q1 as <-.
    unfold keys_of. now rewrite nthN_map, Q2.
  - unfold type_description_struct in E. destruct (get_name_index test (type_text t) st) as [ni st1] eqn:GN.
    destruct (get_name_index_spec _ _ AG kf _ _ _ _ I T GN) as (I1 & X1 & NN & TE & DE & NI).
    cbn [i_names i_types i_descs] in E. rewrite TE, DE in E. rewrite (puthash_new _ _ _ _ G) in E. injection E as <- <-.
    unfold keys_of. cbn [i_types]. rewrite map_app, nthN_app2 by (rewrite lenN_map; lia). rewrite lenN_map, N.sub_diag. reflexivity.
Qed.

(** What an answer means in a table. *)
Definition ans (st : istate) (r : request) (i : option N) : Prop :=
  answers (names_of st) (types_of st) r i /\
  match r, i with
  | RType t ps, Some i => nthN (keys_of st) i = Some (string_flag t ps, type_text t)
  | _, _ => True
  end.

Lemma ans_ext : forall a b r i, ext a b -> ans a r i -> ans b r i.
Proof.
  intros a b r i X (A & B). destruct (names_ext _ _ X) as (x & E1). destruct (types_ext _ _ X) as (y & E2). destruct (keys_ext _ _ X) as (z & E3).
  unfold ans. rewrite E1, E2, E3. destruct r as [n|t ps], i as [i|]; cbn in *; auto; (split; [|auto using nthN_ext]); auto using nthN_ext.
  destruct A as (d & k & A1 & A2 & A3 & A4). exists d, k. auto using nthN_ext.
Qed.

Lemma ask_spec : forall r st i st', sinv texts kf st -> request_ok kf r -> texts (request_text r) ->
  ask test r st = (i, st') -> sinv texts kf st' /\ ext st st' /\ ans st' r i.
Proof.
  intros [n|t ps] st i st' I OK T E; cbn in *.
  - destruct (get_name_index test n st) as [j s] eqn:G. injection E as <- <-.
    destruct (get_name_index_spec _ _ AG kf _ _ _ _ I T G) as (I1 & X1 & NN & _). split; auto. split; auto. split; auto.
  - destruct OK as [OK C]. pose proof (fmt_kind _ _ _ OK C) as FK. destruct (type_format_and_size t ps) as [[f size]|] eqn:FS.
    + destruct (get_type_index test t f size ps st) as [j s] eqn:G. injection E as <- <-.
      pose proof (type_key _ _ _ _ _ _ _ I OK T G) as K.
      destruct (get_type_index_spec _ _ AG _ _ _ _ _ _ _ _ I OK C T FS G) as (I1 & X1 & (d & D1 & D2 & D3 & D4) & _).
      split; auto. split; auto. split; auto. destruct (kind_fn t) as [k|] eqn:KK; [|discriminate].
      exists d, k. split; auto. split; auto. split; [apply has_kind_fn; auto|].
      unfold log_format, fmt_of_kind in *. destruct (as_string ps k); [injection FK as -> ->; auto|].
      destruct k as [[]| | | | |]; try discriminate; injection FK as -> ->; auto.
    + injection E as <- <-. split; auto. split; [apply ext_refl|]. split; auto. cbn. intros k HK. apply has_kind_fn in HK. rewrite HK in FK.
      unfold fmt_of_kind in FK. destruct (as_string ps k) eqn:A; [discriminate|]. destruct k as [[]| | | | |]; try discriminate.
      unfold as_string in A. rewrite andb_true_r in A. auto.
Qed.

Lemma ask_all_spec : forall rs st is st', sinv texts kf st -> Forall (request_ok kf) rs -> Forall (fun r => texts (request_text r)) rs ->
  ask_all test rs st = (is, st') -> sinv texts kf st' /\ ext st st' /\ Forall2 (ans st') rs is.
Proof.
  induction rs as [|r rs IH]; intros st is st' I F T E; cbn [ask_all] in E.
  - injection E as <- <-. split; auto. split; [apply ext_refl|constructor].
  - inversion F; inversion T; subst. destruct (ask test r st) as [i st1] eqn:E1. destruct (ask_all test rs st1) as [js st2] eqn:E2. injection E as <- <-.
    destruct (ask_spec _ _ _ _ I H1 H5 E1) as (I1 & X1 & A1). destruct (IH _ _ _ I1 H2 H6 E2) as (I2 & X2 & A2).
    split; auto. split; [eapply ext_trans; eauto|]. constructor; auto. eapply ans_ext; eauto.
Qed.
End Req.

(** Arrays emitted after a sequence of requests. *)
Definition emitted (test : name -> name -> bool) (st : istate) (names : list name) (types : list tdesc) : Prop :=
  exists nal tal, Permutation nal (i_names st) /\ Permutation tal (i_descs st) /\
    names = emit_names nal /\ types = emit_types test (i_types st) tal.

Lemma requests_lemma : forall test kf rs is st names types,
  Forall (request_ok kf) rs -> tells_apart test (map request_text rs) ->
  ask_all test rs istate0 = (is, st) -> emitted test st names types ->
  Forall2 (answers names types) rs is /\ NoDup names /\ (forall n, In n names -> In n (map request_text rs)) /\
  (forall j k t ps i i', nth_error rs j = Some (RType t ps) -> nth_error rs k = Some (RType t ps) ->
     nth_error is j = Some (Some i) -> nth_error is k = Some (Some i') -> i = i').
Proof.
  intros test kf rs is st names types OK TA E (nal & tal & P1 & P2 & -> & ->).
  set (tx := fun n => In n (map request_text rs)).
  assert (AG : forall a b, tx a -> tx b -> (test a b = true <-> a = b)) by exact TA.
  assert (FT : Forall (fun r => tx (request_text r)) rs) by (apply Forall_forall; intros; apply in_map; auto).
  destruct (ask_all_spec test kf tx AG rs istate0 is st (sinv0 tx kf) OK FT E) as (I & _ & A).
  rewrite (emit_names_eq _ _ _ _ I P1), (emit_types_eq _ _ AG _ _ _ I P2). split; [|split; [|split]].
  - clear -A. induction A as [|r i rs is [X _] A IH]; constructor; auto.
  - apply I.
  - intros n Hn. pose proof (si_ndom _ _ _ I) as D. rewrite Forall_forall in D. apply D. exact Hn.
  - intros j k t ps i i' Hj Hk Ij Ik.
    assert (X : forall q x, nth_error rs q = Some (RType t ps) -> nth_error is q = Some (Some x) -> nthN (keys_of st) x = Some (string_flag t ps, type_text t)).
    { clear -A. intros q x. revert q. induction A as [|r i rs is H A IH]; intros [|q] H1 H2; cbn in *; try discriminate; eauto.
      injection H1 as ->. injection H2 as ->. apply H. }
    pose proof (X _ _ Hj Ij) as X1. pose proof (X _ _ Hk Ik) as X2.
    rewrite nthN_nth_error in X1, X2. apply N2Nat.inj. eapply (proj1 (NoDup_nth_error _) (si_tnd _ _ _ I)).
    + apply nth_error_Some. unfold keys_of in X1. congruence.
    + unfold keys_of in *. congruence.
Qed.

Lemma equal_tells : forall l, tells_apart equal_test l.
Proof. intros l a b _ _. unfold equal_test. apply beq. Qed.

Lemma equalp_tells : forall l, (forall a b, In a l -> In b l -> map upcase a = map upcase b -> a = b) -> tells_apart equalp_test l.
Proof. intros l H a b Ia Ib. unfold equalp_test. rewrite beq. split; auto. now intros ->. Qed.

(** ** Literals *)
Lemma c_chars_print : forall s rest, ~ In x0a s ->
  c_chars (concat (map (fun b => match b with x22 | x5c => [x5c; b] | _ => [b] end) s) ++ x22 :: rest) = Some (s, rest).
Proof.
  induction s as [|b s IH]; intros rest H; [reflexivity|].
  assert (H' : ~ In x0a s) by (intros X; apply H; right; auto).
  cbn [map concat]. rewrite <- app_assoc.
  assert (B : b <> x0a) by (intros ->; apply H; left; auto).
  specialize (IH rest H'). revert IH.
  generalize (concat (map (fun b0 => match b0 with x22 | x5c => [x5c; b0] | _ => [b0] end) s) ++ x22 :: rest). intros l IH.
  destruct b; cbn [app]; try congruence; cbn [c_chars]; rewrite IH; reflexivity.
Qed.

Lemma literal_lemma : forall s rest, ~ In x0a s -> c_literal (lisp_print s ++ rest) = Some (s, rest).
Proof. intros s rest H. unfold lisp_print, c_literal. cbn [app]. rewrite <- app_assoc. apply c_chars_print. auto. Qed.
