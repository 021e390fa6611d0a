(** Texts of types: one line without surrounding blanks (lemmas for C48). *)
From Verif Require Import BaseProofs Types Instr InstrSpec.

Lemma first_line_no_nl : forall l, ~ In x0a (first_line l).
Proof.
  induction l as [|b l IH]; [intros []|]. destruct (Byte.eqb b x0a) eqn:E.
  - apply byte_dec_bl in E. subst. cbn. auto.
  - assert (H : first_line (b :: l) = b :: first_line l).
    { destruct b; try reflexivity. discriminate E. }
    rewrite H. intros [->|H']; [discriminate E|auto].
Qed.

Lemma trim_left_in : forall l b, In b (trim_left l) -> In b l.
Proof. induction l as [|c l IH]; intros b H; [auto|]. cbn in H. destruct (is_space c); [right; auto|exact H]. Qed.
Lemma trim_in : forall l b, In b (trim l) -> In b l.
Proof. intros l b H. unfold trim in H. apply in_rev in H. apply trim_left_in, in_rev in H. now apply trim_left_in. Qed.
Lemma drop_brace_in : forall l b, In b (drop_brace l) -> In b l.
Proof.
  intros l b H. unfold drop_brace in H. destruct (rev l) as [|c r] eqn:E; [auto|].
  assert (G : forall x, In x (rev r) -> In x l). { intros x Hx. rewrite <- (rev_involutive l), E. cbn. apply in_or_app. auto. }
  destruct c; auto.
Qed.

(** Not empty implies the ends are no blanks. *)
Definition ends_ok (l : name) : Prop := forall b r, (l = b :: r \/ l = r ++ [b]) -> is_space b = false.
Lemma trim_left_hd : forall l b r, trim_left l = b :: r -> is_space b = false.
Proof. induction l as [|c l IH]; intros b r H; [discriminate|]. cbn in H. destruct (is_space c) eqn:E; [eauto|]. injection H as <- <-. exact E. Qed.
Lemma trim_left_suffix : forall l, exists p, l = p ++ trim_left l.
Proof. induction l as [|c l (p & IH)]; [exists []; auto|]. cbn. destruct (is_space c); [exists (c :: p); cbn; congruence|exists []; auto]. Qed.
Lemma trim_ends : forall l, ends_ok (trim l).
Proof.
  intros l b r [H|H].
  - unfold trim in H. destruct (trim_left_suffix (rev (trim_left l))) as (p & E).
    destruct (trim_left l) as [|c m] eqn:EL.
    + cbn in H. discriminate.
    + assert (c = b).
      { apply (f_equal (@rev byte)) in E. rewrite rev_involutive, rev_app_distr, H in E. cbn in E. congruence. }
      subst c. eapply trim_left_hd. exact EL.
  - unfold trim in H. apply (f_equal (@rev byte)) in H. rewrite rev_involutive, rev_app_distr in H. cbn in H. eapply trim_left_hd. exact H.
Qed.

Lemma single_line : forall l, ~ In x0a (trim_to_single_line l) /\ ends_ok (trim_to_single_line l).
Proof.
  intros l. split; [|apply trim_ends]. unfold trim_to_single_line. intros H.
  apply trim_in, drop_brace_in, trim_in in H. revert H. apply first_line_no_nl.
Qed.

Lemma trace_string_line : forall t, ~ In x0a (type_trace_string t) /\ ends_ok (type_trace_string t).
Proof. intros t. unfold type_trace_string. destruct (c_spec t); apply single_line. Qed.

(** The line of a definition that continues on further lines. *)
Lemma first_line_app : forall l r, ~ In x0a l -> first_line (l ++ x0a :: r) = l.
Proof.
  induction l as [|b l IH]; intros r H; [reflexivity|].
  assert (E : first_line ((b :: l) ++ x0a :: r) = b :: first_line (l ++ x0a :: r)).
  { destruct b; try reflexivity. exfalso. apply H. now left. }
  rewrite E, IH; auto. intros X. apply H. now right.
Qed.
Lemma trim_left_ok : forall l, (forall b r, l = b :: r -> is_space b = false) -> trim_left l = l.
Proof. intros [|b l] H; [reflexivity|]. cbn. now rewrite (H b l eq_refl). Qed.
Lemma trim_left_blanks : forall l s, Forall (fun b => is_space b = true) s -> trim_left (s ++ l) = trim_left l.
Proof. induction 1 as [|b s H F IH]; [reflexivity|]. cbn. now rewrite H. Qed.
Lemma trim_blanks : forall l s, ends_ok l -> Forall (fun b => is_space b = true) s -> trim (l ++ s) = l.
Proof.
  intros l s H F. unfold trim. destruct l as [|b l].
  - cbn [app]. assert (E : trim_left s = []). { clear -F. induction F as [|b s H F IH]; [auto|]. cbn. now rewrite H. } now rewrite E.
  - rewrite (trim_left_ok ((b :: l) ++ s)) by (intros c r E; injection E as <- <-; eapply H; eauto).
    rewrite rev_app_distr, trim_left_blanks by (apply Forall_rev; auto). rewrite trim_left_ok, rev_involutive; auto.
    intros c r E. eapply (H c (rev r)). right. rewrite <- (rev_involutive (b :: l)), E. reflexivity.
Qed.

(** [head], blanks, a brace, blanks, a newline, the rest. *)
Lemma definition_line : forall head s s' rest, ends_ok head -> ~ In x0a head -> ~ In x0a s -> ~ In x0a s' ->
  Forall (fun b => is_space b = true) s -> Forall (fun b => is_space b = true) s' -> head <> [] ->
  trim_to_single_line (head ++ s ++ x7b :: s' ++ x0a :: rest) = head.
Proof.
  intros head s s' rest E N1 N2 N3 F F' NE. unfold trim_to_single_line.
  replace (head ++ s ++ x7b :: s' ++ x0a :: rest) with ((head ++ s ++ x7b :: s') ++ x0a :: rest) by (rewrite <- !app_assoc; reflexivity).
  rewrite first_line_app.
  - replace (head ++ s ++ x7b :: s') with ((head ++ s ++ [x7b]) ++ s') by (rewrite <- !app_assoc; reflexivity).
    rewrite trim_blanks; auto.
    + assert (D : drop_brace (head ++ s ++ [x7b]) = head ++ s).
      { unfold drop_brace. rewrite app_assoc, rev_app_distr. cbn [rev app]. now rewrite rev_involutive. }
      rewrite D. apply trim_blanks; auto.
    + intros b r [H|H].
      * destruct head as [|c head]; [congruence|]. injection H as -> _. eapply E. left; eauto.
      * rewrite app_assoc in H. apply app_inj_tail in H. destruct H as [_ <-]. reflexivity.
  - rewrite !in_app_iff. intros [H|[H|[H|H]]]; auto. discriminate H.
Qed.

Lemma pointers_str : forall n sp, pointer_str (mkC (repeat DPointer n) sp) = repeat x2a n /\ array_str (mkC (repeat DPointer n) sp) = [].
Proof.
  intros n sp. unfold pointer_str, array_str. cbn [c_decl]. induction n as [|n [IH1 IH2]]; [auto|]. cbn [repeat map concat]. rewrite IH1, IH2. auto.
Qed.
Lemma ends_stars : forall n l, l <> [] -> ends_ok l -> ends_ok (repeat x2a n ++ l).
Proof.
  intros [|n] l NE E; [exact E|]. intros b r [H|H].
  - injection H as <- _. reflexivity.
  - destruct (exists_last NE) as (m & c & ->). rewrite app_assoc in H. apply app_inj_tail in H. destruct H as [_ <-]. eapply E. right. reflexivity.
Qed.
Lemma struct_line : forall n k head s s' rest sp, head <> [] -> ends_ok head -> ~ In x0a head -> ~ In x0a s -> ~ In x0a s' ->
  Forall (fun b => is_space b = true) s -> Forall (fun b => is_space b = true) s' ->
  type_trace_string (mkC (repeat DPointer n) (mkSpec k (head ++ s ++ x7b :: s' ++ x0a :: rest) :: sp)) = repeat x2a n ++ head.
Proof.
  intros n k head s s' rest sp NE E N1 N2 N3 F F'. unfold type_trace_string. cbn [c_spec sp_text].
  destruct (pointers_str n (mkSpec k (head ++ s ++ x7b :: s' ++ x0a :: rest) :: sp)) as [-> ->]. cbn [app].
  assert (J : forall a l, exists r, join (a :: l) = a ++ r) by (intros a [|b l]; [exists []; cbn; now rewrite app_nil_r|eexists; reflexivity]).
  match goal with |- context [join (?a :: ?l)] => destruct (J a l) as (r & H); replace (join (a :: l)) with (a ++ r) by (symmetry; exact H) end.
  replace ((repeat x2a n ++ head ++ s ++ x7b :: s' ++ x0a :: rest) ++ r) with ((repeat x2a n ++ head) ++ s ++ x7b :: s' ++ x0a :: (rest ++ r))
    by (repeat (rewrite <- ?app_assoc; cbn [app]); reflexivity).
  apply definition_line; auto.
  - now apply ends_stars.
  - rewrite in_app_iff. intros [X|X]; auto. apply repeat_spec in X. discriminate X.
  - destruct n; cbn; [auto|discriminate].
Qed.
