From Verif Require Import BaseProofs Types Stream Reader FormatSpec Compare Predicate PredSpec Query QuerySpec CHeap CApi CApiSpec Lisp LispSpec LispProofs InstrIds.

Lemma upfrom_length : forall n i, length (upfrom i n) = n.
Proof. induction n; intros; cbn; auto. Qed.
Lemma upfrom_nth : forall n i k, (k < n)%nat -> nth_error (upfrom i n) k = Some (i + N.of_nat k).
Proof.
  induction n; intros i k H; [lia|]. destruct k; cbn [upfrom nth_error].
  - f_equal. lia.
  - rewrite IHn by lia. f_equal. lia.
Qed.
Lemma upfrom_app : forall n m i, upfrom i (n + m) = upfrom i n ++ upfrom (i + N.of_nat n) m.
Proof.
  induction n; intros m i; cbn [upfrom plus app].
  - f_equal. lia.
  - rewrite IHn. do 3 f_equal. lia.
Qed.
Lemma combine_app : forall A B (a a' : list A) (b b' : list B), length a = length b -> combine (a ++ a') (b ++ b') = combine a b ++ combine a' b'.
Proof. induction a; destruct b; cbn; intros; try discriminate; auto. f_equal. auto. Qed.
Lemma filter_all : forall A (f : A -> bool) l, (forall x, In x l -> f x = true) -> filter f l = l.
Proof. induction l; intros H; cbn; auto. rewrite (H a) by (now left). f_equal. apply IHl. intros; apply H; now right. Qed.
Lemma filter_none : forall A (f : A -> bool) l, (forall x, In x l -> f x = false) -> filter f l = [].
Proof. induction l; intros H; cbn; auto. rewrite (H a) by (now left). apply IHl. intros; apply H; now right. Qed.

(** Every file is numbered by its place. *)
Lemma project_ids_eq : forall fs, project_ids fs =
  map (fun p => get_ast_ids (Some (fst p)) (pf_asts (snd p))) (numbered_files (instrumentation_files fs)).
Proof.
  intros fs. unfold project_ids. f_equal. unfold instrumentation_files at 1.
  set (a := filter (fun f => negb (pf_main f)) fs). set (b := filter pf_main fs).
  assert (Fa : forall f, In f a -> pf_main f = false) by (intros f H; apply filter_In in H; destruct H as [_ H]; destruct (pf_main f); auto; discriminate).
  assert (Fb : forall f, In f b -> pf_main f = true) by (intros f H; apply filter_In in H; apply H).
  rewrite filter_app, (filter_all _ _ a), (filter_none _ _ b), app_nil_r.
  2:{ intros f H. rewrite (Fb _ H). reflexivity. }
  2:{ intros f H. rewrite (Fa _ H). reflexivity. }
  unfold instrumentation_files. fold a b. unfold numbered_files. rewrite app_length, upfrom_app, combine_app by apply upfrom_length.
  rewrite filter_app. f_equal. rewrite filter_none, filter_all; auto.
  - intros [i f] H. apply in_combine_r in H. cbn. auto.
  - intros [i f] H. apply in_combine_r in H. cbn. auto.
Qed.

Lemma project_length : forall fs, length (project_ids fs) = length fs.
Proof.
  intros. rewrite project_ids_eq, map_length. unfold numbered_files. rewrite combine_length, upfrom_length, Nat.min_id.
  unfold instrumentation_files. rewrite app_length. induction fs as [|f fs IH]; auto. cbn. destruct (pf_main f); cbn; lia.
Qed.

Lemma combine_nth : forall A B (a : list A) (b : list B) k x y, nth_error a k = Some x -> nth_error b k = Some y -> nth_error (combine a b) k = Some (x, y).
Proof. induction a; destruct b, k; cbn; intros x y H1 H2; try discriminate; auto. congruence. Qed.
Lemma combine_nth_inv : forall A B (a : list A) (b : list B) k x y, nth_error (combine a b) k = Some (x, y) -> nth_error a k = Some x /\ nth_error b k = Some y.
Proof. induction a; destruct b, k; cbn; intros x y H; try discriminate; eauto. injection H as -> ->. auto. Qed.

Lemma some_inj : forall A (x y : A), Some x = Some y -> x = y.
Proof. congruence. Qed.

Lemma project_nth : forall fs k i id ids, nth_error (project_ids fs) k = Some ids -> nth_error ids i = Some id ->
  exists f, nth_error (instrumentation_files fs) k = Some f /\ N.of_nat i < pf_asts f /\ id = pack (Some (N.of_nat k)) (N.of_nat i).
Proof.
  intros fs k i id ids H1 H2. rewrite project_ids_eq, nth_error_map in H1. destruct (nth_error (numbered_files _) k) as [[j f]|] eqn:E; [|discriminate].
  apply some_inj in H1. subst ids. unfold numbered_files in E. apply combine_nth_inv in E. destruct E as [E1 E2]. cbn [fst snd] in *.
  assert (L : (k < length (instrumentation_files fs))%nat) by (apply nth_error_Some; congruence).
  rewrite upfrom_nth in E1 by exact L. assert (j = N.of_nat k) as -> by (injection E1 as E1; lia). clear E1.
  exists f. split; auto. unfold get_ast_ids in H2. rewrite nth_error_map in H2.
  destruct (nth_error (upfrom 0 (N.to_nat (pf_asts f))) i) as [j|] eqn:E; [|discriminate]. apply some_inj in H2. subst id.
  assert (L' : (i < N.to_nat (pf_asts f))%nat). { assert (X : nth_error (upfrom 0 (N.to_nat (pf_asts f))) i <> None) by congruence. apply nth_error_Some in X. rewrite upfrom_length in X; exact X. }
  rewrite upfrom_nth in E by exact L'. assert (j = N.of_nat i) as -> by (injection E as E; lia). split; [lia|reflexivity].
Qed.

Lemma files_in : forall fs f, In f (instrumentation_files fs) -> In f fs.
Proof. intros fs f H. unfold instrumentation_files in H. apply in_app_or in H. destruct H as [H|H]; apply filter_In in H; apply H. Qed.

Lemma instr_length : forall fs, length (instrumentation_files fs) = length fs.
Proof. intros. unfold instrumentation_files. rewrite app_length. induction fs as [|f fs IH]; auto. cbn. destruct (pf_main f); cbn; lia. Qed.

Lemma project_decode : forall fs k i ids id, lenN fs <= 2 ^ 23 -> Forall (fun f => pf_asts f <= 2 ^ 40) fs ->
  nth_error (project_ids fs) k = Some ids -> nth_error ids i = Some id ->
  id < 2 ^ 64 /\ unpack_f id = Some (N.of_nat k) /\ unpack_c id = N.of_nat i.
Proof.
  intros fs k i ids id L F H1 H2. destruct (project_nth _ _ _ _ _ H1 H2) as (f & Hf & Li & ->).
  apply pack_ok.
  - assert (X : (k < length (instrumentation_files fs))%nat) by (apply nth_error_Some; congruence). rewrite instr_length in X. unfold lenN in L. lia.
  - rewrite Forall_forall in F. assert (pf_asts f <= 2 ^ 40) by (apply F; apply files_in; eapply nth_error_In; eauto). lia.
Qed.

Lemma concat_NoDup : forall A (ll : list (list A)), (forall k i k' i' l l' x, nth_error ll k = Some l -> nth_error ll k' = Some l' ->
    nth_error l i = Some x -> nth_error l' i' = Some x -> k = k' /\ i = i') -> NoDup (concat ll).
Proof.
  induction ll as [|l ll IH]; intros H; cbn; [constructor|].
  assert (N1 : NoDup l).
  { apply NoDup_nth_error. intros i j Hi E. apply nth_error_Some in Hi. destruct (nth_error l i) as [x|] eqn:Ei; [|congruence].
    symmetry in E. destruct (H 0%nat i 0%nat j l l x eq_refl eq_refl Ei E); auto. }
  assert (N2 : NoDup (concat ll)).
  { apply IH. intros k i k' i' m m' x H1 H2 H3 H4. destruct (H (S k) i (S k') i' m m' x H1 H2 H3 H4). lia. }
  assert (D : forall x, In x l -> ~ In x (concat ll)).
  { intros x Hx Hc. apply in_concat in Hc. destruct Hc as (m & Hm & Hx'). apply In_nth_error in Hx, Hm, Hx'.
    destruct Hx as (i & Hx), Hm as (k & Hm), Hx' as (j & Hx'). destruct (H 0%nat i (S k) j l m x eq_refl Hm Hx Hx'). discriminate. }
  clear H IH. induction l as [|y l IHl]; auto. cbn. inversion N1; subst. constructor.
  - rewrite in_app_iff. intros [I|I]; [auto|]. apply (D y); auto. now left.
  - apply IHl; auto. intros x Hx. apply D. now right.
Qed.

Lemma project_nodup : forall fs, lenN fs <= 2 ^ 23 -> Forall (fun f => pf_asts f <= 2 ^ 40) fs -> NoDup (concat (project_ids fs)).
Proof.
  intros fs L F. apply concat_NoDup. intros k i k' i' l l' x H1 H2 H3 H4.
  destruct (project_decode _ _ _ _ _ L F H1 H3) as (_ & A1 & A2). destruct (project_decode _ _ _ _ _ L F H2 H4) as (_ & B1 & B2).
  rewrite A1 in B1. rewrite A2 in B2. injection B1 as B1. split; lia.
Qed.
