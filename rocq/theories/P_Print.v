(** Property C46: printing predicates.  Specification in PrintSpec.v. *)
From Coq Require Import Strings.String.
From Verif Require Import BaseProofs Types Predicate PredSpec PredProofs Dec DecProofs PrintPred PrintSpec PrintProofs.

(** Expected: every well-typed predicate can be printed.  False for >= and <= ... *)
Theorem C46_comparison_refuted : forall sf, exists x p, repr_b x p /\ x = BCmp CGe (IValue 0) (IConst 5) /\ print_predicate sf p = Abort.
Proof.
  intro sf. exists (BCmp CGe (IValue 0) (IConst 5)), (Pred GREATER_THAN_OR_EQUAL 2 [Pred VAR_VALUE 1 [Pred VAR_REFERENCE 0 []]; Pred UNSIGNED_VALUE 5 []]).
  split; [|split; reflexivity]. apply (rb_cmp CGe); [constructor|apply (ri_unsigned 5); reflexivity].
Qed.
Print Assumptions C46_comparison_refuted.
(** ... and operators without operands are not closed. *)
Theorem C46_balanced_refuted : forall sf, exists p txt, repr_b (BAnd []) p /\ print_predicate sf p = Ok txt /\ ~ balanced txt.
Proof. intro sf. exists (Pred AND 0 []). eexists. split; [constructor; constructor|]. split; [reflexivity|]. intro H. vm_compute in H. discriminate. Qed.
Print Assumptions C46_balanced_refuted.

(** Printing completes exactly for trees without these operators. *)
Theorem C46_completes : forall sf p, (exists txt, print_predicate sf p = Ok txt) <-> supported p.
Proof. intros sf p. apply prints_iff. Qed.
Print Assumptions C46_completes.

(** If operators have operands, the text is the s-expression of the predicate. *)
Theorem C46_reads : forall sf p, good_floats sf -> supported p -> has_operands p ->
  exists txt, print_predicate sf p = Ok txt /\ balanced txt /\
    match form sf p with [t] => reads txt t | _ => txt = [] end.
Proof.
  intros sf p HF HS HO. destruct (proj2 (C46_completes sf p) HS) as [txt E]. exists txt. split; [exact E|].
  assert (HL := lex_write sf (fun d => proj1 (HF d)) p 0 false txt [] E HO I). rewrite !app_nil_r in HL. split.
  - unfold balanced. rewrite (depth_lex txt [] 0), HL. rewrite <- (app_nil_r (flat_map flat _)). apply depth_flats.
  - destruct p as [k d cs]. destruct k; try (cbn [form operator flat_map] in *; rewrite app_nil_r in HL; exact HL).
    + inversion E. reflexivity.
    + exfalso. cbn in HS. intuition congruence.
    + exfalso. cbn in HS. intuition congruence.
Qed.
Print Assumptions C46_reads.
(** A text is the text of at most one s-expression, and this determines the
    predicate. *)
Theorem C46_one_reading : forall txt t u, reads txt t -> reads txt u -> t = u.
Proof. intros txt t u H H'. apply flat_inj. unfold reads in *. congruence. Qed.
Print Assumptions C46_one_reading.
Theorem C46_unambiguous : forall sf p q txt, good_floats sf -> has_operands p -> has_operands q -> no_null p -> no_null q ->
  print_predicate sf p = Ok txt -> print_predicate sf q = Ok txt -> alike sf p q.
Proof.
  intros sf p q txt HF OP OQ NP NQ EP EQ.
  assert (SP : supported p) by (apply (C46_completes sf); eauto). assert (SQ : supported q) by (apply (C46_completes sf); eauto).
  apply form_inj; try assumption.
  destruct (C46_reads sf p HF SP OP) as (t1 & E1 & _ & R1). destruct (C46_reads sf q HF SQ OQ) as (t2 & E2 & _ & R2).
  rewrite EP in E1. rewrite EQ in E2. inversion E1; inversion E2; subst t1 t2.
  assert (ONE : forall p, no_null p -> supported p -> exists t, form sf p = [t]).
  { intros [k d cs] [N1 _] S1. destruct k; try contradiction; try (eexists; reflexivity); exfalso; cbn in S1; intuition congruence. }
  destruct (ONE p NP SP) as [t Et]. destruct (ONE q NQ SQ) as [u Eu]. rewrite Et in R1. rewrite Eu in R2. rewrite Et, Eu. f_equal. eapply C46_one_reading; eassumption.
Qed.
Print Assumptions C46_unambiguous.
(** Integer constants are printed alike exactly if they are equal. *)
Theorem C46_integers : forall a b, show_Z a = show_Z b <-> a = b.
Proof. intros a b. split; [apply show_Z_inj|congruence]. Qed.
Print Assumptions C46_integers.

(** For well-typed integer predicates. *)
Fixpoint printable (x : bexp) : Prop :=
  match x with
  | BTrue | BDistinct _ _ => True
  | BCmp c _ _ => c <> CLe /\ c <> CGe
  | BNot a => printable a
  | BAnd l | BOr l => l <> [] /\ lenN l < 2 ^ 32 /\ (fix all l := match l with [] => True | a :: r => printable a /\ all r end) l
  end.
Lemma int_printable : forall a p, repr_i a p -> supported p /\ has_operands p.
Proof.
  intros a p H. induction H as [| | | | ? ? ? ? ? ? [] ? [] | ? ? ? ? ? ? [] ? [] | ? ? ? ? ? ? [] ? []]; cbn; try (split; left; reflexivity).
  all: split; right; repeat split; try discriminate; auto; try (left; reflexivity); try reflexivity.
Qed.
Lemma printable_tree : forall p x, repr_b x p -> printable x -> supported p /\ has_operands p.
Proof.
  induction p as [k d cs IH] using pred_ind2. intros x H HP. inversion H; subst.
  - split; left; reflexivity.
  - repeat match goal with R : repr_i _ _ |- _ => apply int_printable in R; destruct R end. cbn in HP. destruct HP as [P1 P2]. destruct c; try contradiction; cbn; (split; right; repeat split; try discriminate; auto; reflexivity).
  - cbn. split; right; repeat split; try discriminate; try reflexivity; left; reflexivity.
  - inversion IH as [|? ? I1 I2]; subst. match goal with R : repr_b _ p |- _ => destruct (I1 _ R HP) end. cbn. split; right; repeat split; try discriminate; auto; reflexivity.
  - match goal with F : Forall2 _ _ _ |- _ => rename F into H4 end. cbn in HP. destruct HP as (P1 & P2 & P3).
    assert (EL : lenN cs = lenN l) by (clear - H4; unfold lenN; f_equal; induction H4; cbn; congruence).
    assert (G : Forall supported cs /\ Forall has_operands cs).
    { clear - IH H4 P3. induction H4; [split; constructor|]. inversion IH as [|? ? I1 I2]; subst. destruct P3 as [Pa Pr]. destruct (I1 _ H Pa). destruct (IHForall2 I2 Pr). split; constructor; assumption. }
    destruct G as [G1 G2]. apply all_Forall in G1. apply all_operands_Forall in G2. split; right; [repeat split; try discriminate; [rewrite EL; exact P2|exact G1]|]. split; [|exact G2].
    intro E. subst cs. inversion H4; subst. apply P1. reflexivity.
  - match goal with F : Forall2 _ _ _ |- _ => rename F into H4 end. cbn in HP. destruct HP as (P1 & P2 & P3).
    assert (EL : lenN cs = lenN l) by (clear - H4; unfold lenN; f_equal; induction H4; cbn; congruence).
    assert (G : Forall supported cs /\ Forall has_operands cs).
    { clear - IH H4 P3. induction H4; [split; constructor|]. inversion IH as [|? ? I1 I2]; subst. destruct P3 as [Pa Pr]. destruct (I1 _ H Pa). destruct (IHForall2 I2 Pr). split; constructor; assumption. }
    destruct G as [G1 G2]. apply all_Forall in G1. apply all_operands_Forall in G2. split; right; [repeat split; try discriminate; [rewrite EL; exact P2|exact G1]|]. split; [|exact G2].
    intro E. subst cs. inversion H4; subst. apply P1. reflexivity.
Qed.
Theorem C46_expressions : forall sf x p, good_floats sf -> repr_b x p -> printable x ->
  exists txt, print_predicate sf p = Ok txt /\ balanced txt.
Proof.
  intros sf x p HF HR HP. destruct (printable_tree p x HR HP) as [HS HO]. destruct (C46_reads sf p HF HS HO) as (txt & E & B & _). eauto.
Qed.
Print Assumptions C46_expressions.

(** (and (< (v/value <v0>)
            -5)
         (not (distinct <v0>
                        <v1>)))  *)
Definition ex_print : pred :=
  Pred AND 2 [Pred LESS_THAN 2 [Pred VAR_VALUE 1 [Pred VAR_REFERENCE 0 []]; Pred SIGNED_VALUE 18446744073709551611 []];
              Pred NOT 1 [Pred DISTINCT_VARS 2 [Pred VAR_REFERENCE 0 []; Pred VAR_REFERENCE 1 []]]].
Example C46_ex : good_floats (fun _ => text "0.5") /\ supported ex_print /\ has_operands ex_print /\ no_null ex_print /\
  exists txt, print_predicate (fun _ => text "0.5") ex_print = Ok txt /\
    reads txt (Group [Word (text "and"); Group [Word (text "<"); Group [Word (text "v/value"); Word (text "<v0>")]; Word (text "-5")];
                      Group [Word (text "not"); Group [Word (text "distinct"); Word (text "<v0>"); Word (text "<v1>")]]]).
Proof.
  split; [intro d; split; [split; [discriminate|repeat constructor]|discriminate]|].
  split; [apply (C46_completes (fun _ => text "0.5")); eexists; vm_compute; reflexivity|].
  split; [cbn; repeat match goal with |- _ /\ _ => split | |- _ <> _ => discriminate | |- True => exact I | |- _ \/ _ => (left; reflexivity) || right end|].
  split; [cbn; repeat match goal with |- _ /\ _ => split | |- _ <> _ => discriminate | |- True => exact I | |- _ \/ _ => (left; reflexivity) || right end|].
  eexists. split; [vm_compute; reflexivity|]. vm_compute. reflexivity.
Qed.
