(** Property C59: predicates that mix integers and floating point numbers.
    Specification in FloatSpec.v: trees [repr_m], meaning [means_any] for any
    floating point arithmetic and [means_rat] in rational numbers. *)
From Verif Require Import BaseProofs Types Predicate PredSpec PredProofs FloatQ FloatSpec FloatProofs P_Pred.
From Coq Require Import QArith.
Open Scope N_scope.

(** Whatever the floating point arithmetic does: +, - and * of integers are
    exact, everything else is one operation (of the right kind, on the right
    operands in the right order) of that arithmetic, and only a missing
    operand or a zero divisor make a number missing. *)
Theorem C59_any_arithmetic : forall O vars e p,
  repr_m e p -> Forall var_ok vars -> closed_m vars e ->
  (satisfied O vars p = Ok true <-> means_any O vars e) /\ (satisfied O vars p = Ok false <-> ~ means_any O vars e).
Proof.
  intros O vars e p HR HV HC. destruct (sat_num O vars e p HR HV HC) as (b & -> & H). destruct b; intuition congruence.
Qed.
Print Assumptions C59_any_arithmetic.

Theorem C59_values : forall O vars e p,
  repr_n e p -> Forall var_ok vars -> closed_n vars e ->
  (forall z, evaluate O vars p = Ok (PInt z) <-> means_n O vars e (Int z)) /\
  (forall x, evaluate O vars p = Ok (PFloat x) <-> means_n O vars e (Flo x)) /\
  (evaluate O vars p = Ok PInvalid <-> forall n, ~ means_n O vars e n).
Proof.
  intros O vars e p HR HV HC. destruct (eval_num O vars e p HR HV HC) as (o & -> & H). split; [|split].
  - intro z. rewrite H. destruct o as [[u|u]|]; cbn; split; intro E; try discriminate; congruence.
  - intro z. rewrite H. destruct o as [[u|u]|]; cbn; split; intro E; try discriminate; congruence.
  - destruct o as [n|]; split.
    + destruct n; discriminate.
    + intro X. exfalso. apply (X n). apply H. reflexivity.
    + intros _ n X. apply H in X. discriminate.
    + reflexivity.
Qed.
Print Assumptions C59_values.

(** With exact operations the verdict is the one of rational arithmetic on
    the recorded numbers: the evaluator adds no error of its own. *)
Theorem C59_rational : forall O val vars e p,
  exact_ops O val -> repr_m e p -> Forall var_ok vars -> closed_m vars e ->
  (satisfied O vars p = Ok true <-> means_rat vars e) /\ (satisfied O vars p = Ok false <-> ~ means_rat vars e).
Proof.
  intros O val vars e p EX HR HV HC. rewrite <- (means_rat_iff O val vars EX e). apply C59_any_arithmetic; assumption.
Qed.
Print Assumptions C59_rational.

(** Exact operations exist. *)
Theorem C59_exact_exists : exact_ops qops (fun q => q).
Proof. exact qops_exact. Qed.
Print Assumptions C59_exact_exists.

(** "v0 / 3 >= -v1 - 0.25  and  not (v0 / (v2 - v2) = v0 / (v2 - v2))" on a
    float 1.5, an int -2 and the int 7; -v1 written as 0 - v1. *)
Definition fl_vars : list var :=
  [mkV (VBits 0x3FC00000) 0 0 FLOAT 4 0 0; mkV (VBits (2 ^ 64 - 2)) 1 1 SIGNED 4 0 0; mkV (VBits 7) 2 2 UNSIGNED 4 0 0].
Definition pval i := Pred VAR_VALUE 1 [vref i].
Definition fl_quot : pred := Pred DIVIDE 2 [pval 0; Pred SUBTRACT 2 [pval 2; pval 2]].
Definition fl_pred : pred :=
  Pred AND 2
    [Pred GREATER_THAN_OR_EQUAL 2
       [Pred DIVIDE 2 [pval 0; Pred UNSIGNED_VALUE 3 []];
        Pred SUBTRACT 2 [Pred SUBTRACT 2 [Pred SIGNED_VALUE 0 []; pval 1]; Pred FLOAT_VALUE 0x3FF8000000000000 []]];
     Pred NOT 1 [Pred EQUAL 2 [fl_quot; fl_quot]]].
Definition fl_nquot : nexp := NOp ODiv (NValue 0) (NOp OSub (NValue 2) (NValue 2)).
Definition fl_exp : mexp :=
  MAnd [MCmp CGe (NOp ODiv (NValue 0) (NInt 3)) (NOp OSub (NOp OSub (NInt 0) (NValue 1)) (NDouble 0x3FF8000000000000));
        MNot (MCmp CEq fl_nquot fl_nquot)].
Example C59_ex : repr_m fl_exp fl_pred /\ Forall var_ok fl_vars /\ closed_m fl_vars fl_exp /\
  means_rat fl_vars fl_exp /\ ~ means_rat fl_vars (MNot fl_exp) /\
  means_any qops fl_vars fl_exp.
Proof.
  assert (HV : Forall var_ok fl_vars).
  { apply Forall_cons; [|apply Forall_cons; [|apply Forall_cons; [|apply Forall_nil]]]; unfold var_ok; cbn [v_fmt v_size v_val].
    - split; [vm_compute; discriminate|]. exists 0x3FC00000. split; vm_compute; reflexivity.
    - split; [cbn; auto|]. exists (2 ^ 64 - 2). split; [reflexivity|]. split; [vm_compute; reflexivity|]. vm_compute. split; [discriminate|reflexivity].
    - split; [vm_compute; discriminate|]. exists 7. split; vm_compute; reflexivity. }
  assert (V : forall i, repr_n (NValue i) (pval i)) by (intro; apply rn_value).
  assert (HQ : repr_n fl_nquot fl_quot).
  { apply (rn_op ODiv); [apply V|]. apply (rn_op OSub); apply V. }
  assert (HR : repr_m fl_exp fl_pred).
  { apply rm_and. repeat apply Forall2_cons; try apply Forall2_nil.
    - apply (rm_cmp CGe).
      + apply (rn_op ODiv); [apply V|]. apply (rn_unsigned 3). vm_compute. reflexivity.
      + apply (rn_op OSub); [|apply rn_double]. apply (rn_op OSub); [|apply V]. apply (rn_signed 0). vm_compute. reflexivity.
    - apply rm_not. apply (rm_cmp CEq); exact HQ. }
  assert (HC : closed_m fl_vars fl_exp).
  { cbn. conj_split; auto; (eexists; split; [reflexivity|]); cbn; congruence. }
  assert (E : satisfied qops fl_vars fl_pred = Ok true) by (vm_compute; reflexivity).
  assert (M : means_rat fl_vars fl_exp) by (apply (C59_rational qops (fun q => q) fl_vars fl_exp fl_pred qops_exact HR HV HC); exact E).
  split; [exact HR|]. split; [exact HV|]. split; [exact HC|]. split; [exact M|]. split; [intro X; exact (X M)|].
  apply (C59_any_arithmetic qops fl_vars fl_exp fl_pred HR HV HC). exact E.
Qed.
