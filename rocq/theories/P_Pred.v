(** Properties C22 - C25: evaluation of predicates.  [satisfied O vars p] is
    the evaluator on the bound variables [vars], for any floating point
    arithmetic [O]; specification in PredSpec.v. *)
From Verif Require Import BaseProofs Types Stream SkipList AMap Reader FormatSpec Predicate FloatQ PredSpec PredProofs P_Reader.

(** C22.  A tree that represents an integer statement is decided exactly. *)
Theorem C22_integer_predicates : forall O vars e p,
  repr_b e p -> Forall var_ok vars -> closed_b vars e ->
  (satisfied O vars p = Ok true <-> means vars e) /\ (satisfied O vars p = Ok false <-> ~ means vars e).
Proof.
  intros O vars e p HR HV HC. destruct (sat_exact O vars e p HR HV HC) as (b & -> & H). destruct b; intuition congruence.
Qed.
Print Assumptions C22_integer_predicates.

Theorem C22_integer_values : forall O vars e p,
  repr_i e p -> Forall var_ok vars -> closed_i vars e ->
  (forall z, evaluate O vars p = Ok (PInt z) <-> means_i vars e z) /\
  (evaluate O vars p = Ok PInvalid <-> forall z, ~ means_i vars e z).
Proof.
  intros O vars e p HR HV HC. destruct (eval_exact O vars e p HR HV HC) as (o & -> & H). destruct o as [z0|]; split.
  - intro z. rewrite H. cbn. split; intro E; inversion E; reflexivity.
  - split; [discriminate|]. intro X. exfalso. apply (X z0). apply H. reflexivity.
  - intro z. rewrite H. cbn. split; discriminate.
  - split; [|reflexivity]. intros _ z X. apply H in X. discriminate.
Qed.
Print Assumptions C22_integer_values.

(** The variables of every trace that is read meet [var_ok]. *)
Theorem C22_read_variables : forall ok coins pos t max bs tr p,
  read ok coins pos t max bs = Ok tr -> In p (tr_points tr) -> Forall var_ok (p_vars p).
Proof. exact read_var_ok. Qed.
Print Assumptions C22_read_variables.

(** "-5 - p < 2^64 - 1 and not (size(q) >= 0) and p, q distinct" on a signed
    variable with value -5 and a pointer without buffer size *)
Definition ex_vars : list var :=
  [mkV (VBits (2 ^ 64 - 5)) 0 0 SIGNED 4 0 0; mkV (VBits 4112) 2 1 POINTER 8 0 0].
Definition vref i := Pred VAR_REFERENCE i [].
Definition ex_pred : pred :=
  Pred AND 3
    [Pred LESS_THAN 2 [Pred SUBTRACT 2 [Pred VAR_VALUE 1 [vref 0]; Pred VAR_VALUE 1 [vref 1]]; Pred UNSIGNED_VALUE (2 ^ 64 - 1) []];
     Pred NOT 1 [Pred GREATER_THAN_OR_EQUAL 2 [Pred VAR_SIZE 1 [vref 1]; Pred SIGNED_VALUE 0 []]];
     Pred DISTINCT_VARS 2 [vref 0; vref 1]].
Definition ex_bexp : bexp :=
  BAnd [BCmp CLt (ISub (IValue 0) (IValue 1)) (IConst (2 ^ 64 - 1)); BNot (BCmp CGe (ISize 1) (IConst 0)); BDistinct 0 1].
Example C22_ex : repr_b ex_bexp ex_pred /\ Forall var_ok ex_vars /\ closed_b ex_vars ex_bexp /\ means ex_vars ex_bexp.
Proof.
  assert (HV : Forall var_ok ex_vars).
  { apply Forall_cons; [|apply Forall_cons; [|apply Forall_nil]]; unfold var_ok; cbn [v_fmt v_size v_val].
    - split; [cbn; auto|]. exists (2 ^ 64 - 5). conj_split; vm_compute; auto; discriminate.
    - split; [vm_compute; discriminate|]. exists 4112. split; vm_compute; reflexivity. }
  assert (HR : repr_b ex_bexp ex_pred).
  { apply rb_and. repeat apply Forall2_cons; try apply Forall2_nil.
    - apply (rb_cmp CLt); [apply ri_sub; apply ri_value|]. apply (ri_unsigned (2 ^ 64 - 1)). vm_compute. reflexivity.
    - apply rb_not. apply (rb_cmp CGe); [apply ri_size|]. apply (ri_signed 0). vm_compute. reflexivity.
    - apply rb_distinct. }
  assert (HC : closed_b ex_vars ex_bexp).
  { cbn. conj_split; auto; try (eexists; split; [reflexivity|discriminate]); vm_compute; reflexivity. }
  conj_split; auto. apply (proj1 (C22_integer_predicates qops ex_vars ex_bexp ex_pred HR HV HC)). vm_compute. reflexivity.
Qed.

(** C23.  Exactly the expressions of [invalid] have no value, and comparing
    them is false. *)
Theorem C23_invalid_exactly : forall O vars p, Forall var_ok vars -> wt_num (lenN vars) p ->
  (evaluate O vars p = Ok PInvalid <-> invalid O vars p).
Proof. intros O vars p HV. exact (invalid_iff O vars HV p). Qed.
Print Assumptions C23_invalid_exactly.

Theorem C23_comparisons_false : forall O vars k d a b, Forall var_ok vars ->
  In k [LESS_THAN; LESS_THAN_OR_EQUAL; GREATER_THAN; GREATER_THAN_OR_EQUAL; EQUAL] ->
  wt_num (lenN vars) a -> wt_num (lenN vars) b -> invalid O vars a \/ invalid O vars b ->
  satisfied O vars (Pred k d [a; b]) = Ok false /\
  (forall d', satisfied O vars (Pred NOT d' [Pred k d [a; b]]) = Ok true).
Proof. intros O vars k d a b HV. exact (invalid_cmp O vars HV k d a b). Qed.
Print Assumptions C23_comparisons_false.

(** (1 + 5 / (v0 - v0)) >= (1 + 5 / (v0 - v0)) is false *)
Definition ex_inv : pred :=
  Pred ADD 2 [Pred SIGNED_VALUE 1 []; Pred DIVIDE 2 [Pred SIGNED_VALUE 5 []; Pred SUBTRACT 2 [Pred VAR_VALUE 1 [vref 0]; Pred VAR_VALUE 1 [vref 0]]]].
Example C23_ex : wt_num (lenN ex_vars) ex_inv /\ invalid qops ex_vars ex_inv.
Proof.
  split.
  - apply wn_arith; [cbn; auto|apply wn_const; cbn; auto|]. apply wn_arith; [cbn; auto|apply wn_const; cbn; auto|].
    apply wn_arith; [cbn; auto|apply wn_value; vm_compute; reflexivity|apply wn_value; vm_compute; reflexivity].
  - apply inv_right; [cbn; auto|]. apply inv_div0 with (x := PInt 0); [vm_compute|]; reflexivity.
Qed.

(** C24. *)
Theorem C24_well_typed_total : forall O vars p, Forall var_ok vars -> wt_bool (lenN vars) p ->
  exists b, satisfied O vars p = Ok b.
Proof. intros O vars p HV. exact (wt_bool_total O vars HV p). Qed.
Print Assumptions C24_well_typed_total.

(** If all references are in range, whatever the tree: an answer, or a failed assertion. *)
Theorem C24_only_assertions : forall O vars p, Forall var_ok vars -> refs_below (lenN vars) p ->
  (exists b, satisfied O vars p = Ok b) \/ satisfied O vars p = Abort.
Proof. intros O vars p HV. exact (sat_safe O vars HV p). Qed.
Print Assumptions C24_only_assertions.

(** Where no part is skipped, every ill-typed tree is caught. *)
Theorem C24_ill_typed_abort : forall O vars p, Forall var_ok vars -> refs_below (lenN vars) p -> no_and_or p ->
  (satisfied O vars p = Abort <-> ~ wt_bool (lenN vars) p).
Proof.
  intros O vars p HV HR HN. split.
  - intros E HW. destruct (wt_bool_total O vars HV p HW) as (b & E'). congruence.
  - intro HW. destruct (sat_safe O vars HV p HR) as [(b & E)|E]; [|exact E]. exfalso. apply HW. eapply sat_wt; eauto.
Qed.
Print Assumptions C24_ill_typed_abort.

(** With AND/OR, ill-typed parts can be skipped. *)
Theorem C24_skipped_refuted : exists O vars p,
  refs_below (lenN vars) p /\ ~ wt_bool (lenN vars) p /\ satisfied O vars p = Ok true.
Proof.
  exists qops, [], (Pred OR 2 [Pred NULL_PREDICATE 0 []; Pred NOT 0 []]). split; [|split; [|reflexivity]].
  - cbn. intuition discriminate.
  - intro H. inversion H; subst; try (match goal with H : In _ _ |- _ => cbn in H; intuition discriminate end).
    match goal with H : Forall _ _ |- _ => inversion H as [|? ? _ H2]; subst; inversion H2 as [|? ? H3 _]; subst end.
    inversion H3; subst; cbn in *; intuition discriminate.
Qed.
Print Assumptions C24_skipped_refuted.

(** Out of range: undefined behaviour. *)
Theorem C24_unchecked_index : forall O vars d d' i j cs cs', lenN vars <= i ->
  satisfied O vars (Pred DISTINCT_VARS d [Pred VAR_REFERENCE i cs; Pred VAR_REFERENCE j cs']) = UB UOob /\
  evaluate O vars (Pred VAR_VALUE d' [Pred VAR_REFERENCE i cs]) = UB UOob /\
  evaluate O vars (Pred VAR_SIZE d' [Pred VAR_REFERENCE i cs]) = UB UOob.
Proof. intros. cbn. unfold var_at. rewrite (proj2 (nthN_None _ vars i)) by assumption. auto. Qed.
Print Assumptions C24_unchecked_index.

Example C24_ex : wt_bool (lenN ex_vars) ex_pred /\ refs_below (lenN ex_vars) ex_pred /\
  satisfied qops ex_vars (Pred NOT 1 [ex_inv]) = Abort.
Proof.
  split; [|split; [|vm_compute; reflexivity]].
  - apply wb_and. repeat apply Forall_cons; try apply Forall_nil.
    + apply wb_cmp; [cbn; auto 10| |apply wn_const; cbn; auto].
      apply wn_arith; [cbn; auto|apply wn_value; vm_compute; reflexivity|apply wn_value; vm_compute; reflexivity].
    + apply wb_not. apply wb_cmp; [cbn; auto 10|apply wn_size; vm_compute; reflexivity|apply wn_const; cbn; auto].
    + apply wb_distinct; vm_compute; reflexivity.
  - vm_compute. repeat match goal with |- _ /\ _ => split | |- True => exact I | |- _ -> _ => let H := fresh in intro H; try discriminate H end; reflexivity.
Qed.

(** C25.  Floats: the 32 bits of the value, whatever the size. *)
Theorem C25_float_values : forall O vars i v u d cs, nthN vars i = Some v -> v_fmt v = FLOAT -> v_val v = VBits u ->
  evaluate O vars (Pred VAR_VALUE d [Pred VAR_REFERENCE i cs]) = Ok (PFloat (f_of_float O (u mod 2 ^ 32))).
Proof. intros O vars i v u d cs H1 H2 H3. cbn. unfold var_at. rewrite H1. cbn. unfold value_value, bits_of. rewrite H2, H3. reflexivity. Qed.
Print Assumptions C25_float_values.

(** For 4-byte variables this is the recorded number. *)
Theorem C25_float4_partial : forall O vars i v u d cs, nthN vars i = Some v -> v_fmt v = FLOAT -> v_size v = 4 -> var_ok v -> v_val v = VBits u ->
  evaluate O vars (Pred VAR_VALUE d [Pred VAR_REFERENCE i cs]) = Ok (PFloat (f_of_float O u)).
Proof.
  intros O vars i v u d cs H1 H2 H4 H5 H3. rewrite (C25_float_values O vars i v u d cs H1 H2 H3). unfold var_ok in H5. rewrite H2, H4, H3 in H5.
  destruct H5 as (_ & x & E & H). inversion E; subst x. rewrite N.mod_small by exact H. reflexivity.
Qed.
Print Assumptions C25_float4_partial.

(** A double variable with value 1.0 is not equal to the constant 1.0 (and is equal to 0). *)
Theorem C25_double_refuted : exists v u, var_ok v /\ v_fmt v = FLOAT /\ v_size v = 8 /\ v_val v = VBits u /\
  f_eq qops (f_of_double qops u) (f_of_Z qops 1) = true /\
  satisfied qops [v] (Pred EQUAL 2 [Pred VAR_VALUE 1 [vref 0]; Pred FLOAT_VALUE u []]) = Ok false /\
  satisfied qops [v] (Pred EQUAL 2 [Pred VAR_VALUE 1 [vref 0]; Pred SIGNED_VALUE 0 []]) = Ok true.
Proof.
  exists (mkV (VBits 0x3FF0000000000000) 0 0 FLOAT 8 0 0), 0x3FF0000000000000.
  split; [|split; [reflexivity|split; [reflexivity|split; [reflexivity|split; [|split]]]]].
  - unfold var_ok. cbn [v_fmt v_size v_val]. split; [vm_compute; discriminate|]. eexists. split; [reflexivity|]. vm_compute. reflexivity.
  - vm_compute. reflexivity.
  - vm_compute. reflexivity.
  - vm_compute. reflexivity.
Qed.
Print Assumptions C25_double_refuted.
