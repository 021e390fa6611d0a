From Verif Require Import BaseProofs Types Predicate PredSpec PredProofs FloatQ FloatSpec.
From Coq Require Import QArith.
Open Scope N_scope.

Lemma mexp_ind2 : forall P : mexp -> Prop,
  P MTrue -> (forall c a b, P (MCmp c a b)) -> (forall i j, P (MDistinct i j)) ->
  (forall a, P a -> P (MNot a)) -> (forall l, Forall P l -> P (MAnd l)) -> (forall l, Forall P l -> P (MOr l)) ->
  forall e, P e.
Proof.
  intros P H1 H2 H3 H4 H5 H6. fix IH 1. intros [|c a b|i j|a|l|l]; [exact H1|apply H2|apply H3|apply H4; apply IH| |].
  - apply H5. induction l as [|c r IHc]; constructor; [apply IH|exact IHc].
  - apply H6. induction l as [|c r IHc]; constructor; [apply IH|exact IHc].
Qed.

Lemma some_eq : forall (A : Type) (x y : A), Some x = Some y -> y = x.
Proof. intros A x y E. congruence. Qed.

Section E.
Variables (O : fops) (vars : list var).
Notation evaluate := (evaluate O vars).
Notation satisfied := (satisfied O vars).

Definition opt_num (o : option (number O)) : pval O :=
  match o with Some (Int z) => PInt z | Some (Flo x) => PFloat x | None => PInvalid end.

Definition op_num (o : aop) (x y : number O) : option (number O) :=
  match o, x, y with
  | ODiv, _, Int 0%Z => None
  | ODiv, _, Int _ => Some (Flo (f_div O (as_float O x) (as_float O y)))
  | ODiv, _, Flo b => if f_is_zero O b then None else Some (Flo (f_div O (as_float O x) (as_float O y)))
  | _, Int a, Int b => match zop o a b with Some z => Some (Int z) | None => None end
  | _, _, _ => Some (Flo (fop O o (as_float O x) (as_float O y)))
  end.

Lemma op_num_spec : forall o a b x y, means_n O vars a x -> means_n O vars b y ->
  forall n, op_num o x y = Some n -> means_n O vars (NOp o a b) n.
Proof.
  intros o a b x y Ha Hb n E.
  destruct o, x as [u|u], y as [w|w]; cbn [op_num zop] in E;
  try (apply some_eq in E; subst n; first [eapply mn_exact; eauto; reflexivity
    |apply (mn_float O vars _ a b _ _ Ha Hb); [discriminate|discriminate]
    |apply (mn_float O vars _ a b _ _ Ha Hb); [intros z z' E1 E2; first [discriminate E1|discriminate E2]|intro E1; discriminate E1]]).
  - destruct w; try discriminate; apply some_eq in E; subst n; (apply (mn_float O vars ODiv a b _ _ Ha Hb); [reflexivity|intros _; discriminate]).
  - destruct (f_is_zero O w) eqn:Z; [discriminate|]. apply some_eq in E; subst n.
    apply (mn_float O vars ODiv a b _ _ Ha Hb); [reflexivity|intros _; exact Z].
  - destruct w; try discriminate; apply some_eq in E; subst n; (apply (mn_float O vars ODiv a b _ _ Ha Hb); [reflexivity|intros _; discriminate]).
  - destruct (f_is_zero O w) eqn:Z; [discriminate|]. apply some_eq in E; subst n.
    apply (mn_float O vars ODiv a b _ _ Ha Hb); [reflexivity|intros _; exact Z].
Qed.

Lemma op_num_inv : forall o a b x y n,
  (forall x', means_n O vars a x' -> x' = x) -> (forall y', means_n O vars b y' -> y' = y) ->
  means_n O vars (NOp o a b) n -> op_num o x y = Some n.
Proof.
  intros o a b x y n Ha Hb H. inversion H; subst.
  - match goal with X : means_n _ _ a _ |- _ => apply Ha in X; subst x end.
    match goal with X : means_n _ _ b _ |- _ => apply Hb in X; subst y end.
    destruct o; cbn [op_num zop] in *; try discriminate; match goal with X : Some _ = Some _ |- _ => inversion X end; reflexivity.
  - match goal with X : means_n _ _ a _ |- _ => apply Ha in X; subst x end.
    match goal with X : means_n _ _ b _ |- _ => apply Hb in X; subst y end.
    match goal with X : forall z z', _ -> _ -> _, X' : _ -> nonzero _ _ |- _ => rename X into H1; rename X' into H2 end.
    destruct x0 as [u|u], y0 as [w|w]; try (specialize (H1 u w eq_refl eq_refl); subst o);
    try (specialize (H2 eq_refl)); cbn [nonzero] in H2.
    + cbn [op_num]. destruct w; [congruence| |]; reflexivity.
    + destruct o; try reflexivity. cbn [op_num]. rewrite (H2 eq_refl). reflexivity.
    + destruct o; try reflexivity. cbn [op_num]. destruct w; [exfalso; apply (H2 eq_refl); reflexivity| |]; reflexivity.
    + destruct o; try reflexivity. cbn [op_num]. rewrite (H2 eq_refl). reflexivity.
Qed.

Lemma eval_op : forall o d p q x y, evaluate p = Ok (opt_num x) -> evaluate q = Ok (opt_num y) ->
  evaluate (Pred (op_kind o) d [p; q]) =
    Ok (opt_num (match x, y with Some a, Some b => op_num o a b | _, _ => None end)).
Proof.
  intros o d p q x y E1 E2.
  destruct o; cbn [op_kind Predicate.evaluate]; rewrite E1, E2; cbn [bind];
    destruct x as [[u|u]|], y as [[w|w]|]; try reflexivity.
  - cbn [opt_num op_num p_div]. destruct w; reflexivity.
  - cbn [opt_num op_num p_div]. destruct (f_is_zero O w); reflexivity.
  - cbn [opt_num op_num p_div]. destruct w; reflexivity.
  - cbn [opt_num op_num p_div]. destruct (f_is_zero O w); reflexivity.
Qed.

Lemma eval_num : forall e p, repr_n e p -> Forall var_ok vars -> closed_n vars e ->
  exists o, evaluate p = Ok (opt_num o) /\ (forall x, means_n O vars e x <-> o = Some x).
Proof.
  intros e p HR HV. rewrite Forall_forall in HV.
  induction HR as [d cs Hd|d cs Hd|d cs|i d cs|i d cs|o a b p q d R1 I1 R2 I2]; intro HC.
  - exists (Some (Int (Z.of_N d))). split; [reflexivity|]. intro z. split; intro H; [inversion H; subst; reflexivity|inversion H; constructor].
  - exists (Some (Int (s64 d))). split; [reflexivity|]. intro z. split; intro H; [inversion H; subst; reflexivity|inversion H; constructor].
  - exists (Some (Flo (f_of_double O d))). split; [reflexivity|]. intro z. split; intro H; [inversion H; subst; reflexivity|inversion H; constructor].
  - destruct HC as (v & Hv & Hf). exists (num_value O v). pose proof (HV v (nthN_In _ _ _ _ Hv)) as Hok. split.
    + cbn [Predicate.evaluate]. unfold var_at. rewrite Hv. cbn [bind]. unfold value_value, num_value, int_value, bits_of. unfold var_ok in Hok.
      destruct (v_fmt v) eqn:Ef; try contradiction;
      repeat match goal with H : _ /\ _ |- _ => destruct H | H : exists _, _ |- _ => destruct H end;
      try match goal with H : v_val v = _ |- _ => rewrite H end; try reflexivity.
      cbn [opt_num bind]. rewrite Hf in * by reflexivity. unfold two32.
      rewrite N.mod_small by assumption. reflexivity.
    + intro z. split; intro H; [inversion H; subst; congruence|econstructor; eauto].
  - cbn [closed_n] in HC. apply nthN_lt in HC. destruct HC as (v & Hv).
    exists (match size_of v with Some z => Some (Int z) | None => None end). split.
    + cbn [Predicate.evaluate]. unfold var_at. rewrite Hv. cbn [bind]. unfold size_value, size_of. destruct (v_has v =? 0); reflexivity.
    + intro z. split; intro H.
      * inversion H; subst. replace v with v0 by congruence. rewrite H2. reflexivity.
      * destruct (size_of v) eqn:Es; [|discriminate]. inversion H; subst. econstructor; eauto.
  - destruct HC as [C1 C2]. destruct (I1 C1) as (o1 & E1 & M1). destruct (I2 C2) as (o2 & E2 & M2).
    eexists. split; [apply eval_op; eassumption|]. intro z. split; intro H.
    + assert (exists x, o1 = Some x) as (x & ->) by (inversion H; subst; eexists; apply M1; eassumption).
      assert (exists y, o2 = Some y) as (y & ->) by (inversion H; subst; eexists; apply M2; eassumption).
      eapply op_num_inv; [| |exact H].
      * intros x' Hx. apply M1 in Hx. congruence.
      * intros y' Hy. apply M2 in Hy. congruence.
    + destruct o1 as [x|], o2 as [y|]; try discriminate.
      eapply op_num_spec; [apply M1; reflexivity|apply M2; reflexivity|exact H].
Qed.

Lemma cmp_num : forall c d p q x y, evaluate p = Ok (opt_num x) -> evaluate q = Ok (opt_num y) ->
  exists b, satisfied (Pred (cmp_kind c) d [p; q]) = Ok b /\
    (b = true <-> exists a a', x = Some a /\ y = Some a' /\ cmp_n O c a a').
Proof.
  intros c d p q x y E1 E2.
  assert (N : forall n, x = None \/ y = None -> n = false -> exists b : bool, Ok n = Ok b /\
    (b = true <-> exists a a', x = Some a /\ y = Some a' /\ cmp_n O c a a')).
  { intros n D ->. exists false. split; [reflexivity|]. split; [discriminate|]. intros (a & a' & X & Y & _). destruct D; congruence. }
  assert (G : forall (n : bool) a a', x = Some a -> y = Some a' -> (n = true <-> cmp_n O c a a') -> exists b : bool, Ok n = Ok b /\
    (b = true <-> exists a a', x = Some a /\ y = Some a' /\ cmp_n O c a a')).
  { intros n a a' -> -> D. exists n. split; [reflexivity|]. rewrite D. split; [eauto|]. intros (b & b' & X & Y & Z). congruence. }
  destruct c; cbn [cmp_kind Predicate.satisfied]; rewrite E1, E2; cbn [bind];
    destruct x as [[u|u]|], y as [[w|w]|];
    cbn [opt_num p_lt p_le p_gt p_ge p_eq compare];
    try (apply N; [auto|reflexivity]; fail);
    eapply G; try reflexivity; cbn [cmp_n holds_cmp fcmp as_float]; try tauto.
  - apply Z.ltb_lt.
  - apply Z.leb_le.
  - rewrite Z.gtb_ltb, Z.ltb_lt. lia.
  - rewrite Z.geb_leb, Z.leb_le. lia.
  - apply Z.eqb_eq.
Qed.

Lemma sat_num : forall e p, repr_m e p -> Forall var_ok vars -> closed_m vars e ->
  exists b, satisfied p = Ok b /\ (b = true <-> means_any O vars e).
Proof.
  intros e p HR HV HC. revert p HR HC. unfold means_any.
  induction e as [|c a b|i j|a IH|l IH|l IH] using mexp_ind2; intros p HR HC; inversion HR; subst.
  - exists true. cbn. tauto.
  - destruct HC as [C1 C2].
    match goal with H1 : repr_n a ?p, H2 : repr_n b ?q |- _ =>
      destruct (eval_num a p H1 HV C1) as (o1 & E1 & M1); destruct (eval_num b q H2 HV C2) as (o2 & E2 & M2);
      destruct (cmp_num c d p q o1 o2 E1 E2) as (r & -> & Hr) end.
    exists r. split; [reflexivity|]. rewrite Hr. cbn [means_m]. split.
    + intros (x & y & X & Y & Z). exists x, y. rewrite M1, M2. auto.
    + intros (x & y & X & Y & Z). exists x, y. rewrite M1 in X. rewrite M2 in Y. auto.
  - destruct HC as [C1 C2]. apply nthN_lt in C1, C2. destruct C1 as (v & Hv), C2 as (w & Hw).
    cbn [Predicate.satisfied]. unfold var_at. rewrite Hv, Hw. cbn [bind]. eexists. split; [reflexivity|].
    rewrite Forall_forall in HV. pose proof (var_eqb_ok v w (HV v (nthN_In _ _ _ _ Hv)) (HV w (nthN_In _ _ _ _ Hw))) as E.
    cbn [means_m]. unfold same_var. split.
    + intro H. exists v, w. repeat split; auto. intro X. apply E in X. rewrite X in H. discriminate.
    + intros (v' & w' & E1 & E2 & N). replace v' with v in N by congruence. replace w' with w in N by congruence.
      destruct (Compare.var_eqb v w); [exfalso; apply N; apply E; reflexivity|reflexivity].
  - match goal with H : repr_m a ?p |- _ => destruct (IH p H HC) as (r & E & Hr) end.
    cbn [Predicate.satisfied]. rewrite E. cbn [bind]. exists (negb r). split; [reflexivity|]. cbn [means_m].
    rewrite <- Hr. destruct r; cbn; split; intro; congruence.
  - match goal with H : Forall2 _ l _ |- _ => rename H into F2 end. clear HR. revert HC. induction F2 as [|a q l ps R F2 IHl]; intro HC.
    + exists true. cbn. tauto.
    + inversion IH as [|? ? IHa IHr]; subst. destruct HC as [C1 C2]. destruct (IHa q R C1) as (r & E & Hr).
      destruct (IHl IHr C2) as (r' & E' & Hr').
      cbn [Predicate.satisfied] in E' |- *. rewrite E. cbn [bind]. destruct r.
      * exists r'. split; [exact E'|]. rewrite Hr'. cbn [means_m]. intuition.
      * exists false. split; [reflexivity|]. cbn [means_m]. intuition congruence.
  - match goal with H : Forall2 _ l _ |- _ => rename H into F2 end. clear HR. revert HC. induction F2 as [|a q l ps R F2 IHl]; intro HC.
    + exists false. cbn. intuition congruence.
    + inversion IH as [|? ? IHa IHr]; subst. destruct HC as [C1 C2]. destruct (IHa q R C1) as (r & E & Hr).
      destruct (IHl IHr C2) as (r' & E' & Hr').
      cbn [Predicate.satisfied] in E' |- *. rewrite E. cbn [bind]. destruct r.
      * exists true. split; [reflexivity|]. cbn [means_m]. intuition.
      * exists r'. split; [exact E'|]. rewrite Hr'. cbn [means_m]. intuition congruence.
Qed.
End E.

(** ** Exact operations *)
Section X.
Variables (O : fops) (val : F O -> Q) (vars : list var).
Hypothesis EX : exact_ops O val.

Definition rat (x : number O) : Q := match x with Int z => inject_Z z | Flo f => val f end.

Lemma rat_float : forall x, (val (as_float O x) == rat x)%Q.
Proof. intros [z|f]; cbn; [apply (ex_int O val EX)|reflexivity]. Qed.

Lemma rat_zero : forall x, nonzero O x <-> ~ (rat x == 0)%Q.
Proof.
  intros [z|f]; cbn.
  - split; intros H X; apply H.
    + unfold inject_Z, Qeq in X. cbn in X. lia.
    + subst. reflexivity.
  - rewrite <- (ex_zero O val EX). destruct (f_is_zero O f); split; congruence.
Qed.

Lemma qop_compat : forall o x x' y y', (x == x')%Q -> (y == y')%Q -> (qop o x y == qop o x' y')%Q.
Proof. intros [] x x' y y' Hx Hy; cbn; rewrite Hx, Hy; reflexivity. Qed.

Lemma zop_rat : forall o x y z, zop o x y = Some z -> (inject_Z z == qop o (inject_Z x) (inject_Z y))%Q.
Proof.
  intros [] x y z E; cbn in E; inversion E; cbn [qop].
  - rewrite inject_Z_plus. reflexivity.
  - unfold Qminus. rewrite <- inject_Z_opp, <- inject_Z_plus. reflexivity.
  - rewrite inject_Z_mult. reflexivity.
Qed.

Lemma holds_compat : forall c x x' y y', (x == x')%Q -> (y == y')%Q -> (holds_q c x y <-> holds_q c x' y').
Proof. intros [] x x' y y' Hx Hy; cbn; rewrite Hx, Hy; reflexivity. Qed.

Lemma rat_of_number : forall e x, means_n O vars e x -> exists q, means_q vars e q /\ (rat x == q)%Q.
Proof.
  intros e x H. induction H as [z|d|i v x Hv Hx|i v z Hv Hz|o a b x y z H1 (q1 & M1 & E1) H2 (q2 & M2 & E2) E|o a b x y H1 (q1 & M1 & E1) H2 (q2 & M2 & E2) N D].
  - eexists. split; [constructor|reflexivity].
  - eexists. split; [constructor|apply (ex_double O val EX)].
  - unfold num_value in Hx. assert (exists q, rat_value v = Some q /\ (rat x == q)%Q) as (q & R & E).
    { unfold rat_value. destruct (v_fmt v); try (destruct (int_value v); inversion Hx; subst; eexists; split; reflexivity).
      destruct (v_val v); try (destruct (int_value v); inversion Hx; subst; eexists; split; reflexivity).
      inversion Hx; subst. eexists. split; [reflexivity|]. apply (ex_float O val EX). }
    exists q. split; [econstructor; eauto|exact E].
  - eexists. split; [econstructor; eauto|reflexivity].
  - exists (qop o q1 q2). split.
    + constructor; auto. intros ->. discriminate.
    + cbn [rat]. rewrite (zop_rat o x y z E). apply qop_compat; assumption.
  - assert (Z : o = ODiv -> ~ (val (as_float O y) == 0)%Q).
    { intro Eo. rewrite rat_float. apply rat_zero. auto. }
    exists (qop o q1 q2). split.
    + constructor; auto. intros Eo. rewrite <- E2, <- rat_float. auto.
    + cbn [rat]. rewrite (ex_op O val EX o _ _ Z). apply qop_compat; rewrite rat_float; assumption.
Qed.

Lemma number_of_rat : forall e q, means_q vars e q -> exists x, means_n O vars e x /\ (rat x == q)%Q.
Proof.
  intros e x H. induction H as [z|d|i v q Hv Hq|i v z Hv Hz|o a b q1 q2 H1 (x & M1 & E1) H2 (y & M2 & E2) Z].
  - eexists. split; [constructor|reflexivity].
  - eexists. split; [constructor|apply (ex_double O val EX)].
  - unfold rat_value in Hq. assert (exists x, num_value O v = Some x /\ (rat x == q)%Q) as (x & R & E).
    { unfold num_value. destruct (v_fmt v); try (destruct (int_value v); inversion Hq; subst; eexists; split; reflexivity).
      destruct (v_val v); try (destruct (int_value v); inversion Hq; subst; eexists; split; reflexivity).
      inversion Hq; subst. eexists. split; [reflexivity|]. apply (ex_float O val EX). }
    exists x. split; [econstructor; eauto|exact E].
  - eexists. split; [econstructor; eauto|reflexivity].
  - assert (Hz : o = ODiv -> nonzero O y).
    { intro Eo. apply rat_zero. rewrite E2. auto. }
    assert (FL : (forall z z', x = Int z -> y = Int z' -> o = ODiv) -> exists n, means_n O vars (NOp o a b) n /\ (rat n == qop o q1 q2)%Q).
    { intro N. eexists. split; [apply (mn_float O vars o a b x y M1 M2 N Hz)|]. cbn [rat].
      rewrite (ex_op O val EX). { apply qop_compat; rewrite rat_float; assumption. }
      intro Eo. rewrite rat_float. apply rat_zero. auto. }
    destruct x as [u|u], y as [w|w]; try (apply FL; intros; discriminate).
    destruct (zop o u w) eqn:E.
    + eexists. split; [eapply mn_exact; eauto|]. cbn [rat] in *. rewrite (zop_rat _ _ _ _ E). apply qop_compat; assumption.
    + apply FL. intros. destruct o; try discriminate. reflexivity.
Qed.

Lemma cmp_rat : forall c x y, cmp_n O c x y <-> holds_q c (rat x) (rat y).
Proof.
  intros c x y.
  assert (FL : fcmp O c (as_float O x) (as_float O y) = true <-> holds_q c (rat x) (rat y)).
  { rewrite (ex_cmp O val EX). apply holds_compat; apply rat_float. }
  destruct x as [u|u], y as [w|w]; try exact FL.
  destruct c; cbn; unfold inject_Z, Qlt, Qle, Qeq; cbn; lia.
Qed.

Lemma means_rat_iff : forall e, means_any O vars e <-> means_rat vars e.
Proof.
  unfold means_any, means_rat. induction e as [|c a b|i j|a IH|l IH|l IH] using mexp_ind2; cbn [means_m]; try tauto.
  - split.
    + intros (x & y & X & Y & C). destruct (rat_of_number _ _ X) as (q & Q1 & E1). destruct (rat_of_number _ _ Y) as (r & Q2 & E2).
      exists q, r. split; [exact Q1|]. split; [exact Q2|]. apply cmp_rat in C. eapply holds_compat; [| |exact C]; symmetry; assumption.
    + intros (q & r & X & Y & C). destruct (number_of_rat _ _ X) as (x & Q1 & E1). destruct (number_of_rat _ _ Y) as (y & Q2 & E2).
      exists x, y. split; [exact Q1|]. split; [exact Q2|]. apply cmp_rat. eapply holds_compat; [| |exact C]; assumption.
  - induction IH as [|a l Ha Hl IHl]; [tauto|]. rewrite Ha. tauto.
  - induction IH as [|a l Ha Hl IHl]; [tauto|]. rewrite Ha. tauto.
Qed.
End X.

(** Rational arithmetic is exact. *)
Lemma qops_exact : exact_ops qops (fun q => q).
Proof.
  constructor; try (intros; cbn; reflexivity).
  - intros [] x y _; reflexivity.
  - intros [] x y; cbn [fcmp qops f_lt f_le f_gt f_ge f_eq holds_q].
    + unfold qlt, Qlt. apply Z.ltb_lt.
    + apply Qle_bool_iff.
    + unfold qlt, Qlt. apply Z.ltb_lt.
    + apply Qle_bool_iff.
    + apply Qeq_bool_iff.
  - intro x. cbn [qops f_is_zero]. rewrite Qeq_bool_iff. split; intro; symmetry; assumption.
Qed.
