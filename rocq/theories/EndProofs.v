(** Proofs about end-to-end queries: one point. *)
From Verif Require Import BaseProofs Types Predicate PredSpec PredProofs Query QuerySpec QueryProofs Instr InstrRun InstrSpec InstrText EndSpec.

Lemma kinds_agree : forall t k k', has_kind t k -> has_kind t k' -> k = k'.
Proof. intros t k k' A B. apply has_kind_fn in A. apply has_kind_fn in B. congruence. Qed.

(** ** The variables of a site *)
Lemma logged_det : forall ps b l r, logged_vars ps b l r -> forall r', logged_vars ps b l r' -> r = r'.
Proof.
  assert (NB : forall b, b = negb b -> False) by (intros []; discriminate).
  intros ps b l r H. induction H as [|n t k l r K S A L IH|n t k l r K A L IH|n t l r K L IH]; intros r' H';
    inversion H' as [|n2 t2 k2 l2 r2 K2 S2 A2 L2|n2 t2 k2 l2 r2 K2 A2 L2|n2 t2 l2 r2 K2 L2]; clear H'; subst n2 t2 l2 || idtac; auto.
  - f_equal; auto.
  - rewrite (kinds_agree _ _ _ K2 K) in A2. destruct (NB b). congruence.
  - destruct (K2 _ K) as [E E']. specialize (S E). congruence.
  - rewrite (kinds_agree _ _ _ K2 K) in A2. destruct (NB b). congruence.
  - destruct (K _ K2) as [E E']. specialize (S2 E). congruence.
Qed.
Lemma site_det : forall gs l, site_vars gs l -> forall l', site_vars gs l' -> l = l'.
Proof.
  intros gs l H. induction H as [|ps l a b gs r A B R IH]; intros l' H'; inversion H' as [|ps2 l2 a2 b2 gs2 r2 A2 B2 R2]; auto.
  rewrite (logged_det _ _ _ _ A _ A2), (logged_det _ _ _ _ B _ B2), (IH _ R2). reflexivity.
Qed.

Lemma logged_in : forall ps b l r x, logged_vars ps b l r -> In x r -> In x l.
Proof. intros ps b l r x H. induction H; intros X; [exact X|destruct X as [X|X]; [left; exact X|right; auto]|right; auto|right; auto]. Qed.
Lemma site_in : forall gs l, site_vars gs l -> forall y, In y l -> exists g, In g gs /\ In (lv_name y, lv_type y) (snd g).
Proof.
  intros gs l H. induction H as [|ps l a b gs r A B _ IH]; intros y Hy; [destruct Hy|]. apply in_app_or in Hy. destruct Hy as [Hy|Hy].
  - apply in_map_iff in Hy. destruct Hy as ([n t] & <- & Hy). exists (ps, l). split; [left; reflexivity|]. cbn.
    apply in_app_or in Hy. destruct Hy as [Hy|Hy]; [exact (logged_in _ _ _ _ _ A Hy)|exact (logged_in _ _ _ _ _ B Hy)].
  - destruct (IH y Hy) as (g & Hg & X). exists g. split; [right; exact Hg|exact X].
Qed.
Lemma env_in : forall s env l y k, env_ok s env -> site_vars (snd s) l -> In y l -> has_kind (lv_type y) k -> inhabits k (env (lv_name y)).
Proof.
  intros s env l y k E S Y K. destruct (site_in _ _ S _ Y) as (g & Hg & X). unfold env_ok in E. rewrite Forall_forall in E. specialize (E _ Hg).
  rewrite Forall_forall in E. specialize (E _ X). cbn in E. destruct (E _ K). assumption.
Qed.

(** ** Values *)
Definition shown (T : trace (option N)) (env : name -> rvalue) (y : lvar) (x : var) : Prop :=
  var_shows T (lv_strings y) (lv_name y) (lv_type y) (env (lv_name y)) x.

Lemma int_agrees : forall T env y x z, shown T env y x -> (forall k, has_kind (lv_type y) k -> inhabits k (env (lv_name y))) ->
  (int_value x = Some z <-> int_of env y z).
Proof.
  intros T env y x z (_ & _ & k & K & SH) INH. specialize (INH k K). unfold int_value.
  remember (env (lv_name y)) as v eqn:Ev.
  destruct SH as [n z' u U Z|n z'|b|b|k a s HK AS|a s PS|s PS].
  - split; [intros [= <-]; rewrite Z; eapply io_int; eauto|]. intros H. destruct H as [sg' n' z2 K' E|a s K' E|a s K' AS E];
      rewrite <- Ev in E; inversion E; subst; reflexivity.
  - cbn in INH. assert (ZZ : Z.of_N (Z.to_N z') = z') by (apply Z2N.id; lia). split.
    + intros [= <-]. rewrite ZZ. eapply io_int; eauto.
    + intros H. destruct H as [sg' n' z2 K' E|a s K' E|a s K' AS E]; rewrite <- Ev in E; inversion E; subst. rewrite ZZ. reflexivity.
  - split; [discriminate|]. intros H. destruct H as [sg' n' z2 K' E|a s K' E|a s K' AS E]; rewrite <- Ev in E; discriminate.
  - split; [discriminate|]. intros H. destruct H as [sg' n' z2 K' E|a s K' E|a s K' AS E]; rewrite <- Ev in E; discriminate.
  - split.
    + intros [= <-]. destruct HK as [->| ->]; [eapply io_ptr; eauto|]. unfold as_string in AS. rewrite andb_true_r in AS. eapply io_char; eauto.
    + intros H. destruct H as [sg' n' z2 K' E|a' s' K' E|a' s' K' AS' E]; rewrite <- Ev in E; inversion E; subst; reflexivity.
  - split; [discriminate|]. intros H. destruct H as [sg' n' z2 K' E|a' s' K' E|a' s' K' AS' E].
    + pose proof (kinds_agree _ _ _ K K'). discriminate.
    + pose proof (kinds_agree _ _ _ K K'). discriminate.
    + congruence.
  - split; [discriminate|]. intros H. destruct H as [sg' n' z2 K' E|a' s' K' E|a' s' K' AS' E]; pose proof (kinds_agree _ _ _ K K'); discriminate.
Qed.

Lemma float_agrees : forall T env y x, shown T env y x -> v_fmt x = FLOAT -> has_kind (lv_type y) CFloat \/ has_kind (lv_type y) CDouble.
Proof.
  intros T env y x (_ & _ & k & K & SH) F. destruct SH; try discriminate; auto.
Qed.

(** ** Choices and assignments *)
Lemma Forall2_nthN : forall A B (R : A -> B -> Prop) l m, Forall2 R l m -> forall i,
  match nthN l i, nthN m i with Some x, Some y => R x y | None, None => True | _, _ => False end.
Proof.
  intros A B R l m H. induction H as [|a b l m X _ IH]; intros i; [destruct i; exact Logic.I|]. cbn [nthN]. destruct (i =? 0); [exact X|apply IH].
Qed.
Lemma Forall2_same_len : forall A B (R : A -> B -> Prop) l m, Forall2 R l m -> lenN l = lenN m.
Proof. intros A B R l m H. induction H; [reflexivity|rewrite !lenN_cons; congruence]. Qed.

Section Point.
Variables (T : trace (option N)) (env : name -> rvalue) (l : list lvar) (p : point N).
Hypothesis SH : Forall2 (shown T env) l (p_vars p).
Hypothesis INH : forall y k, In y l -> has_kind (lv_type y) k -> inhabits k (env (lv_name y)).

Lemma at_pos : forall b, match nthN l b, nthN (p_vars p) b with Some y, Some x => shown T env y x | None, None => True | _, _ => False end.
Proof. apply Forall2_nthN. exact SH. Qed.

Lemma choice_assignment : forall W fvs bs, asks (tr_names T) (tr_types T) W fvs -> (choice W l bs <-> assignment p fvs bs).
Proof.
  intros W fvs bs H. revert bs. induction H as [|w fv W fvs A _ IH]; intros bs.
  - split; intros X; inversion X; constructor.
  - assert (ONE : forall b, (exists y, nthN l b = Some y /\ In (type_text (lv_type y)) w) <-> exists v, nthN (p_vars p) b = Some v /\ In (v_type v) fv).
    { intros b. pose proof (at_pos b) as AT. split.
      - intros (y & Y & I1). rewrite Y in AT. destruct (nthN (p_vars p) b) as [x|]; [|destruct AT]. exists x. split; [reflexivity|].
        destruct AT as (_ & (d & D1 & D2) & _). apply (A _ _ _ D1 D2). exact I1.
      - intros (x & X & I1). rewrite X in AT. destruct (nthN l b) as [y|]; [|destruct AT]. exists y. split; [reflexivity|].
        destruct AT as (_ & (d & D1 & D2) & _). apply (A _ _ _ D1 D2). exact I1. }
    split; intros X; inversion X as [|? b ? bs' X1 X2]; subst; (constructor; [apply ONE; exact X1|apply IH; exact X2]).
Qed.

(** The variables of an assignment. *)
Lemma bound_at : forall fvs bs i, assignment p fvs bs ->
  nthN (bound p bs) i = match nthN bs i with Some b => nthN (p_vars p) b | None => None end.
Proof.
  intros fvs bs i H. revert i. induction H as [|fv b fvs bs (v & V & _) _ IH]; intros i; [destruct i; reflexivity|].
  unfold bound. cbn [flat_map]. rewrite V. cbn [app nthN]. destruct (i =? 0); [symmetry; exact V|apply IH].
Qed.

Lemma chosen_bound : forall fvs bs i, assignment p fvs bs ->
  match nthN (bound p bs) i with
  | Some x => exists y, chosen l bs i y /\ In y l /\ shown T env y x
  | None => lenN fvs <= i
  end.
Proof.
  intros fvs bs i H. rewrite (bound_at _ _ i H). pose proof (Forall2_nthN _ _ _ _ _ H i) as AT. destruct (nthN bs i) as [b|] eqn:B.
  - pose proof (at_pos b) as P. destruct (nthN fvs i); [|destruct AT]. destruct AT as (v & V & _). rewrite V in *. destruct (nthN l b) as [y|] eqn:Y; [|destruct P].
    exists y. split; [exists b; auto|]. split; [eapply nthN_In; exact Y|exact P].
  - apply nthN_None. destruct (nthN fvs i); [destruct AT|reflexivity].
Qed.

Lemma chosen_fun : forall bs i y y', chosen l bs i y -> chosen l bs i y' -> y = y'.
Proof. intros bs i y y' (b & B1 & B2) (b' & B3 & B4). congruence. Qed.

Lemma value_agrees : forall fvs bs e z, assignment p fvs bs -> on_values_i (lenN fvs) e ->
  (means_i (bound p bs) e z <-> value_in env l bs e z).
Proof.
  intros fvs bs e z H. revert z. induction e as [c|i|i|a IHa b IHb|a IHa b IHb|a IHa b IHb]; intros z ON; cbn [on_values_i] in ON.
  - split; intros X; inversion X; subst; constructor.
  - pose proof (chosen_bound _ _ i H) as C. destruct (nthN (bound p bs) i) as [x|] eqn:E; [|lia]. destruct C as (y & C & Y & S). split.
    + intros X. inversion X; subst. eapply vi_value; [exact C|]. apply (int_agrees _ _ _ _ _ S); [intros; apply INH; auto|]. congruence.
    + intros X. inversion X as [|? y' ? C' I' | | |]; subst. rewrite (chosen_fun _ _ _ _ C' C) in I'.
      eapply mi_value; [exact E|]. apply (int_agrees _ _ _ _ _ S); [intros; apply INH; auto|]. exact I'.
  - destruct ON.
  - destruct ON as [O1 O2]. split; intros X; inversion X; subst; constructor; (apply IHa || apply IHb); assumption.
  - destruct ON as [O1 O2]. split; intros X; inversion X; subst; constructor; (apply IHa || apply IHb); assumption.
  - destruct ON as [O1 O2]. split; intros X; inversion X; subst; constructor; (apply IHa || apply IHb); assumption.
Qed.

End Point.

(** ** Conditions: an induction principle *)
Section BInd.
Variable P : bexp -> Prop.
Hypothesis HT : P BTrue.
Hypothesis HC : forall c a b, P (BCmp c a b).
Hypothesis HD : forall i j, P (BDistinct i j).
Hypothesis HN : forall a, P a -> P (BNot a).
Hypothesis HA : forall l, Forall P l -> P (BAnd l).
Hypothesis HO : forall l, Forall P l -> P (BOr l).
Fixpoint bexp_ind2 (e : bexp) : P e :=
  match e with
  | BTrue => HT
  | BCmp c a b => HC c a b
  | BDistinct i j => HD i j
  | BNot a => HN a (bexp_ind2 a)
  | BAnd l => HA l ((fix go l : Forall P l := match l with [] => Forall_nil P | a :: r => Forall_cons a (bexp_ind2 a) (go r) end) l)
  | BOr l => HO l ((fix go l : Forall P l := match l with [] => Forall_nil P | a :: r => Forall_cons a (bexp_ind2 a) (go r) end) l)
  end.
End BInd.

Section Cond.
Variables (T : trace (option N)) (env : name -> rvalue) (l : list lvar) (p : point N).
Hypothesis SH : Forall2 (shown T env) l (p_vars p).
Hypothesis INH : forall y k, In y l -> has_kind (lv_type y) k -> inhabits k (env (lv_name y)).
Variables (fvs : list (list N)) (bs : list N).
Hypothesis AS : assignment p fvs bs.

Lemma truth_agrees : forall e, on_values (lenN fvs) e -> (means (bound p bs) e <-> true_in env l bs e).
Proof.
  induction e as [|c a b|i j|a IH|es IH|es IH] using bexp_ind2; intros ON; cbn [on_values] in ON.
  - reflexivity.
  - destruct ON as [O1 O2]. cbn [means true_in].
    split; intros (x & y & X & Y & Z); exists x, y; (split; [apply (value_agrees T env l p SH INH fvs bs a x AS O1); exact X|]);
      (split; [apply (value_agrees T env l p SH INH fvs bs b y AS O2); exact Y|exact Z]).
  - destruct ON.
  - cbn [means true_in]. specialize (IH ON). tauto.
  - cbn [means true_in]. induction IH as [|a r A _ IH2]; [reflexivity|]. destruct ON as [O1 O2]. specialize (A O1). specialize (IH2 O2). tauto.
  - cbn [means true_in]. induction IH as [|a r A _ IH2]; [reflexivity|]. destruct ON as [O1 O2]. specialize (A O1). specialize (IH2 O2). tauto.
Qed.

Lemma closed_i_here : forall e, on_values_i (lenN fvs) e ->
  (forall i y, uses_i i e -> chosen l bs i y -> ~ has_kind (lv_type y) CFloat /\ ~ has_kind (lv_type y) CDouble) -> closed_i (bound p bs) e.
Proof.
  induction e as [c|i|i|a IHa b IHb|a IHa b IHb|a IHa b IHb]; cbn [on_values_i closed_i]; intros ON NF; try (destruct ON as [O1 O2]; split; [apply IHa|apply IHb]; auto; intros i y U; apply NF; cbn; auto; fail); auto; [|destruct ON].
  pose proof (chosen_bound T env l p SH fvs bs i AS) as C. destruct (nthN (bound p bs) i) as [x|] eqn:E; [|lia]. destruct C as (y & C & Y & S).
  exists x. split; [reflexivity|]. intros F. destruct (NF i y eq_refl C). destruct (float_agrees _ _ _ _ S F); contradiction.
Qed.
Lemma closed_here : forall e, on_values (lenN fvs) e ->
  (forall i y, uses i e -> chosen l bs i y -> ~ has_kind (lv_type y) CFloat /\ ~ has_kind (lv_type y) CDouble) -> closed_b (bound p bs) e.
Proof.
  induction e as [|c a b|i j|a IH|es IH|es IH] using bexp_ind2; cbn [on_values closed_b]; intros ON NF; auto.
  - destruct ON as [O1 O2]. split; apply closed_i_here; auto; intros i y U; apply NF; cbn; auto.
  - destruct ON.
  - induction IH as [|a r A _ IH2]; [exact Logic.I|]. destruct ON as [O1 O2]. split; [apply A; auto|apply IH2; auto]; intros i y U; apply NF; cbn in *; auto.
  - induction IH as [|a r A _ IH2]; [exact Logic.I|]. destruct ON as [O1 O2]. split; [apply A; auto|apply IH2; auto]; intros i y U; apply NF; cbn in *; auto.
Qed.
End Cond.

Lemma wt_i : forall n e p, repr_i e p -> on_values_i n e -> wt_num n p.
Proof.
  intros n e p H. induction H as [d cs D|d cs D|i d cs|i d cs|a b p q d _ IH1 _ IH2|a b p q d _ IH1 _ IH2|a b p q d _ IH1 _ IH2]; cbn [on_values_i]; intros ON.
  - apply wn_const. cbn; auto.
  - apply wn_const. cbn; auto.
  - apply wn_value. exact ON.
  - destruct ON.
  - destruct ON. apply wn_arith; auto. cbn; auto.
  - destruct ON. apply wn_arith; auto. cbn; auto.
  - destruct ON. apply wn_arith; auto. cbn; auto.
Qed.
Lemma wt_b : forall n e p, repr_b e p -> on_values n e -> wt_bool n p.
Proof.
  intros n. induction e as [|c a b|i j|a IH|es IH|es IH] using bexp_ind2; intros p R ON; inversion R; subst; cbn [on_values] in ON.
  - constructor.
  - destruct ON. constructor; [destruct c; cbn; auto 10| |]; eapply wt_i; eassumption.
  - destruct ON.
  - constructor. apply IH; assumption.
  - constructor. match goal with X : Forall2 repr_b es _ |- _ => revert ON; clear R; induction X as [|a b es' ps X _ IH2] end; intros ON; [constructor|].
    inversion IH; subst. destruct ON. constructor; auto.
  - constructor. match goal with X : Forall2 repr_b es _ |- _ => revert ON; clear R; induction X as [|a b es' ps X _ IH2] end; intros ON; [constructor|].
    inversion IH; subst. destruct ON. constructor; auto.
Qed.

(** ** Number of choices *)
Lemma n_allowed_le : forall p fv, n_allowed p fv <= lenN (p_vars p).
Proof. intros p fv. unfold n_allowed, lenN. generalize (p_vars p). intros vs. induction vs as [|v vs IH]; cbn [filter length]; [lia|]. destruct (in_dec _ _ _); cbn [length]; lia. Qed.
Lemma n_assignments_le : forall p fvs, n_assignments p fvs <= lenN (p_vars p) ^ lenN fvs.
Proof.
  intros p fvs. induction fvs as [|fv fvs IH]; [cbn; lia|]. cbn [n_assignments]. rewrite lenN_cons.
  replace (lenN fvs + 1) with (N.succ (lenN fvs)) by lia. rewrite N.pow_succ_r'. apply N.mul_le_mono; [apply n_allowed_le|exact IH].
Qed.
