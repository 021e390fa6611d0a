From Verif Require Import BaseProofs Types Stream SkipList AMap MemMapSpec Reader FormatSpec ReaderMore ReaderProps Compare Predicate PredSpec.

(** Induction on trees. *)
Lemma pred_ind2 : forall P : pred -> Prop,
  (forall k d cs, Forall P cs -> P (Pred k d cs)) -> forall p, P p.
Proof.
  intros P H. fix IH 1. intros [k d cs]. apply H. induction cs as [|c r IHc]; constructor; [apply IH|exact IHc].
Qed.
Lemma bexp_ind2 : forall P : bexp -> Prop,
  P BTrue -> (forall c a b, P (BCmp c a b)) -> (forall i j, P (BDistinct i j)) ->
  (forall a, P a -> P (BNot a)) -> (forall l, Forall P l -> P (BAnd l)) -> (forall l, Forall P l -> P (BOr l)) ->
  forall e, P e.
Proof.
  intros P H1 H2 H3 H4 H5 H6. fix IH 1. intros [|c a b|i j|a|l|l]; [exact H1|apply H2|apply H3|apply H4; apply IH| |].
  - apply H5. induction l as [|c r IHc]; constructor; [apply IH|exact IHc].
  - apply H6. induction l as [|c r IHc]; constructor; [apply IH|exact IHc].
Qed.

(** ** Equality of variables *)
Lemma fmt_eqb_eq : forall a b, fmt_eqb a b = true <-> a = b.
Proof. intros [] []; split; cbv; intro; congruence. Qed.

Lemma bytes_eqb_eq : forall a b, bytes_eqb a b = true <-> a = b.
Proof. intros. unfold bytes_eqb. destruct list_eq_dec; split; congruence. Qed.

Lemma trunc_unsigned : forall n u w, u < 2 ^ (8 * n) -> w < 2 ^ (8 * n) -> trunc n u = trunc n w -> u = w.
Proof.
  intros n u w Hu Hw. unfold trunc, two8, two32.
  destruct (N.eqb_spec n 1) as [->|_].
  { replace (2 ^ (8 * 1)) with 256 in * by reflexivity. lia. }
  destruct (N.eqb_spec n 2) as [->|_].
  { replace (2 ^ (8 * 2)) with 65536 in * by reflexivity. lia. }
  destruct (N.eqb_spec n 4) as [->|_].
  { replace (2 ^ (8 * 4)) with 4294967296 in * by reflexivity. lia. }
  auto.
Qed.

Lemma s64_cases : forall u, u < 2 ^ 64 -> (s64 u = Z.of_N u \/ s64 u = Z.of_N u - 18446744073709551616)%Z /\ u < 18446744073709551616.
Proof.
  intros u Hu. replace (2 ^ 64) with 18446744073709551616 in Hu by reflexivity. split; [|exact Hu].
  unfold s64, two63, two64. destruct (u <? 9223372036854775808); [left|right]; reflexivity.
Qed.

Lemma trunc_signed : forall n u w, In n [1; 2; 4; 8] -> u < 2 ^ 64 -> w < 2 ^ 64 ->
  (- 2 ^ (8 * Z.of_N n - 1) <= s64 u < 2 ^ (8 * Z.of_N n - 1))%Z ->
  (- 2 ^ (8 * Z.of_N n - 1) <= s64 w < 2 ^ (8 * Z.of_N n - 1))%Z ->
  trunc n u = trunc n w -> u = w.
Proof.
  intros n u w Hn Hu Hw Su Sw. destruct (s64_cases u Hu) as [Cu Bu]. destruct (s64_cases w Hw) as [Cw Bw]. clear Hu Hw.
  destruct Hn as [<-|[<-|[<-|[<-|[]]]]]; unfold trunc, two8, two32.
  - replace (2 ^ (8 * Z.of_N 1 - 1))%Z with 128%Z in * by reflexivity.
    replace (1 =? 1) with true by reflexivity. lia.
  - replace (2 ^ (8 * Z.of_N 2 - 1))%Z with 32768%Z in * by reflexivity.
    replace (2 =? 1) with false by reflexivity. replace (2 =? 2) with true by reflexivity. lia.
  - replace (2 ^ (8 * Z.of_N 4 - 1))%Z with 2147483648%Z in * by reflexivity.
    replace (4 =? 1) with false by reflexivity. replace (4 =? 2) with false by reflexivity. replace (4 =? 4) with true by reflexivity. lia.
  - intro E. exact E.
Qed.

Lemma trunc_small : forall f v u w, v_fmt v = f -> var_ok v -> v_val v = VBits u ->
  forall v', v_fmt v' = f -> v_size v' = v_size v -> var_ok v' -> v_val v' = VBits w ->
  trunc (v_size v) u = trunc (v_size v) w -> u = w.
Proof.
  intros f v u w Hf Hv Hu v' Hf' Hs Hv' Hw. unfold var_ok in *. rewrite Hf in Hv. rewrite Hf' in Hv'. rewrite Hu in Hv. rewrite Hw in Hv'.
  rewrite Hs in Hv'. destruct f; try contradiction.
  - destruct Hv as (H1 & x & E & H2). inversion E; subst x. destruct Hv' as (_ & y & E' & H2'). inversion E'; subst y.
    apply trunc_unsigned; assumption.
  - destruct Hv as (H1 & x & E & H2 & H3). inversion E; subst x. destruct Hv' as (_ & y & E' & H2' & H3'). inversion E'; subst y.
    apply trunc_signed; assumption.
  - destruct Hv as (H1 & x & E & H2). inversion E; subst x. destruct Hv' as (_ & y & E' & H2'). inversion E'; subst y.
    apply trunc_unsigned; assumption.
  - destruct Hv as (H1 & x & E & H2). inversion E; subst x. destruct Hv' as (_ & y & E' & H2'). inversion E'; subst y.
    apply trunc_unsigned; assumption.
  - destruct Hv as (? & E & _). discriminate.
Qed.

Lemma val_eqb_refl : forall s v, v <> VIndet -> val_eqb s v v = true.
Proof. intros s [u|bs|] H; cbn; [apply N.eqb_refl|apply bytes_eqb_eq; reflexivity|congruence]. Qed.

Lemma var_eqb_ok : forall a b, var_ok a -> var_ok b -> (var_eqb a b = true <-> a = b).
Proof.
  intros a b Ha Hb. split.
  - unfold var_eqb. rewrite !andb_true_iff, !N.eqb_eq, fmt_eqb_eq. intros ((((((E1 & E2) & E3) & E4) & E5) & E6) & E7).
    assert (E : v_val a = v_val b).
    { destruct (v_val a) eqn:Va, (v_val b) eqn:Vb; cbn in E7; try discriminate.
      - apply N.eqb_eq in E7. f_equal. eapply (trunc_small (v_fmt a) a u u0 eq_refl Ha Va b); auto.
      - apply bytes_eqb_eq in E7. congruence. }
    destruct a, b; cbn in *; congruence.
  - intros <-. unfold var_eqb. rewrite !N.eqb_refl, (proj2 (fmt_eqb_eq _ _) eq_refl). cbn.
    apply val_eqb_refl. intro E. unfold var_ok in Ha. rewrite E in Ha.
    destruct (v_fmt a); repeat match goal with H : _ /\ _ |- _ => destruct H | H : exists _, _ |- _ => destruct H end; try discriminate. contradiction.
Qed.

(** ** Exact integers *)
Section E.
Variables (O : fops) (vars : list var).
Notation evaluate := (evaluate O vars).
Notation satisfied := (satisfied O vars).

Definition opt_val (o : option Z) : pval O := match o with Some z => PInt z | None => PInvalid end.

Lemma eval_exact : forall e p, repr_i e p -> Forall var_ok vars -> closed_i vars e ->
  exists o, evaluate p = Ok (opt_val o) /\ (forall z, means_i vars e z <-> o = Some z).
Proof.
  intros e p HR HV. rewrite Forall_forall in HV. 
  induction HR as [d cs Hd|d cs Hd|i d cs|i d cs|a b p q d R1 I1 R2 I2|a b p q d R1 I1 R2 I2|a b p q d R1 I1 R2 I2]; intro HC.
  - exists (Some (Z.of_N d)). split; [reflexivity|]. intro z. split; intro H; [inversion H; subst; reflexivity|inversion H; constructor].
  - exists (Some (s64 d)). split; [reflexivity|]. intro z. split; intro H; [inversion H; subst; reflexivity|inversion H; constructor].
  - destruct HC as (v & Hv & Hf). exists (int_value v). pose proof (HV v (nthN_In _ _ _ _ Hv)) as Hok. split.
    + cbn [Predicate.evaluate]. unfold var_at. rewrite Hv. cbn [bind]. unfold value_value, int_value, bits_of. unfold var_ok in Hok.
      destruct (v_fmt v); try congruence; try contradiction;
      repeat match goal with H : _ /\ _ |- _ => destruct H | H : exists _, _ |- _ => destruct H end;
      try match goal with H : v_val v = _ |- _ => rewrite H end; reflexivity.
    + intro z. split; intro H; [inversion H; subst; congruence|econstructor; eauto].
  - cbn [closed_i] in HC. apply nthN_lt in HC. destruct HC as (v & Hv). exists (size_of v). split.
    + cbn [Predicate.evaluate]. unfold var_at. rewrite Hv. cbn [bind]. unfold size_value, size_of. destruct (v_has v =? 0); reflexivity.
    + intro z. split; intro H; [inversion H; subst; congruence|econstructor; eauto].
  - destruct HC as [C1 C2]. destruct (I1 C1) as (o1 & E1 & M1). destruct (I2 C2) as (o2 & E2 & M2).
    exists (match o1, o2 with Some x, Some y => Some (x + y)%Z | _, _ => None end). split.
    + cbn [Predicate.evaluate]. rewrite E1, E2. cbn [bind]. destruct o1, o2; reflexivity.
    + intro z. split; intro H.
      * inversion H; subst. rewrite (proj1 (M1 _) ltac:(eassumption)), (proj1 (M2 _) ltac:(eassumption)). reflexivity.
      * destruct o1 as [x|], o2 as [y|]; inversion H; subst. constructor; [apply M1|apply M2]; reflexivity.
  - destruct HC as [C1 C2]. destruct (I1 C1) as (o1 & E1 & M1). destruct (I2 C2) as (o2 & E2 & M2).
    exists (match o1, o2 with Some x, Some y => Some (x - y)%Z | _, _ => None end). split.
    + cbn [Predicate.evaluate]. rewrite E1, E2. cbn [bind]. destruct o1, o2; reflexivity.
    + intro z. split; intro H.
      * inversion H; subst. rewrite (proj1 (M1 _) ltac:(eassumption)), (proj1 (M2 _) ltac:(eassumption)). reflexivity.
      * destruct o1 as [x|], o2 as [y|]; inversion H; subst. constructor; [apply M1|apply M2]; reflexivity.
  - destruct HC as [C1 C2]. destruct (I1 C1) as (o1 & E1 & M1). destruct (I2 C2) as (o2 & E2 & M2).
    exists (match o1, o2 with Some x, Some y => Some (x * y)%Z | _, _ => None end). split.
    + cbn [Predicate.evaluate]. rewrite E1, E2. cbn [bind]. destruct o1, o2; reflexivity.
    + intro z. split; intro H.
      * inversion H; subst. rewrite (proj1 (M1 _) ltac:(eassumption)), (proj1 (M2 _) ltac:(eassumption)). reflexivity.
      * destruct o1 as [x|], o2 as [y|]; inversion H; subst. constructor; [apply M1|apply M2]; reflexivity.
Qed.

Definition cmp_b (c : cmpop) (x y : Z) : bool :=
  match c with CLt => Z.ltb x y | CLe => Z.leb x y | CGt => Z.gtb x y | CGe => Z.geb x y | CEq => Z.eqb x y end.
Lemma cmp_b_iff : forall c x y, cmp_b c x y = true <-> holds_cmp c x y.
Proof. intros [] x y; cbn; lia. Qed.

Lemma cmp_case : forall c d p q o1 o2, evaluate p = Ok (opt_val o1) -> evaluate q = Ok (opt_val o2) ->
  satisfied (Pred (cmp_kind c) d [p; q]) = Ok (match o1, o2 with Some x, Some y => cmp_b c x y | _, _ => false end).
Proof. intros [] d p q o1 o2 E1 E2; cbn; rewrite E1, E2; destruct o1, o2; reflexivity. Qed.

Lemma sat_exact : forall e p, repr_b e p -> Forall var_ok vars -> closed_b vars e ->
  exists b, satisfied p = Ok b /\ (b = true <-> means vars e).
Proof.
  intros e. induction e as [|c a b|i j|a IH|l IH|l IH] using bexp_ind2; intros p HR HV HC; inversion HR; subst.
  - exists true. split; [reflexivity|]. cbn. tauto.
  - destruct HC as [C1 C2].
    match goal with H : repr_i a ?p, H' : repr_i b ?q |- _ =>
      destruct (eval_exact a p H HV C1) as (o1 & E1 & M1); destruct (eval_exact b q H' HV C2) as (o2 & E2 & M2) end.
    eexists. split; [apply cmp_case; eassumption|]. cbn [means]. split.
    + intro H. destruct o1 as [x|], o2 as [y|]; try discriminate. exists x, y. rewrite M1, M2, <- cmp_b_iff. auto.
    + intros (x & y & X1 & X2 & X3). rewrite M1 in X1. rewrite M2 in X2. subst. apply cmp_b_iff. exact X3.
  - destruct HC as [C1 C2]. apply nthN_lt in C1. apply nthN_lt in C2. destruct C1 as (v & Hv). destruct C2 as (w & Hw).
    exists (negb (var_eqb v w)). split.
    + cbn. unfold var_at. rewrite Hv, Hw. reflexivity.
    + rewrite Forall_forall in HV. pose proof (var_eqb_ok v w (HV v (nthN_In _ _ _ _ Hv)) (HV w (nthN_In _ _ _ _ Hw))) as HE.
      rewrite negb_true_iff. cbn. unfold same_var. split.
      * intro H. exists v, w. conj_split; auto. intro X. apply HE in X. congruence.
      * intros (v' & w' & E1 & E2 & H). rewrite Hv in E1. rewrite Hw in E2. inversion E1; inversion E2; subst.
        destruct (var_eqb v' w') eqn:X; [|reflexivity]. exfalso. apply H. apply HE. reflexivity.
  - match goal with H : repr_b a ?p |- _ => destruct (IH p H HV HC) as (b & E & M) end.
    exists (negb b). split.
    + cbn. rewrite E. reflexivity.
    + cbn. rewrite negb_true_iff. destruct b; [|split; [intros _ X; apply M in X; discriminate|reflexivity]].
      split; [discriminate|]. intro H. exfalso. apply H. apply M. reflexivity.
  - cbn [Predicate.satisfied means]. cbn [closed_b] in HC.
    match goal with H : Forall2 repr_b l ?ps |- _ => clear HR; rename H into HF; revert ps HF end.
    induction l as [|a l IHl]; intros ps HF; inversion HF as [|? p ? ps' R1 R2]; subst.
    + exists true. cbn. tauto.
    + inversion IH as [|? ? IHa IHr]; subst. destruct HC as [C1 C2]. destruct (IHa p R1 HV C1) as (b & E & M).
      destruct (IHl IHr C2 ps' R2) as (b' & E' & M'). rewrite E. cbn [bind]. destruct b.
      * exists b'. split; [exact E'|]. rewrite M'. assert (means vars a) by (apply M; reflexivity). tauto.
      * exists false. split; [reflexivity|]. split; [discriminate|]. intros [H _]. apply M in H. discriminate.
  - cbn [Predicate.satisfied means]. cbn [closed_b] in HC.
    match goal with H : Forall2 repr_b l ?ps |- _ => clear HR; rename H into HF; revert ps HF end.
    induction l as [|a l IHl]; intros ps HF; inversion HF as [|? p ? ps' R1 R2]; subst.
    + exists false. cbn. split; [reflexivity|]. split; [discriminate|tauto].
    + inversion IH as [|? ? IHa IHr]; subst. destruct HC as [C1 C2]. destruct (IHa p R1 HV C1) as (b & E & M).
      destruct (IHl IHr C2 ps' R2) as (b' & E' & M'). rewrite E. cbn [bind]. destruct b.
      * exists true. split; [reflexivity|]. assert (means vars a) by (apply M; reflexivity). tauto.
      * exists b'. split; [exact E'|]. rewrite M'. split; [tauto|]. intros [H|H]; [apply M in H; discriminate|exact H].
Qed.

(** ** Totality *)
Hypothesis HV : Forall var_ok vars.

Lemma value_total : forall v, In v vars -> exists x, value_value O v = Ok x.
Proof.
  intros v Hv. rewrite Forall_forall in HV. apply HV in Hv. unfold value_value, bits_of. unfold var_ok in Hv.
  destruct (v_fmt v); eauto; repeat match goal with H : _ /\ _ |- _ => destruct H | H : exists _, _ |- _ => destruct H end;
      match goal with H : v_val v = _ |- _ => rewrite H end; cbn; eauto.
Qed.

Lemma wt_num_total : forall p, wt_num (lenN vars) p -> exists x, evaluate p = Ok x.
Proof.
  intros p H. induction H as [i d cs Hi|i d cs Hi|k d cs Hk|k d a b Hk _ (x & E1) _ (y & E2)].
  - apply nthN_lt in Hi. destruct Hi as (v & Hv). cbn. unfold var_at. rewrite Hv. cbn. eauto.
  - apply nthN_lt in Hi. destruct Hi as (v & Hv). cbn. unfold var_at. rewrite Hv. cbn. apply value_total. eapply nthN_In; eauto.
  - destruct Hk as [<-|[<-|[<-|[]]]]; cbn; eauto.
  - destruct Hk as [<-|[<-|[<-|[<-|[]]]]]; cbn; rewrite E1, E2; cbn; eauto.
Qed.

Lemma wt_bool_total : forall p, wt_bool (lenN vars) p -> exists b, satisfied p = Ok b.
Proof.
  intro p. induction p as [k d cs IH] using pred_ind2. intro H. inversion H; subst.
  - cbn. eauto.
  - match goal with H1 : wt_num _ a, H2 : wt_num _ b |- _ => destruct (wt_num_total _ H1) as (x & E1); destruct (wt_num_total _ H2) as (y & E2) end.
    match goal with H : In k _ |- _ => destruct H as [<-|[<-|[<-|[<-|[<-|[]]]]]] end; cbn; rewrite E1, E2; cbn; eauto.
  - match goal with H1 : i < _, H2 : j < _ |- _ => apply nthN_lt in H1; apply nthN_lt in H2; destruct H1 as (v & Hv); destruct H2 as (w & Hw) end.
    cbn. unfold var_at. rewrite Hv, Hw. cbn. eauto.
  - inversion IH as [|? ? I1 _]; subst. destruct (I1 ltac:(assumption)) as (b & E). cbn. rewrite E. cbn. eauto.
  - cbn. match goal with H : Forall (wt_bool _) cs |- _ => rename H into HF end. clear H.
    induction cs as [|c r IHr]; [eauto|]. inversion IH; subst. inversion HF; subst.
    match goal with H : _ -> exists b, satisfied c = Ok b |- _ => destruct H as (b & E); [assumption|] end.
    rewrite E. cbn. destruct b; eauto.
  - cbn. match goal with H : Forall (wt_bool _) cs |- _ => rename H into HF end. clear H.
    induction cs as [|c r IHr]; [eauto|]. inversion IH; subst. inversion HF; subst.
    match goal with H : _ -> exists b, satisfied c = Ok b |- _ => destruct H as (b & E); [assumption|] end.
    rewrite E. cbn. destruct b; eauto.
Qed.

(** Any tree with references in range evaluates or aborts. *)
Definition ok_or_abort {A} (o : outcome A) : Prop := (exists x, o = Ok x) \/ o = Abort.

Lemma oa_bind : forall A B (o : outcome A) (f : A -> outcome B), ok_or_abort o -> (forall x, ok_or_abort (f x)) -> ok_or_abort (bind o f).
Proof. intros A B o f [[x ->]| ->] H; cbn; [apply H|right; reflexivity]. Qed.

Lemma oa_ok : forall A (x : A), ok_or_abort (Ok x).
Proof. left. eauto. Qed.
Lemma oa_abort : forall A, ok_or_abort (@Abort A).
Proof. right. reflexivity. Qed.

Lemma oa_var : forall i, i < lenN vars -> exists v, var_at vars i = Ok v /\ In v vars.
Proof. intros i Hi. apply nthN_lt in Hi. destruct Hi as (v & Hv). unfold var_at. rewrite Hv. eauto using nthN_In. Qed.

Lemma refs_children : forall k d cs, refs_below (lenN vars) (Pred k d cs) -> Forall (refs_below (lenN vars)) cs.
Proof.
  intros k d cs [_ H]. induction cs as [|c r IH]; constructor; [apply H|apply IH; apply H].
Qed.
Lemma refs_var : forall i cs, refs_below (lenN vars) (Pred VAR_REFERENCE i cs) -> i < lenN vars.
Proof. intros i cs [H _]. auto. Qed.

Lemma eval_safe : forall p, refs_below (lenN vars) p -> ok_or_abort (evaluate p).
Proof.
  intro p. induction p as [k d cs IH] using pred_ind2. intro HR. pose proof (refs_children _ _ _ HR) as HC.
  assert (HB : forall op : pval O -> pval O -> pval O, ok_or_abort (match cs with [a; b] => x <- evaluate a ;; y <- evaluate b ;; Ok (op x y) | _ => Abort end)).
  { intro op. destruct cs as [|a [|b [|c r]]]; try apply oa_abort.
    inversion IH as [|? ? I1 IH2]; subst. inversion IH2 as [|? ? I2 _]; subst. inversion HC as [|? ? C1 HC2]; subst. inversion HC2 as [|? ? C2 _]; subst.
    apply oa_bind; [auto|]. intro x. apply oa_bind; [auto|]. intro y. apply oa_ok. }
  destruct k; cbn [Predicate.evaluate]; try apply oa_abort; try apply oa_ok; try apply HB.
  - destruct cs as [|[[] i cs'] [|c r]]; try apply oa_abort. inversion HC as [|? ? C1 _]; subst.
    destruct (oa_var i (refs_var _ _ C1)) as (v & -> & Hv). apply oa_ok.
  - destruct cs as [|[[] i cs'] [|c r]]; try apply oa_abort. inversion HC as [|? ? C1 _]; subst.
    destruct (oa_var i (refs_var _ _ C1)) as (v & -> & Hv). cbn. left. apply value_total. exact Hv.
Qed.

Lemma sat_safe : forall p, refs_below (lenN vars) p -> ok_or_abort (satisfied p).
Proof.
  intro p. induction p as [k d cs IH] using pred_ind2. intro HR. pose proof (refs_children _ _ _ HR) as HC.
  assert (HB : forall op : pval O -> pval O -> bool, ok_or_abort (match cs with [a; b] => x <- evaluate a ;; y <- evaluate b ;; Ok (op x y) | _ => Abort end)).
  { intro op. destruct cs as [|a [|b [|c r]]]; try apply oa_abort.
    inversion HC as [|? ? C1 HC2]; subst. inversion HC2 as [|? ? C2 _]; subst.
    apply oa_bind; [apply eval_safe; auto|]. intro x. apply oa_bind; [apply eval_safe; auto|]. intro y. apply oa_ok. }
  destruct k; cbn [Predicate.satisfied]; try apply oa_abort; try apply oa_ok; try apply HB.
  - destruct cs as [|[[] i cs'] [|[[] j cs''] [|c r]]]; try apply oa_abort. inversion HC as [|? ? C1 HC2]; subst. inversion HC2 as [|? ? C2 _]; subst.
    destruct (oa_var i (refs_var _ _ C1)) as (v & -> & Hv). destruct (oa_var j (refs_var _ _ C2)) as (w & -> & Hw). apply oa_ok.
  - clear HR HB. induction cs as [|c r IHr]; [apply oa_ok|]. inversion IH; subst. inversion HC; subst.
    apply oa_bind; [auto|]. intros []; [auto|apply oa_ok].
  - clear HR HB. induction cs as [|c r IHr]; [apply oa_ok|]. inversion IH; subst. inversion HC; subst.
    apply oa_bind; [auto|]. intros []; [apply oa_ok|auto].
  - destruct cs as [|a [|c r]]; try apply oa_abort. inversion IH; subst. inversion HC; subst.
    apply oa_bind; [auto|]. intro b. apply oa_ok.
Qed.

(** Without AND and OR every node is evaluated: anything ill-typed aborts. *)
Lemma bin_ok : forall B (op : pval O -> pval O -> B) cs r,
  match cs with [a; b] => x <- evaluate a ;; y <- evaluate b ;; Ok (op x y) | _ => Abort end = Ok r ->
  exists a b x y, cs = [a; b] /\ evaluate a = Ok x /\ evaluate b = Ok y.
Proof.
  intros B op cs r H. destruct cs as [|a [|b [|c r']]]; try discriminate.
  apply bind_ok in H. destruct H as (x & E1 & H). apply bind_ok in H. destruct H as (y & E2 & _). eauto 10.
Qed.

Lemma var_at_lt : forall i v, var_at vars i = Ok v -> i < lenN vars.
Proof. intros i v. unfold var_at. destruct (nthN vars i) eqn:E; [|discriminate]. intros _. eapply nthN_Some_lt; eauto. Qed.

Lemma eval_wt : forall p x, evaluate p = Ok x -> wt_num (lenN vars) p.
Proof.
  intro p. induction p as [k d cs IH] using pred_ind2. intros r H.
  destruct k; cbn [Predicate.evaluate] in H; try discriminate;
  try (apply bin_ok in H; destruct H as (a & b & x & y & -> & E1 & E2);
       inversion IH as [|? ? I1 IH2]; subst; inversion IH2 as [|? ? I2 _]; subst;
       apply wn_arith; [cbn; auto 10|eauto|eauto]);
  try (apply wn_const; cbn; auto 10; fail).
  - destruct cs as [|[[] i cs'] [|c l]]; try discriminate. apply bind_ok in H. destruct H as (v & E & _). apply wn_size. eapply var_at_lt; eauto.
  - destruct cs as [|[[] i cs'] [|c l]]; try discriminate. apply bind_ok in H. destruct H as (v & E & _). apply wn_value. eapply var_at_lt; eauto.
Qed.

Lemma sat_wt : forall p b, no_and_or p -> satisfied p = Ok b -> wt_bool (lenN vars) p.
Proof.
  intro p. induction p as [k d cs IH] using pred_ind2. intros r HN H. destruct HN as (N1 & N2 & HN).
  destruct k; cbn [Predicate.satisfied] in H; try discriminate; try congruence;
  try (apply bin_ok in H; destruct H as (a & b & x & y & -> & E1 & E2); apply wb_cmp; [cbn; auto 10|eapply eval_wt; eauto|eapply eval_wt; eauto]).
  - constructor.
  - destruct cs as [|[[] i cs'] [|[[] j cs''] [|c l]]]; try discriminate. apply bind_ok in H. destruct H as (v & E & H).
    apply bind_ok in H. destruct H as (w & E' & _). apply wb_distinct; eapply var_at_lt; eauto.
  - destruct cs as [|a [|c l]]; try discriminate. apply bind_ok in H. destruct H as (x & E & _). inversion IH; subst.
    apply wb_not. destruct HN as [HN _]. eauto.
Qed.

(** ** Invalid numbers *)
Lemma invalid_iff : forall p, wt_num (lenN vars) p -> (evaluate p = Ok PInvalid <-> invalid O vars p).
Proof.
  intros p H. induction H as [i d cs Hi|i d cs Hi|k d cs Hk|k d a b Hk W1 IH1 W2 IH2].
  - apply nthN_lt in Hi. destruct Hi as (v & Hv). cbn. unfold var_at. rewrite Hv. cbn. unfold size_value. split.
    + destruct (N.eqb_spec (v_has v) 0); [|discriminate]. intros _. econstructor; eauto.
    + intro H. inversion H; subst; try (match goal with H : In VAR_SIZE _ |- _ => cbn in H; intuition discriminate end).
      assert (v0 = v) by congruence. subst. destruct (N.eqb_spec (v_has v) 0); [reflexivity|contradiction].
  - apply nthN_lt in Hi. destruct Hi as (v & Hv). pose proof (nthN_In _ _ _ _ Hv) as HI. cbn. unfold var_at. rewrite Hv. cbn. split.
    + intro E. apply (inv_blob O vars d i cs v Hv). revert E. rewrite Forall_forall in HV. apply HV in HI. unfold var_ok in HI.
      unfold value_value, bits_of. destruct (v_fmt v); auto; try contradiction;
      repeat match goal with H : _ /\ _ |- _ => destruct H | H : exists _, _ |- _ => destruct H end;
      match goal with H : v_val v = _ |- _ => rewrite H end; discriminate.
    + intro H. inversion H; subst; try (match goal with H : In VAR_VALUE _ |- _ => cbn in H; intuition discriminate end).
      assert (v0 = v) by congruence. subst. unfold value_value. match goal with H : v_fmt v = _ |- _ => rewrite H end. reflexivity.
  - destruct Hk as [<-|[<-|[<-|[]]]]; cbn; (split; [discriminate|]); intro H; inversion H; subst;
    match goal with H : In _ _ |- _ => cbn in H; intuition discriminate end.
  - destruct (wt_num_total _ W1) as (x & E1). destruct (wt_num_total _ W2) as (y & E2).
    assert (HE : evaluate (Pred k d [a; b]) = Ok (match k with ADD => p_add O x y | SUBTRACT => p_sub O x y | MULTIPLY => p_mul O x y | _ => p_div O x y end)).
    { destruct Hk as [<-|[<-|[<-|[<-|[]]]]]; cbn; rewrite E1, E2; reflexivity. }
    rewrite HE. split.
    + intro H. assert (HX : x = PInvalid \/ y = PInvalid \/ (k = DIVIDE /\ is_zero O y)).
      { destruct Hk as [<-|[<-|[<-|[<-|[]]]]]; destruct x, y; cbn in H; auto; try discriminate.
        - destruct z0; try discriminate; cbn; auto.
        - destruct (f_is_zero O x) eqn:Z; [cbn; auto|discriminate].
        - destruct z; try discriminate; cbn; auto.
        - destruct (f_is_zero O x0) eqn:Z; [cbn; auto|discriminate]. }
      destruct HX as [->|[->|[-> HZ]]].
      * apply inv_left; [exact Hk|]. apply IH1. exact E1.
      * apply inv_right; [exact Hk|]. apply IH2. exact E2.
      * eapply inv_div0; eauto.
    + intro H. inversion H; subst; try (cbn in Hk; intuition discriminate).
      * assert (x0 = y) by congruence. subst. destruct x as [|z|f], y as [|z'|f']; cbn in *; try contradiction; auto; subst; auto;
        match goal with H : f_is_zero _ _ = true |- _ => rewrite H end; reflexivity.
      * match goal with H : invalid O vars a |- _ => apply IH1 in H; rewrite H in E1; inversion E1; subst end.
        destruct Hk as [<-|[<-|[<-|[<-|[]]]]]; reflexivity.
      * match goal with H : invalid O vars b |- _ => apply IH2 in H; rewrite H in E2; inversion E2; subst end.
        destruct Hk as [<-|[<-|[<-|[<-|[]]]]]; destruct x; reflexivity.
Qed.

Lemma invalid_cmp : forall k d a b, In k [LESS_THAN; LESS_THAN_OR_EQUAL; GREATER_THAN; GREATER_THAN_OR_EQUAL; EQUAL] ->
  wt_num (lenN vars) a -> wt_num (lenN vars) b -> invalid O vars a \/ invalid O vars b ->
  satisfied (Pred k d [a; b]) = Ok false /\ (forall d', satisfied (Pred NOT d' [Pred k d [a; b]]) = Ok true).
Proof.
  intros k d a b Hk W1 W2 HI.
  assert (H : satisfied (Pred k d [a; b]) = Ok false).
  { destruct (wt_num_total _ W1) as (x & E1). destruct (wt_num_total _ W2) as (y & E2).
    assert (HX : x = PInvalid \/ y = PInvalid).
    { destruct HI as [HI|HI]; apply invalid_iff in HI; auto; [left|right]; congruence. }
    destruct Hk as [<-|[<-|[<-|[<-|[<-|[]]]]]]; cbn; rewrite E1, E2; cbn; destruct HX as [->| ->]; try reflexivity; destruct x; reflexivity. }
  split; [exact H|]. intro d'. cbn [Predicate.satisfied] in *. rewrite H. reflexivity.
Qed.
End E.

(** Variables of accepted traces. *)
Lemma signed_val_bound : forall data, In (lenN data) [1; 2; 4; 8] ->
  (- 2 ^ (8 * Z.of_N (lenN data) - 1) <= signed_val data < 2 ^ (8 * Z.of_N (lenN data) - 1))%Z.
Proof.
  intros data H. unfold signed_val. pose proof (le_val_bound data) as HB.
  rewrite pow_two8 in HB. unfold lenN in *.
  destruct H as [H|[H|[H|[H|[]]]]]; rewrite <- H in *; 
  match goal with |- context [(if ?b then _ else _)] => destruct b eqn:E end;
  apply Z.ltb_lt in E || apply Z.ltb_ge in E;
  repeat match goal with |- context [Z.pow 2 ?e] => let e' := eval vm_compute in (Z.pow 2 e) in replace (Z.pow 2 e) with e' in * by reflexivity end;
  match type of HB with _ < ?e => let e' := eval vm_compute in e in replace e with e' in HB by reflexivity end; lia.
Qed.

Lemma read_var_wf : forall ok coins pos t max bs tr p v,
  read_trace ok (skip_map coins pos) max (open_stream bs t) = Ok tr -> In p (tr_points tr) -> In v (p_vars p) ->
  exists F h nm ty data, file_wf ok F /\ tr_types tr = f_types F /\ tr_names tr = f_names F /\
    entry_wf ok (f_names F) (f_types F) (EVar nm ty data) /\ var_of (f_types F) h nm ty data v.
Proof.
  intros ok coins pos t max bs tr p v E Hp Hv. apply read_iff in E.
  destruct (accepted_denotes ok _ _ _ E) as [(F & HF & HD)|E0]; [|rewrite E0 in Hp; destruct Hp].
  pose proof HF as HF0.
  destruct HD as (D1 & D2 & D3). destruct (points_of_in _ _ _ _ _ _ D3 Hp) as (j & h' & es & Hes & (_ & _ & _ & HV & _)).
  destruct (vars_of_in _ _ _ _ _ HV Hv) as (h2 & nm & ty & data & Hin & HVar).
  destruct HF as (_ & _ & HW & _). rewrite Forall_forall in HW. specialize (HW _ Hes). rewrite Forall_forall in HW.
  specialize (HW _ Hin). exists F, h2, nm, ty, data. auto.
Qed.

Lemma var_of_ok : forall ok names types h nm ty data v,
  entry_wf ok names types (EVar nm ty data) -> var_of types h nm ty data v -> var_ok v.
Proof.
  intros ok names types h nm ty data v (W1 & W2 & W3 & d & W4 & W5) (V1 & V2 & V3 & d' & V4 & V5 & V6 & _).
  rewrite W4 in V4. inversion V4; subst d'. unfold var_ok. rewrite V5. unfold data_wf in W5. unfold value_of in V6.
  pose proof (le_val_bound data) as HB. rewrite pow_two8 in HB. rewrite V3.
  destruct (t_fmt d).
  - destruct W5 as [W5 W6]. rewrite W5 in *. split; [lia|]. eauto.
  - destruct W5 as [W5 W6]. rewrite <- W5 in W6. split; [assumption|]. destruct V6 as (u & E & Hu & Hs). exists u.
    rewrite Hs. conj_split; auto; apply signed_val_bound; assumption.
  - destruct W5 as [W5 W6]. rewrite W5 in *. split; [lia|]. eauto.
  - destruct W5 as [W5 W6]. rewrite W5 in *. split; [lia|]. eauto.
  - eauto.
  - destruct V6.
Qed.

Lemma read_var_ok : forall ok coins pos t max bs tr p,
  read_trace ok (skip_map coins pos) max (open_stream bs t) = Ok tr -> In p (tr_points tr) -> Forall var_ok (p_vars p).
Proof.
  intros ok coins pos t max bs tr p E Hp. apply Forall_forall. intros v Hv.
  destruct (read_var_wf _ _ _ _ _ _ _ _ _ E Hp Hv) as (F & h & nm & ty & data & _ & _ & _ & H1 & H2).
  eapply var_of_ok; eauto.
Qed.
