From Verif Require Import BaseProofs Types Compare Predicate PredSpec PredProofs Query QuerySpec.
From Coq Require Import Sorted FinFun.

Lemma Forall2_impl : forall A B (P Q : A -> B -> Prop) l l', (forall x y, P x y -> Q x y) -> Forall2 P l l' -> Forall2 Q l l'.
Proof. intros A B P Q l l' H HF. induction HF; constructor; auto. Qed.

(** ** mapO and below *)
Lemma mapO_Forall2 : forall A B (f : A -> outcome B) l l', mapO f l = Ok l' <-> Forall2 (fun x y => f x = Ok y) l l'.
Proof.
  intros A B f l. induction l as [|x r IH]; intro l'; cbn; split; intro H.
  - inversion H; constructor.
  - inversion H; reflexivity.
  - apply bind_ok in H. destruct H as (y & E1 & H). apply bind_ok in H. destruct H as (ys & E2 & H). inversion H; subst.
    constructor; [exact E1|apply IH; exact E2].
  - inversion H as [|? y ? ys E1 E2]; subst. rewrite E1. cbn. rewrite (proj2 (IH ys) E2). reflexivity.
Qed.

Lemma below_lenN : forall n, lenN (below n) = n.
Proof. intro n. unfold below, lenN. rewrite map_length, seq_length. lia. Qed.

Lemma below_In : forall n i, In i (below n) <-> i < n.
Proof.
  intros n i. unfold below. rewrite in_map_iff. split.
  - intros (k & <- & H). apply in_seq in H. lia.
  - intro H. exists (N.to_nat i). split; [lia|]. apply in_seq. lia.
Qed.

Lemma below_S : forall n, below (n + 1) = below n ++ [n].
Proof.
  intro n. unfold below. replace (N.to_nat (n + 1)) with (N.to_nat n + 1)%nat by lia. rewrite seq_app, map_app. cbn. repeat f_equal. lia.
Qed.

Lemma below_add : forall m n, below (m + n) = below m ++ map (fun i => i + m) (below n).
Proof.
  intros m n. induction n using N.peano_ind.
  - rewrite N.add_0_r. cbn. rewrite app_nil_r. reflexivity.
  - rewrite <- N.add_1_r at 1. rewrite N.add_assoc, below_S, IHn, <- app_assoc. f_equal.
    rewrite <- (N.add_1_r n), below_S, map_app. cbn [map]. rewrite (N.add_comm m n). reflexivity.
Qed.

Lemma below_mul : forall m k, below (m * k) = flat_map (fun t => map (fun i => i + m * t) (below m)) (below k).
Proof.
  intros m k. induction k using N.peano_ind.
  - rewrite N.mul_0_r. reflexivity.
  - rewrite <- N.add_1_r at 1. replace (m * (k + 1)) with (m * k + m) by lia. rewrite below_add, IHk.
    rewrite <- N.add_1_r, below_S, flat_map_app. cbn. rewrite app_nil_r. reflexivity.
Qed.

Lemma below_Forall2 : forall A (v : list A), Forall2 (fun i x => nthN v i = Some x) (below (lenN v)) v.
Proof.
  intros A v. induction v as [|x v IH] using rev_ind.
  - constructor.
  - rewrite lenN_app. replace (lenN [x]) with 1 by reflexivity. rewrite below_S. apply Forall2_app.
    + eapply Forall2_impl; [|exact IH]. intros i y H. cbn beta in H. rewrite nthN_nth_error in *.
      rewrite nth_error_app1; [exact H|]. apply nth_error_Some. congruence.
    + constructor; [|constructor]. rewrite nthN_nth_error, nth_error_app2; unfold lenN; rewrite Nat2N.id; [|lia]. rewrite Nat.sub_diag. reflexivity.
Qed.

Lemma below_sorted : forall n, StronglySorted N.lt (below n).
Proof.
  intro n. induction n using N.peano_ind; [constructor|]. rewrite <- N.add_1_r, below_S.
  assert (H : forall l, StronglySorted N.lt l -> Forall (fun i => i < n) l -> StronglySorted N.lt (l ++ [n])).
  { induction l as [|a l IH]; intros HS HF; cbn; [repeat constructor|]. inversion HS; subst. inversion HF; subst. constructor; [auto|].
    apply Forall_app. split; [assumption|]. repeat constructor. assumption. }
  apply H; [assumption|]. apply Forall_forall. intros i Hi. apply below_In in Hi. exact Hi.
Qed.

(** ** Cartesian product *)
Lemma n_results_acc : forall (vs : list (list N)) a, fold_left (fun n v => (n * lenN v) mod two64) vs (a mod two64) = (a * prod_len vs) mod two64.
Proof.
  induction vs as [|v r IH]; intro a; cbn [fold_left prod_len].
  - f_equal. lia.
  - rewrite N.mul_mod_idemp_l by discriminate. rewrite IH. f_equal. lia.
Qed.

Lemma n_results_mod : forall vs : list (list N), n_results vs = prod_len vs mod two64.
Proof. intro vs. unfold n_results. change 1 with (1 mod two64) at 1. rewrite n_results_acc. f_equal. lia. Qed.

Lemma combo_cons : forall v r i t x y, nthN v i = Some x -> combo r t = Ok y -> combo (v :: r) (i + lenN v * t) = Ok (x :: y).
Proof.
  intros v r i t x y H1 H2. assert (i < lenN v) by (eapply nthN_Some_lt; eauto). cbn [combo].
  replace ((i + lenN v * t) mod lenN v) with i. 2:{ rewrite N.mul_comm, N.mod_add by lia. symmetry. apply N.mod_small. lia. }
  replace ((i + lenN v * t) / lenN v) with t. 2:{ rewrite N.mul_comm, N.div_add by lia. rewrite N.div_small by lia. lia. }
  rewrite H1, H2. reflexivity.
Qed.

Lemma combos_product : forall vs, mapO (combo vs) (below (prod_len vs)) = Ok (product vs).
Proof.
  induction vs as [|v r IH].
  - reflexivity.
  - cbn [prod_len product]. rewrite below_mul. apply mapO_Forall2 in IH. apply mapO_Forall2.
    induction IH as [|t y ts ys E _ IH]; cbn [flat_map]; [constructor|].
    apply Forall2_app; [|exact IH]. pose proof (below_Forall2 _ v) as HF. revert HF. generalize (below (lenN v)) as is.
    assert (HG : forall is w, Forall2 (fun i x => nthN v i = Some x) is w ->
      Forall2 (fun x y0 => combo (v :: r) x = Ok y0) (map (fun i => i + lenN v * t) is) (map (fun x => x :: y) w)).
    { intros is w H. induction H; cbn [map]; constructor; auto. apply combo_cons; assumption. }
    intros is H. apply HG. exact H.
Qed.

Lemma product_In : forall A (vs : list (list A)) xs, In xs (product vs) <-> Forall2 (fun v x => In x v) vs xs.
Proof.
  intros A vs. induction vs as [|v r IH]; intro xs; cbn [product].
  - cbn. split; [intros [<-|[]]; constructor|]. intro H. inversion H. auto.
  - rewrite in_flat_map. split.
    + intros (t & Ht & H). apply in_map_iff in H. destruct H as (x & <- & Hx). constructor; [assumption|]. apply IH. assumption.
    + intro H. inversion H as [|? x ? t Hx Ht]; subst. exists t. split; [apply IH; assumption|]. apply in_map_iff. eauto.
Qed.

Lemma product_len : forall A (vs : list (list A)), lenN (product vs) = prod_len vs.
Proof.
  intros A vs. induction vs as [|v r IH]; [reflexivity|]. cbn [product prod_len]. rewrite <- IH. clear.
  induction (product r) as [|t l IHl]; cbn [flat_map].
  - change (lenN (@nil (list A))) with 0. lia.
  - rewrite lenN_app, IHl. replace (lenN (map (fun x => x :: t) v)) with (lenN v) by (unfold lenN; rewrite map_length; reflexivity).
    replace (lenN (t :: l)) with (1 + lenN l) by (unfold lenN; cbn [length]; lia). lia.
Qed.

Lemma product_NoDup : forall A (vs : list (list A)), Forall (@NoDup A) vs -> NoDup (product vs).
Proof.
  intros A vs H. induction H as [|v r Hv Hr IH]; cbn [product]; [repeat constructor; intros []|].
  induction (product r) as [|t l IHl]; cbn [flat_map]; [constructor|]. inversion IH; subst.
  assert (HN : NoDup (map (fun x => x :: t) v)). { apply FinFun.Injective_map_NoDup; [|assumption]. intros x y E. congruence. }
  assert (HD : forall a, In a (map (fun x => x :: t) v) -> ~ In a (flat_map (fun t0 => map (fun x => x :: t0) v) l)).
  { intros a Ha Hb. apply in_map_iff in Ha. destruct Ha as (x & <- & _). apply in_flat_map in Hb. destruct Hb as (t' & Ht' & Hb).
    apply in_map_iff in Hb. destruct Hb as (x' & E & _). inversion E; subst. contradiction. }
  revert HN HD. generalize (map (fun x => x :: t) v) as l1. intros l1 HN HD.
  induction l1 as [|a l1 IH1]; cbn; [apply IHl; assumption|]. inversion HN; subst. constructor.
  - rewrite in_app_iff. intros [X|X]; [contradiction|]. eapply HD; [left; reflexivity|exact X].
  - apply IH1; [assumption|]. intros b Hb. apply HD. right. exact Hb.
Qed.

Lemma cartesian_product : forall ok vs, prod_len vs < two64 -> ok (24 * prod_len vs) = true -> cartesian ok vs = Ok (product vs).
Proof.
  intros ok vs H Hok. unfold cartesian. rewrite n_results_mod, N.mod_small by assumption. rewrite Hok. apply combos_product.
Qed.

(** Order *)
Lemma ascending_app : forall a b, ascending a -> ascending b -> (forall x y, In x a -> In y b -> before x y) -> ascending (a ++ b).
Proof.
  induction a as [|x a IH]; intros b Ha Hb H; cbn; [assumption|]. destruct Ha as [H1 H2]. split.
  - apply Forall_app. split; [assumption|]. apply Forall_forall. intros y Hy. apply H; [left; reflexivity|assumption].
  - apply IH; auto. intros. apply H; [right|]; assumption.
Qed.

Lemma product_ascending : forall vs, Forall (StronglySorted N.lt) vs -> ascending (product vs).
Proof.
  intros vs H. induction H as [|v r Hv Hr IH]; cbn [product]; [cbn; auto|].
  induction (product r) as [|t l IHl]; cbn [flat_map]; [exact I|]. destruct IH as [I1 I2]. apply ascending_app; [|auto|].
  - clear -Hv. induction Hv as [|a v _ IH HF]; cbn; [exact I|]. split; [|assumption]. rewrite Forall_map.
    eapply Forall_impl; [|exact HF]. intros b Hb. apply before_head. exact Hb.
  - intros x y Hx Hy. apply in_map_iff in Hx. destruct Hx as (a & <- & _). apply in_flat_map in Hy. destruct Hy as (t' & Ht' & Hy).
    apply in_map_iff in Hy. destruct Hy as (b & <- & _). apply before_tail. rewrite Forall_forall in I1. apply I1. assumption.
Qed.

Lemma ascending_filter : forall f l, ascending l -> ascending (filter f l).
Proof.
  intros f l. induction l as [|x l IH]; intro H; cbn; [exact I|]. destruct H as [H1 H2]. destruct (f x); [|auto]. split; [|auto].
  rewrite Forall_forall in *. intros y Hy. apply filter_In in Hy. apply H1. tauto.
Qed.

(** ** Candidates *)
Lemma compatible_iff : forall fv v, compatible fv v = true <-> In (v_type v) fv.
Proof.
  intros fv v. unfold compatible. rewrite existsb_exists. split.
  - intros (t & Ht & E). apply N.eqb_eq in E. subst. assumption.
  - intro H. exists (v_type v). split; [assumption|apply N.eqb_refl].
Qed.

Lemma matching_In : forall vars fv i, In i (matching vars fv) <-> exists v, nthN vars i = Some v /\ In (v_type v) fv.
Proof.
  intros vars fv i. unfold matching. rewrite in_flat_map. split.
  - intros (j & Hj & H). destruct (nthN vars j) as [v|] eqn:E; [|destruct H]. destruct (compatible fv v) eqn:C; [|destruct H].
    destruct H as [<-|[]]. exists v. split; [assumption|]. apply compatible_iff. assumption.
  - intros (v & Hv & H). exists i. split; [apply below_In; eapply nthN_Some_lt; eauto|]. rewrite Hv.
    rewrite (proj2 (compatible_iff fv v) H). left. reflexivity.
Qed.

Lemma flat_map_sorted : forall (f : N -> list N) l, (forall i, f i = [i] \/ f i = []) -> StronglySorted N.lt l -> StronglySorted N.lt (flat_map f l).
Proof.
  intros f l Hf H. induction H as [|a l H IH HF]; cbn; [constructor|]. destruct (Hf a) as [-> | ->]; cbn; [|assumption].
  constructor; [assumption|]. rewrite Forall_forall in *. intros b Hb. apply in_flat_map in Hb. destruct Hb as (c & Hc & Hb).
  destruct (Hf c) as [E|E]; rewrite E in Hb; [|destruct Hb]. destruct Hb as [<-|[]]. auto.
Qed.

Lemma matching_sorted : forall vars fv, StronglySorted N.lt (matching vars fv).
Proof.
  intros vars fv. apply flat_map_sorted; [|apply below_sorted]. intro i. destruct (nthN vars i) as [v|]; [|auto]. destruct (compatible fv v); auto.
Qed.

Lemma sorted_NoDup : forall l, StronglySorted N.lt l -> NoDup l.
Proof.
  intros l H. induction H as [|a l _ IH HF]; constructor; [|assumption]. intro X. rewrite Forall_forall in HF. apply HF in X. lia.
Qed.

Lemma matching_len : forall p fv, lenN (matching (p_vars p) fv) = n_allowed p fv.
Proof.
  intros p fv. unfold matching, n_allowed. pose proof (below_Forall2 _ (p_vars p)) as H.
  set (vs := p_vars p) in *. clearbody vs.
  assert (HG : forall is w, Forall2 (fun i x => nthN vs i = Some x) is w ->
    lenN (flat_map (fun i => match nthN vs i with Some v => if compatible fv v then [i] else [] | None => [] end) is) =
    lenN (filter (fun v => if in_dec N.eq_dec (v_type v) fv then true else false) w)).
  { intros is w HF. induction HF as [|i x is w E _ IH]; [reflexivity|]. cbn [flat_map filter]. rewrite E.
    destruct (compatible fv x) eqn:C.
    - apply compatible_iff in C. destruct (in_dec N.eq_dec (v_type x) fv); [|contradiction].
      cbn [app]. unfold lenN in *. cbn [length]. lia.
    - destruct (in_dec N.eq_dec (v_type x) fv) as [HI|HI]; [apply compatible_iff in HI; congruence|]. exact IH. }
  apply HG. exact H.
Qed.

Lemma prod_len_matching : forall p fvs, prod_len (map (matching (p_vars p)) fvs) = n_assignments p fvs.
Proof. intros p fvs. induction fvs as [|fv r IH]; cbn [map prod_len n_assignments]; [reflexivity|]. rewrite matching_len, IH. reflexivity. Qed.

Lemma assignment_iff : forall p fvs bs, In bs (product (map (matching (p_vars p)) fvs)) <-> assignment p fvs bs.
Proof.
  intros p fvs bs. rewrite product_In. unfold assignment. revert bs. induction fvs as [|fv r IH]; intro bs; cbn [map]; split; intro H; inversion H; subst; constructor.
  - apply matching_In. assumption.
  - apply IH. assumption.
  - apply matching_In. assumption.
  - apply IH. assumption.
Qed.

Lemma lookup_ok : forall p fvs bs, assignment p fvs bs -> lookup_vars p bs = Ok (bound p bs) /\ lenN (bound p bs) = lenN fvs.
Proof.
  intros p fvs bs H. induction H as [|fv b fvs bs (v & Hv & _) _ [IH1 IH2]]; [split; reflexivity|]. split.
  - unfold lookup_vars. cbn [mapO]. rewrite Hv. cbn [bind]. unfold lookup_vars in IH1. rewrite IH1. cbn [bind bound flat_map]. rewrite Hv. reflexivity.
  - unfold bound in *. cbn [flat_map]. rewrite Hv. cbn [app]. unfold lenN in *. cbn [length]. lia.
Qed.

Lemma bound_ok : forall (P : var -> Prop) p bs, Forall P (p_vars p) -> Forall P (bound p bs).
Proof.
  intros P p bs H. unfold bound. rewrite Forall_forall in *. intros v Hv. apply in_flat_map in Hv. destruct Hv as (b & _ & Hv).
  destruct (nthN (p_vars p) b) eqn:E; [|destruct Hv]. destruct Hv as [<-|[]]. apply H. eapply nthN_In; eauto.
Qed.

(** ** Hard results, evaluated directly *)
Section D.
Variable O : fops.
Notation direct := (direct O).

Definition holds (hard : pred) (vs : list var) : bool := match satisfied O vs hard with Ok true => true | _ => false end.

Lemma direct_ok : forall st hard vs, Forall var_ok vs -> wt_bool (lenN vs) hard -> direct st hard vs = Ok (holds hard vs, tt).
Proof.
  intros st hard vs HV HW. unfold Query.direct, holds. destruct (wt_bool_total O vs HV hard HW) as (b & ->). destruct b; reflexivity.
Qed.

Definition bindings (p : pt) (fvs : list (list N)) (hard : pred) : list (list N) :=
  filter (fun bs => holds hard (bound p bs)) (product (map (matching (p_vars p)) fvs)).

Lemma hard_ok : forall st p fvs hard bss, Forall var_ok (p_vars p) -> wt_bool (lenN fvs) hard -> Forall (assignment p fvs) bss ->
  hard_results unit direct st p hard bss = Ok (map (result p) (filter (fun bs => holds hard (bound p bs)) bss), tt).
Proof.
  intros st p fvs hard bss HV HW H. induction H as [|bs bss Hb _ IH] in st |- *; cbn [hard_results filter map].
  - destruct st. reflexivity.
  - destruct (lookup_ok p fvs bs Hb) as [E1 E2]. unfold satisfies. rewrite E1. cbn [bind].
    rewrite direct_ok; [|apply bound_ok; assumption|rewrite E2; assumption]. cbn [bind].
    destruct (holds hard (bound p bs)); [|apply IH]. cbn [bind]. rewrite IH. cbn [bind map]. reflexivity.
Qed.

Lemma bindings_In : forall p fvs hard bs, In bs (bindings p fvs hard) <-> assignment p fvs bs /\ satisfied O (bound p bs) hard = Ok true.
Proof.
  intros. unfold bindings. rewrite filter_In, assignment_iff. unfold holds. destruct (satisfied O (bound p bs) hard) as [[]| | | |]; intuition congruence.
Qed.

Lemma bindings_NoDup : forall p fvs hard, NoDup (bindings p fvs hard).
Proof.
  intros. unfold bindings. apply NoDup_filter. apply product_NoDup. apply Forall_map. apply Forall_forall. intros. apply sorted_NoDup, matching_sorted.
Qed.

Lemma bindings_ascending : forall p fvs hard, ascending (bindings p fvs hard).
Proof.
  intros. unfold bindings. apply ascending_filter. apply product_ascending. apply Forall_map. apply Forall_forall. intros. apply matching_sorted.
Qed.

(** Resources: the combinations at a point can be counted and stored. *)

Lemma collect_hard : forall ok st p fvs hard, fvs <> [] -> Forall var_ok (p_vars p) -> wt_bool (lenN fvs) hard -> fits ok p fvs ->
  collect unit direct ok st p fvs hard [] = Ok (map (result p) (bindings p fvs hard), tt).
Proof.
  intros ok st p fvs hard Hne HV HW [H1 H2]. unfold collect. destruct fvs as [|fv r]; [congruence|]. cbn [bind].
  rewrite cartesian_product; [|rewrite prod_len_matching; exact H1|rewrite prod_len_matching; exact H2]. cbn [bind].
  rewrite (hard_ok st p (fv :: r) hard); [reflexivity|assumption|assumption|]. apply Forall_forall. intros bs Hb. apply assignment_iff. exact Hb.
Qed.

(** ** Soft results *)
Lemma vars_identity : forall (r : pt), lookup_vars r (below (lenN (p_vars r))) = Ok (p_vars r).
Proof.
  intro r. unfold lookup_vars. apply mapO_Forall2. eapply Forall2_impl; [|apply below_Forall2]. intros i v E. cbn. rewrite E. reflexivity.
Qed.

Lemma count_ok : forall st r soft n, Forall var_ok (p_vars r) -> Forall (wt_bool (lenN (p_vars r))) soft ->
  n + lenN soft < two32 ->
  count_soft unit direct st r soft (below (lenN (p_vars r))) n = Ok (n + score O soft (p_vars r), tt).
Proof.
  intros st r soft n HV H. induction H as [|s soft Hs _ IH] in st, n |- *; intro Hn; cbn [count_soft].
  - destruct st. unfold score. cbn. rewrite N.add_0_r. reflexivity.
  - unfold satisfies. rewrite vars_identity. cbn [bind]. rewrite direct_ok by assumption. cbn [bind].
    replace (lenN (s :: soft)) with (1 + lenN soft) in Hn by (unfold lenN; cbn [length]; lia).
    unfold score in *. cbn [filter]. fold (holds s (p_vars r)). destruct (holds s (p_vars r)).
    + rewrite N.mod_small by lia. rewrite IH by lia. f_equal. f_equal.
      match goal with |- context [lenN (s :: ?l)] => replace (lenN (s :: l)) with (1 + lenN l) by (unfold lenN; cbn [length]; lia) end. lia.
    + rewrite IH by lia. reflexivity.
Qed.

Lemma counts_ok : forall st rs soft n, Forall (fun r : pt => Forall var_ok (p_vars r) /\ lenN (p_vars r) = n) rs -> Forall (wt_bool n) soft ->
  lenN soft < two32 ->
  sat_counts unit direct st rs soft (below n) = Ok (map (fun r => score O soft (p_vars r)) rs, tt).
Proof.
  intros st rs soft n H HS Hl. induction H as [|r rs [HV <-] _ IH] in st |- *; cbn [sat_counts map].
  - destruct st. reflexivity.
  - rewrite count_ok by (auto; lia). cbn [bind]. rewrite IH. cbn [bind]. rewrite N.add_0_l. reflexivity.
Qed.

Lemma select_filter : forall A (f : A -> N) m rs, select m (map f rs) rs = filter (fun r => f r =? m) rs.
Proof. intros A f m rs. induction rs as [|r rs IH]; cbn; [reflexivity|]. rewrite IH. reflexivity. Qed.

Lemma max_ge : forall l a, a <= fold_left N.max l a /\ (forall x, In x l -> x <= fold_left N.max l a) /\ (fold_left N.max l a = a \/ In (fold_left N.max l a) l).
Proof.
  induction l as [|y l IH]; intro a; cbn.
  - split; [lia|]. split; [intros x []|auto].
  - destruct (IH (N.max a y)) as (H1 & H2 & H3). split; [lia|]. split.
    + intros x [<-|Hx]; [lia|auto].
    + destruct H3 as [H3|H3]; [|auto]. rewrite H3. destruct (N.max_spec a y) as [[_ ->]|[_ ->]]; auto.
Qed.

Definition best (soft : list pred) (p : pt) (bss : list (list N)) : list (list N) :=
  filter (fun bs => score O soft (bound p bs) =? max_count (map (fun b => score O soft (bound p b)) bss)) bss.

Lemma best_In : forall soft p bss bs, In bs (best soft p bss) <->
  In bs bss /\ forall bs', In bs' bss -> score O soft (bound p bs') <= score O soft (bound p bs).
Proof.
  intros soft p bss bs. unfold best, max_count. rewrite filter_In, N.eqb_eq. set (f := fun b => score O soft (bound p b)).
  change (score O soft (bound p bs)) with (f bs). change (forall bs', In bs' bss -> score O soft (bound p bs') <= f bs) with (forall bs', In bs' bss -> f bs' <= f bs).
  destruct (max_ge (map f bss) 0) as (H1 & H2 & H3). split.
  - intros [Hb E]. split; [assumption|]. intros bs' H'. rewrite E. apply H2. apply in_map. assumption.
  - intros [Hb H]. split; [assumption|]. apply N.le_antisymm; [apply H2; apply in_map; assumption|].
    destruct H3 as [H3|H3]; [rewrite H3; lia|]. apply in_map_iff in H3. destruct H3 as (b' & <- & Hb'). auto.
Qed.

Lemma best_nonempty : forall soft p bss, bss <> [] -> best soft p bss <> [].
Proof.
  intros soft p bss Hne E. unfold best, max_count in *. set (f := fun b => score O soft (bound p b)) in *.
  destruct (max_ge (map f bss) 0) as (H1 & H2 & H3).
  assert (HX : exists b, In b bss /\ f b = fold_left N.max (map f bss) 0).
  { destruct H3 as [H3|H3]; [|apply in_map_iff in H3; destruct H3 as (b & E' & Hb); eauto].
    destruct bss as [|b r]; [congruence|]. exists b. split; [left; reflexivity|].
    assert (f b <= fold_left N.max (map f (b :: r)) 0) by (apply H2; left; reflexivity). lia. }
  destruct HX as (b & Hb & Eb).
  assert (In b []). { rewrite <- E. apply filter_In. split; [assumption|]. apply N.eqb_eq. exact Eb. }
  contradiction.
Qed.

Definition chosen (p : pt) (fvs : list (list N)) (hard : pred) (soft : list pred) : list (list N) :=
  match soft with [] => bindings p fvs hard | _ => best soft p (bindings p fvs hard) end.

Lemma filter_map : forall A B (f : A -> B) g l, filter g (map f l) = map f (filter (fun x => g (f x)) l).
Proof. intros A B f g l. induction l as [|x l IH]; cbn; [reflexivity|]. destruct (g (f x)); cbn; rewrite IH; reflexivity. Qed.

Lemma collect_ok : forall ok st p fvs hard soft, fvs <> [] -> Forall var_ok (p_vars p) -> wt_bool (lenN fvs) hard -> Forall (wt_bool (lenN fvs)) soft ->
  lenN soft < 2 ^ 32 -> fits ok p fvs ->
  collect unit direct ok st p fvs hard soft = Ok (map (result p) (chosen p fvs hard soft), tt).
Proof.
  intros ok st p fvs hard soft Hne HV HW HS Hl HF. pose proof (collect_hard ok st p fvs hard Hne HV HW HF) as E. unfold collect in *.
  destruct fvs as [|fv r] eqn:Ef; [congruence|]. rewrite <- Ef in *. cbn [bind] in *. destruct (cartesian ok (map (matching (p_vars p)) fvs)) as [x| | | |]; try discriminate.
  cbn [bind] in *. destruct (hard_results unit direct st p hard x) as [[more st']| | | |]; try discriminate. cbn [bind app] in *. inversion E; subst more st'.
  unfold chosen. destruct soft as [|s0 soft0] eqn:Es; [reflexivity|]. rewrite <- Es in *.
  rewrite counts_ok; auto.
  - cbn [bind]. f_equal. f_equal. rewrite select_filter. unfold best. rewrite filter_map, map_map. reflexivity.
  - apply Forall_map. apply Forall_forall. intros bs Hb. cbn [p_vars result]. split; [apply bound_ok; assumption|].
    apply bindings_In in Hb. destruct Hb as [Hb _]. apply (lookup_ok p fvs bs Hb).
Qed.

Lemma collect_all_ok : forall ok st ps fvs hard soft, fvs <> [] -> Forall (fun p : pt => Forall var_ok (p_vars p) /\ fits ok p fvs) ps ->
  wt_bool (lenN fvs) hard -> Forall (wt_bool (lenN fvs)) soft -> lenN soft < 2 ^ 32 ->
  collect_all unit direct ok st ps fvs hard soft = Ok (flat_map (fun p => map (result p) (chosen p fvs hard soft)) ps, tt).
Proof.
  intros ok st ps fvs hard soft Hne H HW HS Hl. induction H as [|p ps [HV HF] _ IH] in st |- *; cbn [collect_all flat_map].
  - destruct st. reflexivity.
  - rewrite collect_ok by assumption. cbn [bind]. rewrite IH. reflexivity.
Qed.

(** ** The cache of points *)

Lemma get_points_ok : forall points c mask stmt, coherent points c ->
  fst (get_points points c mask stmt) = filter (fun p => N.land (p_stmt p) mask =? stmt) points /\
  coherent points (snd (get_points points c mask stmt)).
Proof.
  intros points c mask stmt H. unfold get_points, cache_find. destruct (find _ c) as [e|] eqn:E.
  - apply find_some in E. destruct E as [HI E]. apply andb_true_iff in E. rewrite !N.eqb_eq in E. destruct E as [E1 E2]. cbn [fst snd] in *.
    split; [|assumption]. unfold coherent in H. rewrite Forall_forall in H. rewrite (H e HI), E1, E2. reflexivity.
  - cbn [fst snd]. split; [reflexivity|]. constructor; [reflexivity|assumption].
Qed.

Lemma query_cache : forall St sat ok pick points c st fvs hard soft seed mask stmt, coherent points c ->
  match query St sat ok pick points c st fvs hard soft seed mask stmt, query St sat ok pick points [] st fvs hard soft seed mask stmt with
  | Ok (rs, c', st'), Ok (rs', _, st'') => rs = rs' /\ st' = st'' /\ coherent points c'
  | o, o' => o = o'
  end.
Proof.
  intros St sat ok pick points c st fvs hard soft seed mask stmt HC. unfold query.
  destruct (get_points_ok points c mask stmt HC) as [E1 E2]. destruct (get_points_ok points [] mask stmt (Forall_nil _)) as [F1 _].
  destruct (get_points points c mask stmt) as [l c']. destruct (get_points points [] mask stmt) as [l0 c0]. cbn [fst snd] in *. subst l l0.
  set (ps := filter _ points). clearbody ps. destruct (seed =? 0).
  - destruct (collect_all St sat ok st ps fvs hard soft) as [[rs st']| | | |]; cbn; auto.
  - destruct ps as [|p0 ps]; [auto|]. destruct (nthN _ _); [|reflexivity].
    destruct (collect St sat ok st p fvs hard soft) as [[rs st']| | | |]; cbn; auto.
Qed.

Lemma query_ok : forall ok pick points c fvs hard soft mask stmt, coherent points c ->
  fvs <> [] -> Forall (fun p : pt => Forall var_ok (p_vars p) /\ fits ok p fvs) points ->
  wt_bool (lenN fvs) hard -> Forall (wt_bool (lenN fvs)) soft -> lenN soft < 2 ^ 32 ->
  exists c', query unit direct ok pick points c tt fvs hard soft 0 mask stmt =
    Ok (flat_map (fun p => map (result p) (chosen p fvs hard soft)) (filter (fun p => N.land (p_stmt p) mask =? stmt) points), c', tt).
Proof.
  intros ok pick points c fvs hard soft mask stmt HC Hne HP HW HS Hl. unfold query.
  destruct (get_points_ok points c mask stmt HC) as [E1 E2]. destruct (get_points points c mask stmt) as [l c']. cbn [fst snd] in *. subst l.
  cbn [N.eqb]. rewrite collect_all_ok; auto.
  - cbn [bind]. eauto.
  - rewrite Forall_forall in *. intros p Hp. apply filter_In in Hp. apply HP. tauto.
Qed.

(** With a seed. *)
Lemma query_seed : forall ok pick points c fvs hard soft seed mask stmt, coherent points c ->
  (forall s n, n <> 0 -> pick s n < n) -> seed <> 0 ->
  fvs <> [] -> Forall (fun p : pt => Forall var_ok (p_vars p) /\ fits ok p fvs) points ->
  wt_bool (lenN fvs) hard -> Forall (wt_bool (lenN fvs)) soft -> lenN soft < 2 ^ 32 ->
  let ps := filter (fun p => N.land (p_stmt p) mask =? stmt) points in
  exists c', (ps = [] /\ query unit direct ok pick points c tt fvs hard soft seed mask stmt = Ok ([], c', tt)) \/
  (exists p, nthN ps (pick seed (lenN ps)) = Some p /\
     query unit direct ok pick points c tt fvs hard soft seed mask stmt = Ok (map (result p) (chosen p fvs hard soft), c', tt)).
Proof.
  intros ok pick points c fvs hard soft seed mask stmt HC HP Hs Hne HA HW HS Hl ps. unfold query.
  destruct (get_points_ok points c mask stmt HC) as [E1 E2]. destruct (get_points points c mask stmt) as [l c']. cbn [fst snd] in *. subst l. fold ps.
  destruct (N.eqb_spec seed 0); [contradiction|]. exists c'. destruct ps as [|p0 r] eqn:Ep; [left; auto|]. right. rewrite <- Ep in *.
  assert (Hlt : pick seed (lenN ps) < lenN ps). { apply HP. rewrite Ep. unfold lenN. cbn [length]. lia. }
  destruct (nthN_lt _ ps _ Hlt) as (p & Hp). exists p. rewrite Hp. split; [reflexivity|]. apply nthN_In in Hp. unfold ps in Hp. apply filter_In in Hp.
  rewrite Forall_forall in HA. destruct (HA p (proj1 Hp)) as [HV HF]. rewrite collect_ok by assumption. reflexivity.
Qed.
End D.
