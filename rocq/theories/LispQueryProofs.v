(** Proofs about query-trace with predicates. *)
From Verif Require Import BaseProofs Types Stream Reader FormatSpec Predicate FloatQ PredSpec PredProofs Query QuerySpec QueryProofs
  CHeap CApi CApiSpec CApiProofs4 Lisp LispSpec LispProofs LispProofs2 LispQuerySpec P_Pred P_Query P_Lisp.

Lemma first_at_lt : forall names s i, first_at names s i -> i < lenN names.
Proof. intros names s i [H _]. apply nthN_Some_lt in H. exact H. Qed.

Lemma says_wt_i : forall names e x, says_i names e x -> forall p, repr_i x p -> wt_num (lenN names) p.
Proof.
  intros names e x H. induction H as [z Hz|s i Hi|s i Hi|a b x y _ IH1 _ IH2|a b x y _ IH1 _ IH2|a b x y _ IH1 _ IH2]; intros p R; inversion R; subst;
    try (apply wn_const; cbn; tauto); try (apply wn_value; eapply first_at_lt; eassumption); try (apply wn_size; eapply first_at_lt; eassumption);
    apply wn_arith; auto; cbn; tauto.
Qed.

Lemma says_wt : forall names e x, says names e x -> forall p, repr_b x p -> wt_bool (lenN names) p.
Proof.
  intros names e. induction e as [e IH] using sexp_ind2. intros x H p R.
  assert (HL : forall l xs ps, Forall (fun e => forall x, says names e x -> forall p, repr_b x p -> wt_bool (lenN names) p) l -> Forall2 (says names) l xs ->
    Forall2 repr_b xs ps -> Forall (wt_bool (lenN names)) ps).
  { intros l xs ps HF HS. revert ps. induction HS as [|a y l xs Ha _ IHl]; intros ps HR; inversion HR; subst; constructor; inversion HF; subst; eauto. }
  destruct H as [o c a b x y Hc Ha Hb|s t i j Hs Ht|a x Ha|l xs Hl HS|l xs Hl HS]; inversion R; subst.
  - apply wb_cmp; [destruct c; cbn; tauto|apply (says_wt_i _ _ _ Ha); assumption|apply (says_wt_i _ _ _ Hb); assumption].
  - apply wb_distinct; eapply first_at_lt; eassumption.
  - apply wb_not. inversion IH as [|? ? H1 _]; subst. eauto.
  - apply wb_and. eapply HL; eassumption.
  - apply wb_or. eapply HL; eassumption.
Qed.

Lemma position_first : forall l n i, position n l = Some i <-> nthN l i = Some n /\ forall j, j < i -> nthN l j <> Some n.
Proof.
  induction l as [|m l IH]; intros n i; cbn [position]; [split; [discriminate|intros [H _]; destruct i; discriminate]|].
  destruct (bytes_eqb n m) eqn:E.
  - apply bytes_eqb_eq in E. subst m. split.
    + intros H. inversion H; subst. split; [reflexivity|]. intros j Hj. lia.
    + intros [H1 H2]. destruct (N.eq_dec i 0) as [->|Hi]; [reflexivity|]. exfalso. apply (H2 0); [lia|reflexivity].
  - assert (Hm : m <> n) by (intros ->; rewrite (proj2 (bytes_eqb_eq n n) eq_refl) in E; discriminate).
    split.
    + intros H. destruct (position n l) as [k|] eqn:Ep; [|discriminate]. cbn in H. inversion H; subst. apply IH in Ep. destruct Ep as [E1 E2].
      rewrite nthN_succ. split; [exact E1|]. intros j Hj. destruct (N.eq_dec j 0) as [->|Hz]; [cbn; congruence|].
      replace j with (N.succ (j - 1)) by lia. rewrite nthN_succ. apply E2. lia.
    + intros [H1 H2]. destruct (N.eq_dec i 0) as [->|Hz]; [cbn in H1; congruence|]. replace i with (N.succ (i - 1)) in * by lia.
      rewrite nthN_succ in H1. rewrite (proj2 (IH n (i - 1))); [reflexivity|]. split; [exact H1|]. intros j Hj. specialize (H2 (N.succ j) ltac:(lia)). rewrite nthN_succ in H2. exact H2.
Qed.

Lemma type_indices_iff : forall tys ts fv, type_indices tys ts = Ok fv <-> numbers tys ts fv.
Proof.
  intros. unfold type_indices, numbers. rewrite mapO_Forall2. split; intro H; (eapply Forall2_impl; [|exact H]); cbv beta; intros t i.
  - destruct (position t tys) eqn:E; [|discriminate]. intro X. inversion X; subst. apply position_first. exact E.
  - intro X. apply position_first in X. rewrite X. reflexivity.
Qed.

(** The predicate object made for a condition. *)
Lemma asks_made : forall names e x, asks names e x ->
  exists c p, build_predicate names e = Ok c /\ create_predicate_obj c = Ok p /\ repr_b x p /\ wt_bool (lenN names) p.
Proof.
  intros names [e|] x H; cbn [asks] in H.
  - destruct (C53_translated names e x H) as (c & p & E & P & R). exists (Some c), p. cbn [build_predicate create_predicate_obj]. rewrite E. cbn [bind].
    split; [reflexivity|]. split; [exact P|]. split; [exact R|]. eapply says_wt; eassumption.
  - subst x. eexists None, _. split; [reflexivity|]. split; [reflexivity|]. split; constructor.
Qed.
Lemma all_asks_made : forall names es xs, Forall2 (asks names) es xs ->
  exists cs ps, mapO (build_predicate names) es = Ok cs /\ mapO create_predicate_obj cs = Ok ps /\ Forall2 repr_b xs ps /\ Forall (wt_bool (lenN names)) ps.
Proof.
  intros names es xs H. induction H as [|e x es xs H _ (cs & ps & E1 & E2 & E3 & E4)]; [exists [], []; cbn; auto|].
  destruct (asks_made _ _ _ H) as (c & p & F1 & F2 & F3 & F4). exists (c :: cs), (p :: ps). cbn [mapO]. rewrite F1. cbn [bind]. rewrite E1. cbn [bind mapO]. rewrite F2. cbn [bind]. rewrite E2. cbn [bind].
  split; [reflexivity|]. split; [reflexivity|]. split; constructor; assumption.
Qed.

(** The score of an assignment is the number of conditions that hold. *)
Lemma score_held : forall O vars xs ps, Forall2 repr_b xs ps -> Forall var_ok vars -> Forall (closed_b vars) xs -> held vars xs (score O ps vars).
Proof.
  intros O vars xs ps H HV. induction H as [|x p xs ps R _ IH]; intros HC; [constructor|]. inversion HC; subst.
  destruct (C22_integer_predicates O vars x p R HV ltac:(assumption)) as [T F]. specialize (IH ltac:(assumption)).
  unfold score in *. cbn [filter]. destruct (satisfied O vars p) as [[]|e|u| |] eqn:E.
  - rewrite lenN_cons, <- N.add_1_r. apply held_yes; [apply T; reflexivity|exact IH].
  - apply held_no; [apply F; reflexivity|exact IH].
  - apply held_no; [|exact IH]. intro M. apply T in M. discriminate.
  - apply held_no; [|exact IH]. intro M. apply T in M. discriminate.
  - apply held_no; [|exact IH]. intro M. apply T in M. discriminate.
  - apply held_no; [|exact IH]. intro M. apply T in M. discriminate.
Qed.
Lemma held_fun : forall vars xs n m, held vars xs n -> held vars xs m -> n = m.
Proof. intros vars xs n m H. revert m. induction H; intros m H'; inversion H'; subst; auto; try tauto. f_equal. auto. Qed.

Lemma query_wanted : forall O ok pick points c fvs x xs hard soft mask stmt,
  coherent points c -> fvs <> [] -> good_points ok fvs points -> wt_bool (lenN fvs) hard -> Forall (wt_bool (lenN fvs)) soft -> lenN soft < 2 ^ 32 ->
  repr_b x hard -> Forall2 repr_b xs soft ->
  (forall p bs, In p points -> assignment p fvs bs -> closed_b (bound p bs) x /\ Forall (closed_b (bound p bs)) xs) ->
  exists (B : point N -> list (list N)) c',
    query unit (direct O) ok pick points c tt fvs hard soft 0 mask stmt =
      Ok (flat_map (fun p => map (result p) (B p)) (filter (fun p => N.land (p_stmt p) mask =? stmt) points), c', tt) /\
    forall p, In p points -> ascending (B p) /\ NoDup (B p) /\ forall bs, In bs (B p) <-> wanted fvs x xs p bs.
Proof.
  intros O ok pick points c fvs x xs hard soft mask stmt HC Hne HP HW HS Hl R RS CL.
  assert (HM : forall p bs, In p points -> assignment p fvs bs -> Forall var_ok (bound p bs) /\ (satisfied O (bound p bs) hard = Ok true <-> means (bound p bs) x)).
  { intros p bs Hp Hb. assert (V : Forall var_ok (bound p bs)) by (apply bound_ok; unfold good_points in HP; rewrite Forall_forall in HP; apply HP; assumption).
    split; [exact V|]. apply (C22_integer_predicates O (bound p bs) x hard R V). apply CL; assumption. }
  destruct (C19_sound_complete O ok pick points c fvs hard mask stmt HC Hne HP HW) as (B0 & ps0 & c0 & E0 & EP0 & HB0).
  assert (HB1 : forall p bs, In p points -> In bs (B0 p) <-> candidate fvs x p bs).
  { intros p bs Hp. rewrite (proj2 (proj2 (HB0 p)) bs). unfold candidate. split; intros [H1 H2]; (split; [exact H1|]); apply (HM p bs Hp H1); exact H2. }
  destruct soft as [|s0 soft].
  - inversion RS; subst xs. exists B0, c0. split; [subst ps0; exact E0|]. intros p Hp. destruct (HB0 p) as (N1 & A1 & _). split; [exact A1|]. split; [exact N1|].
    intro bs. rewrite HB1 by assumption. unfold wanted. split; [|tauto]. intros H. split; [exact H|]. intros bs' n n' _ H1 H2. inversion H1; inversion H2; subst. lia.
  - destruct (query_ok O ok pick points c fvs hard (s0 :: soft) mask stmt HC Hne HP HW HS Hl) as (cq1 & EQ1).
    exists (fun p => best O (s0 :: soft) p (bindings O p fvs hard)), cq1. split; [exact EQ1|].
    intros p Hp. assert (HBI : forall bs, In bs (bindings O p fvs hard) <-> candidate fvs x p bs).
    { intro bs. rewrite bindings_In. unfold candidate. split; intros [H1 H2]; (split; [exact H1|]); apply (HM p bs Hp H1); exact H2. }
    split; [unfold best; apply ascending_filter; apply bindings_ascending|]. split; [unfold best; apply NoDup_filter; apply bindings_NoDup|].
    intro bs. rewrite best_In. rewrite HBI. unfold wanted. split.
    + intros [H1 H2]. split; [exact H1|]. intros bs' n n' C' X X'. pose proof (proj1 H1) as A1. pose proof (proj1 C') as A2.
      rewrite (held_fun _ _ _ _ X (score_held O _ _ _ RS (proj1 (HM p bs Hp A1)) (proj2 (CL p bs Hp A1)))).
      rewrite (held_fun _ _ _ _ X' (score_held O _ _ _ RS (proj1 (HM p bs' Hp A2)) (proj2 (CL p bs' Hp A2)))). apply H2. apply HBI. exact C'.
    + intros [H1 H2]. split; [exact H1|]. intros bs' H'. apply HBI in H'. pose proof (proj1 H1) as A1. pose proof (proj1 H') as A2.
      apply (H2 bs' _ _ H'); apply score_held; try assumption; try (apply HM; assumption); apply CL; assumption.
Qed.

(** ** Conversion to Lisp *)
Lemma expand_value_shows : forall v n tn x, expand_value (mkCV (v_val v) (v_fmt v) n tn (v_size v) (v_bsz v) (v_has v)) = Ok x -> shows_value v x.
Proof.
  intros v n tn x H. unfold expand_value in H. cbn [cv_format cv_value cv_size] in H.
  assert (I : forall f u, v_fmt v = f -> v_val v = VBits u ->
     int_value v = match f with UNSIGNED | POINTER => Some (Z.of_N u) | SIGNED => Some (s64 u) | _ => None end).
  { intros f u F V. unfold int_value. rewrite F, V. destruct f; reflexivity. }
  destruct (v_fmt v) eqn:F, (v_val v) as [u|bs|] eqn:V; try discriminate;
    try (inversion H; subst; apply shows_int; apply (I _ _ eq_refl eq_refl); fail).
  - destruct (N.eqb_spec (v_size v) 4); inversion H; subst; [apply shows_single|apply shows_double]; assumption.
  - destruct (N.leb_spec (v_size v) (lenN bs)) as [L|L]; [|discriminate]. inversion H; subst. apply (shows_blob v (takeN (v_size v) bs) (dropN (v_size v) bs)); [assumption| |].
    + rewrite takeN_firstn, dropN_skipn, firstn_skipn. exact V.
    + rewrite lenN_takeN. lia.
Qed.

Lemma convert_shows : forall ok tr rs g ls, convert_points ok tr rs g = Ok ls ->
  exists cands, convert_points ok tr rs (fun _ => true) = Ok cands /\ ls = filter g cands /\ Forall2 (shows (map c_string (tr_names tr)) (tr_types tr)) rs cands.
Proof.
  intros ok tr rs g ls H. unfold convert_points in *. apply bind_ok in H. destruct H as (ips & E1 & H). apply bind_ok in H. destruct H as (names & E2 & H).
  apply bind_ok in H. destruct H as (cands & E3 & H). inversion H; subst ls. exists cands. rewrite E1. cbn [bind]. rewrite E2. cbn [bind]. rewrite E3. cbn [bind].
  assert (En : names = map c_string (tr_names tr)).
  { unfold c_get_names in E2. destruct (_ <=? _); [discriminate|]. destruct (_ || _); [|discriminate]. inversion E2. reflexivity. }
  split; [f_equal; clear; induction cands; cbn; congruence|]. split; [reflexivity|]. subst names.
  apply mapO_Forall2 in E1. apply mapO_Forall2 in E3. clear - E1 E3. revert cands E3. induction E1 as [|r ip rs ips E1 _ IH]; intros cands E3; inversion E3 as [|? s ? cands' F1 F2]; subst; constructor; [|apply IH; exact F2].
  clear - E1 F1. unfold export_point in E1. apply bind_ok in E1. destruct E1 as (cvs & E1 & X). inversion X; subst. unfold expand_point in F1. cbn [ip_vars ip_stmt ip_aux] in F1.
  apply bind_ok in F1. destruct F1 as (lvs & F1 & X'). inversion X'; subst. unfold shows. cbn [lp_f lp_c lp_scopes lp_aux].
  split; [intro L; assert (p_stmt r < 2 ^ 64) by (change (2 ^ 64) with (2 * 2 ^ 63); lia); apply C42_unpack; assumption|].
  split; [intro L; apply C42_unpack; apply L|]. split; [|reflexivity].
  apply mapO_Forall2 in E1. apply mapO_Forall2 in F1. clear - E1 F1. revert lvs F1. induction E1 as [|v cv vs cvs E1 _ IH]; intros lvs F1; inversion F1 as [|? w ? lvs' G1 G2]; subst; constructor; [|apply IH; exact G2].
  clear - E1 G1. unfold export_var in E1. destruct (nthN (tr_types tr) (v_type v)) as [t|] eqn:Et; [|discriminate]. inversion E1; subst. clear E1. unfold expand_var in G1.
  apply bind_ok in G1. destruct G1 as (x & Ex & G1). apply bind_ok in G1. destruct G1 as (n & Hn & G1). apply bind_ok in G1. destruct G1 as (tn & Ht & G1). inversion G1; subst.
  cbn [cv_name cv_tname cv_has cv_bsz] in *. unfold aref in *. unfold shows_var. cbn [lv_name lv_type lv_value lv_size].
  destruct (nthN (map c_string (tr_names tr)) (v_name v)) eqn:N1; [|discriminate]. destruct (nthN (map c_string (tr_names tr)) (t_name t)) eqn:N2; [|discriminate].
  inversion Hn; subst. inversion Ht; subst. split; [reflexivity|]. split; [eauto|]. split; [eapply expand_value_shows; exact Ex|reflexivity].
Qed.
