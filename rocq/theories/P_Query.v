(** Properties C18 - C21 and C26 - C30: queries.  [ok] is the outcome of memory
    allocation, [pick seed n] the random choice of a number below n.
    [query unit (direct O)] evaluates predicates without the predicate cache;
    C30 says when the cache makes no difference. *)
From Verif Require Import BaseProofs Types Compare Predicate FloatQ PredSpec PredProofs Query QuerySpec QueryProofs QueryProofs2 P_Pred.

(** A trace used in the examples: three points. *)
Definition qv (u nm ty : N) : var := mkV (VBits u) nm ty UNSIGNED 4 0 0.
Definition ex_points : list (point N) :=
  [mkP 0 7 [mkB 4096 64] [qv 1 0 0; qv 2 1 0; qv 3 2 1] [9];
   mkP 1 8 [] [qv 5 0 0] [];
   mkP 2 7 [] [qv 1 0 0; qv 1 1 0; qv 4 2 1] []].
Definition ex_fvs : list (list N) := [[0]; [0; 1]].
(* v0 < v1 *)
Definition ex_hard : pred := Pred LESS_THAN 2 [Pred VAR_VALUE 1 [vref 0]; Pred VAR_VALUE 1 [vref 1]].
(* v1 = 3, v0 = 1 *)
Definition ex_soft : list pred :=
  [Pred EQUAL 2 [Pred VAR_VALUE 1 [vref 1]; Pred UNSIGNED_VALUE 3 []]; Pred EQUAL 2 [Pred VAR_VALUE 1 [vref 0]; Pred UNSIGNED_VALUE 1 []]].
Notation all_ok := (fun _ : N => true).
Definition ex_pick (seed n : N) : N := seed mod n.

(** Hypotheses on the traces queried, met by all traces that are read (C22_read_variables). *)
Definition good_points (ok : N -> bool) (fvs : list (list N)) (points : list (point N)) : Prop :=
  Forall (fun p => Forall var_ok (p_vars p) /\ fits ok p fvs) points.

Lemma qv_ok : forall u nm ty, u < 2 ^ 32 -> var_ok (qv u nm ty).
Proof. intros u nm ty H. unfold var_ok. cbn [v_fmt qv v_size v_val]. split; [lia|]. exists u. split; [reflexivity|exact H]. Qed.
Example ex_good : good_points all_ok ex_fvs ex_points /\ wt_bool (lenN ex_fvs) ex_hard /\ Forall (wt_bool (lenN ex_fvs)) ex_soft.
Proof.
  split; [|split].
  - unfold good_points, ex_points.
    repeat (apply Forall_cons; [split; [cbn [p_vars]; repeat (apply Forall_cons; [apply qv_ok; vm_compute; reflexivity|]); apply Forall_nil|split; vm_compute; reflexivity]|]).
    apply Forall_nil.
  - apply wb_cmp; [cbn; auto 10|apply wn_value; vm_compute; reflexivity|apply wn_value; vm_compute; reflexivity].
  - apply Forall_cons; [|apply Forall_cons; [|apply Forall_nil]]; (apply wb_cmp; [cbn; auto 10|apply wn_value; vm_compute; reflexivity|apply wn_const; cbn; auto]).
Qed.

(** C19.  The results are, in order, those of the selected points; at each
    point one for each assignment for which the hard predicate holds. *)
Theorem C19_sound_complete : forall O ok pick points c fvs hard mask stmt,
  coherent points c -> fvs <> [] -> good_points ok fvs points -> wt_bool (lenN fvs) hard ->
  exists (B : point N -> list (list N)) ps c',
    query unit (direct O) ok pick points c tt fvs hard [] 0 mask stmt = Ok (flat_map (fun p => map (result p) (B p)) ps, c', tt) /\
    ps = filter (fun p => N.land (p_stmt p) mask =? stmt) points /\
    forall p, NoDup (B p) /\ ascending (B p) /\
      forall bs, In bs (B p) <-> assignment p fvs bs /\ satisfied O (bound p bs) hard = Ok true.
Proof.
  intros O ok pick points c fvs hard mask stmt HC Hne HP HW.
  destruct (query_ok O ok pick points c fvs hard [] mask stmt HC Hne HP HW (Forall_nil _) ltac:(vm_compute; reflexivity)) as (c' & E).
  exists (fun p => bindings O p fvs hard), (filter (fun p => N.land (p_stmt p) mask =? stmt) points), c'. split; [exact E|]. split; [reflexivity|].
  intro p. split; [apply bindings_NoDup|]. split; [apply bindings_ascending|apply bindings_In].
Qed.
Print Assumptions C19_sound_complete.

(** In particular as a set, for integer predicates in terms of their meaning. *)
Theorem C19_integer_results : forall O ok pick points c fvs e hard mask stmt,
  coherent points c -> fvs <> [] -> good_points ok fvs points -> wt_bool (lenN fvs) hard -> repr_b e hard ->
  (forall p bs, In p points -> assignment p fvs bs -> closed_b (bound p bs) e) ->
  exists rs c', query unit (direct O) ok pick points c tt fvs hard [] 0 mask stmt = Ok (rs, c', tt) /\
    forall r, In r rs <-> exists p bs, In p points /\ selected mask stmt p /\ assignment p fvs bs /\ means (bound p bs) e /\ r = result p bs.
Proof.
  intros O ok pick points c fvs e hard mask stmt HC Hne HP HW HR HCl.
  destruct (C19_sound_complete O ok pick points c fvs hard mask stmt HC Hne HP HW) as (B & ps & c' & E & -> & HB).
  eexists _, c'. split; [exact E|]. intro r. rewrite in_flat_map.
  assert (HM : forall p bs, In p points -> assignment p fvs bs -> (satisfied O (bound p bs) hard = Ok true <-> means (bound p bs) e)).
  { intros p bs Hp Hb. apply (C22_integer_predicates O (bound p bs) e hard HR).
    - apply bound_ok. unfold good_points in HP. rewrite Forall_forall in HP. apply HP. assumption.
    - apply HCl; assumption. }
  split.
  - intros (p & Hp & Hr). apply in_map_iff in Hr. destruct Hr as (bs & <- & Hb). apply filter_In in Hp. destruct Hp as [Hp Hs]. apply N.eqb_eq in Hs.
    apply HB in Hb. destruct Hb as [H1 H2]. exists p, bs. conj_split; auto. apply HM; assumption.
  - intros (p & bs & Hp & Hs & Hb & Hm & ->). exists p. split; [apply filter_In; split; [assumption|apply N.eqb_eq; exact Hs]|].
    apply in_map. apply HB. split; [assumption|]. apply HM; assumption.
Qed.
Print Assumptions C19_integer_results.

Example C19_ex : query unit (direct qops) all_ok ex_pick ex_points [] tt ex_fvs ex_hard [] 0 255 7 =
  Ok ([mkP 0 7 [mkB 4096 64] [qv 1 0 0; qv 2 1 0] [9]; mkP 0 7 [mkB 4096 64] [qv 1 0 0; qv 3 2 1] [9]; mkP 0 7 [mkB 4096 64] [qv 2 1 0; qv 3 2 1] [9];
       mkP 2 7 [] [qv 1 0 0; qv 4 2 1] []; mkP 2 7 [] [qv 1 1 0; qv 4 2 1] []],
      [((255, 7), filter (fun p => N.land (p_stmt p) 255 =? 7) ex_points)], tt).
Proof. vm_compute. reflexivity. Qed.

(** C20. *)
Theorem C20_cartesian : forall ok vs, prod_len vs < 2 ^ 64 -> ok (24 * prod_len vs) = true ->
  cartesian ok vs = Ok (product vs).
Proof. exact cartesian_product. Qed.
Print Assumptions C20_cartesian.
Theorem C20_each_once : forall (vs : list (list N)),
  (forall xs, In xs (product vs) <-> Forall2 (fun v x => In x v) vs xs) /\ lenN (product vs) = prod_len vs /\
  (Forall (@NoDup N) vs -> NoDup (product vs)).
Proof. intro vs. split; [apply product_In|]. split; [apply product_len|apply product_NoDup]. Qed.
Print Assumptions C20_each_once.

(** In general, the number of combinations that are tried is taken modulo 2^64 ... *)
Theorem C20_count_wraps : forall ok vs l, cartesian ok vs = Ok l -> lenN l = prod_len vs mod 2 ^ 64.
Proof.
  intros ok vs l H. unfold cartesian in H. destruct (ok _); [|discriminate]. apply mapO_Forall2 in H.
  change (2 ^ 64) with two64. rewrite <- n_results_mod. rewrite <- (below_lenN (n_results vs)). unfold lenN. f_equal. symmetry. clear -H. induction H; cbn; congruence.
Qed.
Print Assumptions C20_count_wraps.
(** ... so that all are lost if there are exactly 2^64. *)
Theorem C20_lost_refuted : exists vs : list (list N), (forall v, In v vs -> v <> []) /\ cartesian all_ok vs = Ok [].
Proof.
  exists (repeat [0; 1] 64). split; [|vm_compute; reflexivity]. intros v Hv. apply repeat_spec in Hv. subst. discriminate.
Qed.
Print Assumptions C20_lost_refuted.
Example C20_ex : cartesian all_ok [[1; 2]; [7]; [5; 6]] = Ok [[1; 7; 5]; [2; 7; 5]; [1; 7; 6]; [2; 7; 6]].
Proof. vm_compute. reflexivity. Qed.

(** C21.  Without free variables there are two results per point, one of them
    without buffer sizes and aux values. *)
Theorem C21_two_results : forall O ok pick points c d cs mask stmt, coherent points c -> ok 24 = true ->
  exists c', query unit (direct O) ok pick points c tt [] (Pred NULL_PREDICATE d cs) [] 0 mask stmt =
    Ok (flat_map (fun p => [mkP (p_counter p) (p_stmt p) [] [] []; mkP (p_counter p) (p_stmt p) (p_sizes p) [] (p_aux p)])
          (filter (fun p => N.land (p_stmt p) mask =? stmt) points), c', tt).
Proof.
  intros O ok pick points c d cs mask stmt HC Hok. unfold query.
  destruct (get_points_ok points c mask stmt HC) as [E1 _]. destruct (get_points points c mask stmt) as [l c']. cbn [fst] in E1. rewrite <- E1. clear E1.
  cbn [N.eqb]. exists c'.
  assert (HG : collect_all unit (direct O) ok tt l [] (Pred NULL_PREDICATE d cs) [] =
    Ok (flat_map (fun p => [mkP (p_counter p) (p_stmt p) [] [] []; mkP (p_counter p) (p_stmt p) (p_sizes p) [] (p_aux p)]) l, tt)).
  { induction l as [|p l IH]; [reflexivity|]. cbn [collect_all flat_map].
    replace (collect unit (direct O) ok tt p [] (Pred NULL_PREDICATE d cs) [])
      with (@Ok (list (point N) * unit) ([mkP (p_counter p) (p_stmt p) [] [] []; mkP (p_counter p) (p_stmt p) (p_sizes p) [] (p_aux p)], tt)).
    - cbn [bind]. rewrite IH. reflexivity.
    - unfold collect. cbn [bind map]. unfold cartesian. cbn [n_results fold_left]. replace (24 * 1) with 24 by reflexivity. rewrite Hok. reflexivity. }
  rewrite HG. reflexivity.
Qed.
Print Assumptions C21_two_results.
Theorem C21_one_result_refuted : exists points rs c, 
  query unit (direct qops) all_ok ex_pick points [] tt [] (Pred NULL_PREDICATE 0 []) [] 0 0 0 = Ok (rs, c, tt) /\
  lenN points = 1 /\ lenN rs = 2 /\ NoDup rs.
Proof.
  exists [mkP 0 7 [mkB 4096 64] [] [9]]. eexists _, _. split; [vm_compute; reflexivity|]. split; [reflexivity|]. split; [reflexivity|].
  constructor; [|repeat constructor; intros []]. intros [X|[]]. discriminate.
Qed.
Print Assumptions C21_one_result_refuted.
(** After duplicate removal: one per statement, not per point. *)
Theorem C21_dedup_refuted : exists points, lenN points = 2 /\ forall h, exists rs c,
  query unit (direct qops) all_ok ex_pick points [] tt [] (Pred NULL_PREDICATE 0 []) [] 0 0 0 = Ok (rs, c, tt) /\ lenN (dedup h [] rs) = 1.
Proof.
  exists [mkP 0 7 [] [] [9]; mkP 1 7 [] [] [10]]. split; [reflexivity|]. intro h. eexists _, _. split; [vm_compute; reflexivity|].
  cbn. rewrite !N.eqb_refl. reflexivity.
Qed.
Print Assumptions C21_dedup_refuted.
(** A predicate without free variables is refused. *)
Theorem C21_predicate_aborts : forall O ok st p k d cs soft, k <> NULL_PREDICATE ->
  collect unit (direct O) ok st p [] (Pred k d cs) soft = Abort.
Proof. intros. unfold collect. destruct k; try reflexivity. congruence. Qed.
Print Assumptions C21_predicate_aborts.

(** C26.  With soft predicates: at each point those results of the hard
    predicate with the highest score, in their order. *)
Theorem C26_maximisers : forall O ok pick points c fvs hard soft mask stmt,
  coherent points c -> fvs <> [] -> good_points ok fvs points -> wt_bool (lenN fvs) hard ->
  Forall (wt_bool (lenN fvs)) soft -> lenN soft < 2 ^ 32 -> soft <> [] ->
  exists (B S : point N -> list (list N)) ps c' c'',
    query unit (direct O) ok pick points c tt fvs hard [] 0 mask stmt = Ok (flat_map (fun p => map (result p) (B p)) ps, c', tt) /\
    query unit (direct O) ok pick points c tt fvs hard soft 0 mask stmt = Ok (flat_map (fun p => map (result p) (S p)) ps, c'', tt) /\
    ps = filter (fun p => N.land (p_stmt p) mask =? stmt) points /\
    forall p, (exists f, S p = filter f (B p)) /\ (B p <> [] -> S p <> []) /\
      forall bs, In bs (S p) <-> In bs (B p) /\ forall bs', In bs' (B p) -> score O soft (bound p bs') <= score O soft (bound p bs).
Proof.
  intros O ok pick points c fvs hard soft mask stmt HC Hne HP HW HS Hl Hs.
  destruct (query_ok O ok pick points c fvs hard [] mask stmt HC Hne HP HW (Forall_nil _) ltac:(vm_compute; reflexivity)) as (c' & E).
  destruct (query_ok O ok pick points c fvs hard soft mask stmt HC Hne HP HW HS Hl) as (c'' & E').
  exists (fun p => bindings O p fvs hard), (fun p => best O soft p (bindings O p fvs hard)), (filter (fun p => N.land (p_stmt p) mask =? stmt) points), c', c''.
  split; [exact E|]. split; [destruct soft; [congruence|exact E']|]. split; [reflexivity|].
  intro p. split; [eexists; reflexivity|]. split; [apply best_nonempty|apply best_In].
Qed.
Print Assumptions C26_maximisers.
Example C26_ex : query unit (direct qops) all_ok ex_pick ex_points [] tt ex_fvs ex_hard ex_soft 0 255 7 =
  Ok ([mkP 0 7 [mkB 4096 64] [qv 1 0 0; qv 3 2 1] [9]; mkP 2 7 [] [qv 1 0 0; qv 4 2 1] []; mkP 2 7 [] [qv 1 1 0; qv 4 2 1] []],
      [((255, 7), filter (fun p => N.land (p_stmt p) 255 =? 7) ex_points)], tt).
Proof. vm_compute. reflexivity. Qed.

(** C27. *)
Theorem C27_seeded : forall O ok pick points c fvs hard soft seed mask stmt,
  coherent points c -> (forall s n, n <> 0 -> pick s n < n) -> seed <> 0 ->
  fvs <> [] -> good_points ok fvs points -> wt_bool (lenN fvs) hard -> Forall (wt_bool (lenN fvs)) soft -> lenN soft < 2 ^ 32 ->
  exists rs before after c' c'',
    query unit (direct O) ok pick points c tt fvs hard soft seed mask stmt = Ok (rs, c', tt) /\
    query unit (direct O) ok pick points c tt fvs hard soft 0 mask stmt = Ok (before ++ rs ++ after, c'', tt) /\
    ((forall p, In p points -> ~ selected mask stmt p) /\ rs = [] \/
     exists points1 p points2, points = points1 ++ p :: points2 /\ selected mask stmt p /\
       query unit (direct O) ok pick [p] [] tt fvs hard soft 0 mask stmt = Ok (rs, [((mask, stmt), [p])], tt)).
Proof.
  intros O ok pick points c fvs hard soft seed mask stmt HC Hpick Hs Hne HP HW HS Hl.
  destruct (query_ok O ok pick points c fvs hard soft mask stmt HC Hne HP HW HS Hl) as (c'' & E'').
  destruct (query_seed O ok pick points c fvs hard soft seed mask stmt HC Hpick Hs Hne HP HW HS Hl) as (c' & [[E0 E]|(p & Hp & E)]).
  - rewrite E0 in E''. cbn [flat_map] in E''. exists [], [], [], c', c''. conj_split; auto. left. split; [|reflexivity].
    intros p HI HS'. assert (In p []) by (rewrite <- E0; apply filter_In; split; [assumption|apply N.eqb_eq; exact HS']). contradiction.
  - pose proof (nthN_In _ _ _ _ Hp) as HI. apply in_split in HI. destruct HI as (l1 & l2 & El). rewrite El in E''. rewrite flat_map_app in E''. cbn [flat_map] in E''.
    eexists _, _, _, c', c''. split; [exact E|]. split; [exact E''|]. right.
    pose proof (nthN_In _ _ _ _ Hp) as HI. apply filter_In in HI. destruct HI as [HI HS']. apply N.eqb_eq in HS'.
    destruct (in_split _ _ HI) as (p1 & p2 & Epts). exists p1, p, p2. split; [exact Epts|]. split; [exact HS'|].
    assert (HP1 : good_points ok fvs [p]). { constructor; [|constructor]. unfold good_points in HP. rewrite Forall_forall in HP. auto. }
    unfold query, get_points. cbn [cache_find find filter]. rewrite HS', (N.eqb_refl stmt). cbn [N.eqb].
    rewrite collect_all_ok by assumption. cbn [flat_map bind]. rewrite app_nil_r. reflexivity.
Qed.
Print Assumptions C27_seeded.
Example C27_ex : (forall s n, n <> 0 -> ex_pick s n < n) /\
  query unit (direct qops) all_ok ex_pick ex_points [] tt ex_fvs ex_hard [] 1 255 7 =
  Ok ([mkP 2 7 [] [qv 1 0 0; qv 4 2 1] []; mkP 2 7 [] [qv 1 1 0; qv 4 2 1] []],
      [((255, 7), filter (fun p => N.land (p_stmt p) 255 =? 7) ex_points)], tt).
Proof. split; [|vm_compute; reflexivity]. intros s n Hn. unfold ex_pick. apply N.mod_lt. exact Hn. Qed.

(** C28. *)
Theorem C28_filter_exact : forall points c mask stmt, coherent points c ->
  exists l c', get_points points c mask stmt = (l, c') /\ l = filter (fun p => N.land (p_stmt p) mask =? stmt) points /\
  (forall p, In p l <-> In p points /\ selected mask stmt p).
Proof.
  intros points c mask stmt HC. destruct (get_points_ok points c mask stmt HC) as [E _]. destruct (get_points points c mask stmt) as [l c']. cbn [fst] in E.
  exists l, c'. conj_split; auto. subst l. intro p. rewrite filter_In, N.eqb_eq. reflexivity.
Qed.
Print Assumptions C28_filter_exact.
Theorem C28_results_selected : forall O ok pick points c fvs hard soft seed mask stmt rs c', coherent points c ->
  query unit (direct O) ok pick points c tt fvs hard soft seed mask stmt = Ok (rs, c', tt) ->
  forall r, In r rs -> exists p, In p points /\ selected mask stmt p /\ p_counter r = p_counter p /\ p_stmt r = p_stmt p.
Proof. exact results_selected. Qed.
Print Assumptions C28_results_selected.
Theorem C28_all : forall points c, coherent points c -> fst (get_points points c 0 0) = points.
Proof.
  intros points c HC. destruct (get_points_ok points c 0 0 HC) as [E _]. rewrite E. clear. induction points as [|p l IH]; [reflexivity|].
  cbn [filter]. rewrite N.land_0_r. cbn [N.eqb]. rewrite IH. reflexivity.
Qed.
Print Assumptions C28_all.
Theorem C28_none : forall points c mask stmt, coherent points c -> N.ldiff stmt mask <> 0 -> fst (get_points points c mask stmt) = [].
Proof.
  intros points c mask stmt HC H. destruct (get_points_ok points c mask stmt HC) as [E _]. rewrite E. clear E HC. induction points as [|p l IH]; [reflexivity|].
  cbn [filter]. destruct (N.eqb_spec (N.land (p_stmt p) mask) stmt) as [E|_]; [|exact IH]. exfalso. apply H. rewrite <- E.
  rewrite <- N.land_ldiff with (a := p_stmt p) (b := mask). apply N.bits_inj. intro n. rewrite !N.ldiff_spec, !N.land_spec, !N.ldiff_spec.
  destruct (N.testbit (p_stmt p) n), (N.testbit mask n); reflexivity.
Qed.
Print Assumptions C28_none.
Example C28_ex : coherent ex_points [] /\ fst (get_points ex_points [] 255 7) <> [] /\ N.ldiff 256 255 <> 0.
Proof. split; [constructor|]. split; vm_compute; discriminate. Qed.

(** C18.  The cache of points does not influence the results of any sequence of queries. *)
Theorem C18_no_memory : forall O ok pick points qs rss,
  history unit (direct O) ok pick points [] tt qs = Ok rss <->
  Forall2 (fun q rs => exists c', run_query unit (direct O) ok pick points [] tt q = Ok (rs, c', tt)) qs rss.
Proof. intros. split; [apply history_direct; constructor|apply history_complete; constructor]. Qed.
Print Assumptions C18_no_memory.
Example C18_ex : history unit (direct qops) all_ok ex_pick ex_points [] tt
    [mkQ ex_fvs ex_hard [] 0 255 8; mkQ ex_fvs ex_hard ex_soft 1 255 7; mkQ ex_fvs ex_hard [] 1 255 7] =
  Ok [[]; [mkP 2 7 [] [qv 1 0 0; qv 4 2 1] []; mkP 2 7 [] [qv 1 1 0; qv 4 2 1] []];
          [mkP 2 7 [] [qv 1 0 0; qv 4 2 1] []; mkP 2 7 [] [qv 1 1 0; qv 4 2 1] []]].
Proof. vm_compute. reflexivity. Qed.

(** C29.  Whatever the hash function. *)
Theorem C29_keeps_firsts : forall h rs, firsts [] rs (dedup h [] rs).
Proof. intros h rs. exact (dedup_firsts h rs []). Qed.
Print Assumptions C29_keeps_firsts.
Theorem C29_meaning : forall l r, firsts [] l r ->
  NoDup (map key r) /\ (forall x, In x r -> In x l) /\ (forall x, In x l -> exists y, In y r /\ key y = key x) /\
  (forall r', firsts [] l r' -> r' = r).
Proof.
  intros l r H. destruct (firsts_facts [] l r H) as (H1 & H2 & H3). conj_split; auto.
  - intros x Hx. apply H2 in Hx. tauto.
  - intros r' H'. eapply firsts_fun; eauto.
Qed.
Print Assumptions C29_meaning.
Example C29_ex : forall h, dedup h [] [mkP 0 7 [] [qv 1 0 0] []; mkP 1 7 [] [qv 2 0 0] [3]; mkP 2 7 [] [qv 2 0 1] []] =
  [mkP 0 7 [] [qv 1 0 0] []; mkP 2 7 [] [qv 2 0 1] []].
Proof. intro h. cbn. rewrite N.eqb_refl. cbn. destruct (_ =? _); reflexivity. Qed.

(** C30.  If the cache owned its keys, it would be transparent for every hash function. *)
Theorem C30_by_value_partial : forall O h ok pick l, session_ok (fun _ => True) l ->
  session (list centry) (by_value O h) ok pick [] l = session unit (direct O) ok pick tt l.
Proof.
  intros O h ok pick l H. apply (session_sim O _ _ (Forall (entry_true O h)) (fun _ => True)); [|constructor|exact H].
  intros st p vs HR _ HV. apply by_value_sim; assumption.
Qed.
Print Assumptions C30_by_value_partial.
(** If dead keys happen to be replaced by the current one, it is transparent as long as
    no two different questions have the same hash code ... *)
Theorem C30_by_alias_partial : forall O h Q ok pick l, session_ok Q l -> no_collision O h (fun p vs => Q p /\ Forall var_ok vs) ->
  session (list centry) (by_alias O h) ok pick [] l = session unit (direct O) ok pick tt l.
Proof.
  intros O h Q ok pick l H HN. apply (session_sim O _ _ (Forall (fun e => entry_true O h e /\ Q (c_pred e))) Q); [|constructor|exact H].
  intros st p vs HR HQ HV. apply by_alias_sim; assumption.
Qed.
Print Assumptions C30_by_alias_partial.
(** ... and wrong otherwise. *)
Theorem C30_collision_refuted : exists h l, session_ok (fun _ => True) l /\
  session (list centry) (by_alias qops h) all_ok ex_pick [] l <> session unit (direct qops) all_ok ex_pick tt l.
Proof.
  exists (fun _ _ => 0), [(ex_points, [], mkQ ex_fvs ex_hard [] 0 0 0)]. split.
  - constructor; [|constructor]. split; [constructor|]. split; [|split; constructor].
    destruct ex_good as [H _]. unfold good_points in H. eapply Forall_impl; [|exact H]. intros p Hp. apply Hp.
  - vm_compute. discriminate.
Qed.
Print Assumptions C30_collision_refuted.
(** By the C++ rules: asking the same question twice has undefined behaviour, for every hash function. *)
Theorem C30_dangling_refuted : forall O h st p vs b st', by_reference O h st p vs = Ok (b, st') ->
  by_reference O h st' p vs = UB UDangling.
Proof. intros O h st p vs b st' H. exact (by_reference_dangles O h st p vs b st' H p vs eq_refl). Qed.
Print Assumptions C30_dangling_refuted.
Definition ex_twice : list (point N) := [mkP 0 7 [] [qv 1 0 0] []; mkP 1 7 [] [qv 1 0 0] []].
Definition ex_hard0 : pred := Pred LESS_THAN 2 [Pred VAR_VALUE 1 [vref 0]; Pred UNSIGNED_VALUE 5 []].
Theorem C30_query_refuted : good_points all_ok [[0]] ex_twice /\ wt_bool 1 ex_hard0 /\
  forall h, query (list centry) (by_reference qops h) all_ok ex_pick ex_twice [] [] [[0]] ex_hard0 [] 0 0 0 = UB UDangling.
Proof.
  split; [|split].
  - unfold good_points, ex_twice.
    repeat (apply Forall_cons; [split; [cbn [p_vars]; repeat (apply Forall_cons; [apply qv_ok; vm_compute; reflexivity|]); apply Forall_nil|split; vm_compute; reflexivity]|]).
    apply Forall_nil.
  - apply wb_cmp; [cbn; auto 10|apply wn_value; vm_compute; reflexivity|apply wn_const; cbn; auto].
  - intro h. unfold query, get_points, ex_twice. cbn [cache_find find filter p_stmt]. rewrite N.land_0_r. cbn [N.eqb collect_all].
    unfold collect at 1.
    replace (cartesian all_ok (map (matching (p_vars (mkP 0 7 [] [qv 1 0 0] [])) ) [[0]])) with (Ok [[0]]) by (vm_compute; reflexivity).
    cbn [bind hard_results]. unfold satisfies at 1. replace (lookup_vars (mkP 0 7 [] [qv 1 0 0] []) [0]) with (Ok [qv 1 0 0]) by reflexivity.
    cbn [bind]. unfold by_reference at 1. cbn [existsb]. replace (satisfied qops [qv 1 0 0] ex_hard0) with (Ok true) by (vm_compute; reflexivity). cbn [bind app].
    unfold collect at 1.
    replace (cartesian all_ok (map (matching (p_vars (mkP 1 7 [] [qv 1 0 0] [])) ) [[0]])) with (Ok [[0]]) by (vm_compute; reflexivity).
    cbn [bind hard_results]. unfold satisfies at 1. replace (lookup_vars (mkP 1 7 [] [qv 1 0 0] []) [0]) with (Ok [qv 1 0 0]) by reflexivity.
    cbn [bind]. unfold by_reference at 1. cbn [existsb c_hash]. rewrite N.eqb_refl. reflexivity.
Qed.
Print Assumptions C30_query_refuted.
Example C30_ex : session_ok (fun _ => True) [(ex_points, [], mkQ ex_fvs ex_hard ex_soft 0 0 0); (ex_points, [], mkQ ex_fvs ex_hard [] 1 255 7)].
Proof.
  assert (HV : Forall (fun p : point N => Forall var_ok (p_vars p)) ex_points).
  { destruct ex_good as [H _]; unfold good_points in H; (eapply Forall_impl; [|exact H]); intros p Hp; apply Hp. }
  apply Forall_cons; [|apply Forall_cons; [|apply Forall_nil]]; (split; [constructor|]; split; [exact HV|]; split; repeat constructor).
Qed.
Example C30_ex_alias : exists h, no_collision qops h (fun p vs => True /\ Forall var_ok vs) /\ forall n, h ex_hard0 [qv n 0 0] = h ex_hard0 [qv n 1 1].
Proof.
  exists (fun p vs => match satisfied qops vs p with Ok true => 1 | Ok false => 2 | Throw EEof => 3 | Throw EBadState => 4 | Throw EInvalidTag => 5
                      | Throw EInvalidFormat => 6 | Throw EInvalidTypeIndex => 7 | Throw EInvalidNameIndex => 8 | Throw EInvalidSignedSize => 9
                      | Throw EBadAlloc => 10 | Throw ECannotOpen => 11 | UB UOob => 12 | UB UUninit => 13 | UB UDangling => 14 | UB UBadFree => 15
                      | UB UNull => 16 | Abort => 17 | Diverge => 18 | Throw ELisp => 19 | Throw EArchive => 20 end).
  split.
  - intros p vs q ws _ _ H. destruct (satisfied qops vs p) as [[]|[]|[]| |], (satisfied qops ws q) as [[]|[]|[]| |]; first [reflexivity|discriminate H].
  - intro n. reflexivity.
Qed.
