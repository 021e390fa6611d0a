From Verif Require Import BaseProofs Types Stream Reader FormatSpec Compare Predicate PredSpec Query QuerySpec QueryProofs CHeap CApi CApiSpec CApiProofs CApiProofs2 CApiProofs3 CApiProofs4 Lisp LispSpec LispProofs.

(** ** Points added from Lisp *)
Lemma bytes_eqb_eq : forall a b, bytes_eqb a b = true <-> a = b.
Proof.
  induction a as [|x a IH]; intros [|y b]; cbn [bytes_eqb]; split; intro H; try discriminate; auto.
  - apply andb_true_iff in H. destruct H as [H1 H2]. apply N.eqb_eq, N_of_byte_inj in H1. apply IH in H2. congruence.
  - inversion H; subst. rewrite N.eqb_refl. apply IH. reflexivity.
Qed.
Lemma position_nth : forall l n i, position n l = Some i -> nthN l i = Some n.
Proof.
  induction l as [|m l IH]; intros n i H; cbn [position] in H; [discriminate|]. destruct (bytes_eqb n m) eqn:E.
  - inversion H; subst. apply bytes_eqb_eq in E. subst. reflexivity.
  - destruct (position n l) as [k|] eqn:Ek; [|discriminate]. inversion H; subst. rewrite nthN_succ. apply IH. exact Ek.
Qed.
Lemma position_In : forall l n, In n l -> exists i, position n l = Some i.
Proof.
  induction l as [|m l IH]; intros n H; [destruct H|]. cbn [position]. destruct (bytes_eqb n m) eqn:E; [eauto|].
  destruct H as [->|H]; [rewrite (proj2 (bytes_eqb_eq n n) eq_refl) in E; discriminate|]. destruct (IH n H) as (i & ->). cbn. eauto.
Qed.
Lemma remove_duplicates_In : forall l n, In n (remove_duplicates bytes_eqb l) <-> In n l.
Proof.
  intros l n. pose proof (remove_duplicates_lasts _ bytes_eqb eq bytes_eqb_eq l) as H. apply lasts_facts in H; [|reflexivity|congruence].
  destruct H as (H1 & H2 & _). split; [apply H1|]. intro HI. apply H2 in HI. apply Exists_exists in HI. destruct HI as (x & Hx & <-). exact Hx.
Qed.
Lemma names_of_In : forall ps p v, In p ps -> In v (lp_scopes p) -> In (lv_name v) (names_of ps) /\ In (lv_type v) (names_of ps).
Proof.
  intros ps p v Hp Hv. unfold names_of. rewrite !remove_duplicates_In, !in_flat_map. split; exists p; (split; [exact Hp|]); apply in_flat_map; exists v; cbn; auto.
Qed.

Definition word (z : Z) : N := Z.to_N (z mod 2 ^ 64).
Lemma word_lt : forall z, word z < 2 ^ 64.
Proof. intro z. unfold word. pose proof (Z.mod_pos_bound z (2 ^ 64) ltac:(lia)). lia. Qed.
Lemma s64_word : forall z, (- 2 ^ 63 <= z < 2 ^ 63)%Z -> s64 (word z) = z.
Proof.
  intros z Hz. unfold s64, word. destruct (Z.leb_spec 0 z) as [L|L].
  - rewrite Z.mod_small by lia. destruct (N.ltb_spec (Z.to_N z) two63) as [X|X]; [lia|]. change two63 with (2 ^ 63) in X. lia.
  - replace (z mod 2 ^ 64)%Z with (z + 2 ^ 64)%Z by (apply (Z.mod_unique z (2 ^ 64) (-1)); lia).
    destruct (N.ltb_spec (Z.to_N (z + 2 ^ 64)) two63) as [X|X]; [change two63 with (2 ^ 63) in X; lia|]. change two64 with (2 ^ 64). lia.
Qed.

(** The struct for a variable. *)
Definition coded (names : list name) (v : lvar) (c : cvar) : Prop :=
  nthN names (cv_name c) = Some (lv_name v) /\ nthN names (cv_tname c) = Some (lv_type v) /\
  (exists z, lv_value v = LInt z /\ (- 2 ^ 63 <= z < 2 ^ 63)%Z /\ cv_value c = VBits (word z)) /\
  lv_size v = if cv_has c =? 0 then None else Some (cv_bsz c).
Lemma encode_var_ok : forall names v, good_lvar v -> In (lv_name v) names -> In (lv_type v) names ->
  exists c, encode_var names v = Ok c /\ coded names v c.
Proof.
  intros names v (_ & _ & (z & Hv & Hz) & Hs) Hn Ht. apply position_In in Hn. apply position_In in Ht. destruct Hn as (i & Hi), Ht as (j & Hj).
  unfold encode_var. rewrite Hv, Hi, Hj. rewrite (proj2 (Z.leb_le (- 2 ^ 63) z)) by apply Hz. rewrite (proj2 (Z.ltb_lt z (2 ^ 64))) by lia. cbn [andb].
  assert (HB : match lv_size v with Some s => s | None => 0 end < two64).
  { destruct (lv_size v) as [s|]; [|reflexivity]. change two64 with (2 ^ 64). apply Hs. reflexivity. }
  apply N.ltb_lt in HB. rewrite HB. eexists. split; [reflexivity|]. split; [apply position_nth; exact Hi|]. split; [apply position_nth; exact Hj|].
  cbn [cv_value cv_has cv_bsz]. split; [exists z; auto|]. destruct (lv_size v); reflexivity.
Qed.
Definition coded_point (names : list name) (p : lpoint) (q : ipoint) : Prop :=
  ip_stmt q = pack (lp_f p) (lp_c p) /\ ip_aux q = [] /\ Forall2 (coded names) (lp_scopes p) (ip_vars q).
Lemma good_pack : forall p, good_id p -> pack (lp_f p) (lp_c p) < 2 ^ 64 /\ unpack_f (pack (lp_f p) (lp_c p)) = lp_f p /\ unpack_c (pack (lp_f p) (lp_c p)) = lp_c p.
Proof.
  intros p H. unfold good_id in H. destruct (lp_f p) as [f|]; [apply pack_ok; apply H|]. cbn [pack].
  assert (lp_c p < 2 ^ 64) by (change (2 ^ 64) with (2 * 2 ^ 63); lia). rewrite unpack_f_val, unpack_c_val by assumption.
  destruct (N.leb_spec (2 ^ 63) (lp_c p)); [lia|]. auto.
Qed.
Lemma encode_points_ok : forall names ps, Forall good_lpoint ps ->
  (forall p v, In p ps -> In v (lp_scopes p) -> In (lv_name v) names /\ In (lv_type v) names) ->
  exists ips, mapO (encode_point names) ps = Ok ips /\ Forall2 (coded_point names) ps ips.
Proof.
  intros names ps H. induction H as [|p ps (Hid & Hvs & _) _ IH]; intro HN; [exists []; split; [reflexivity|constructor]|].
  destruct IH as (ips & E & F); [intros; eapply HN; [right|]; eassumption|].
  assert (HV : exists cs, mapO (encode_var names) (lp_scopes p) = Ok cs /\ Forall2 (coded names) (lp_scopes p) cs).
  { assert (HN' : forall v, In v (lp_scopes p) -> In (lv_name v) names /\ In (lv_type v) names) by (intros; eapply HN; [left; reflexivity|assumption]). clear HN.
    induction Hvs as [|v vs Hv _ IHv]; [exists []; split; [reflexivity|constructor]|]. destruct IHv as (cs & E1 & F1); [intros; apply HN'; right; assumption|].
    destruct (HN' v (or_introl eq_refl)) as [N1 N2]. destruct (encode_var_ok names v Hv N1 N2) as (c & Ec & Cc). exists (c :: cs). cbn [mapO]. rewrite Ec. cbn [bind]. rewrite E1. split; [reflexivity|constructor; assumption]. }
  destruct HV as (cs & Ecs & Fcs). exists (mkIP (pack (lp_f p) (lp_c p)) cs [] :: ips). cbn [mapO].
  unfold encode_point at 1. rewrite Ecs. cbn [bind]. destruct (good_pack p Hid) as [HL _]. apply N.ltb_lt in HL. change two64 with (2 ^ 64). rewrite HL. cbn [bind]. rewrite E.
  split; [reflexivity|]. constructor; [|exact F]. unfold coded_point. cbn. auto.
Qed.

Lemma expand_var_ok : forall names ips types v c w, coded names v c -> imported_var types c w ->
  inferred_types ips types -> (exists p, In p ips /\ In c (ip_vars p)) ->
  exists x, export_var types w = Ok x /\ expand_var names x = Ok v.
Proof.
  intros names ips types v c w (N1 & N2 & (z & Hz & Rz & Vz) & Hs) (W1 & W2 & W3 & W4 & W5 & t & Ht & Tn & Wf) (_ & _ & HT) (p & Hp & Hc).
  unfold export_var. rewrite Ht. eexists. split; [reflexivity|]. unfold expand_var, expand_value, aref. cbn [cv_format cv_value cv_name cv_tname cv_has cv_bsz cv_size].
  rewrite W1, W2, W3, W4, Wf, Tn, Vz, N1, N2, <- Hs.
  rewrite Forall_forall in HT. specialize (HT t (nthN_In _ _ _ _ Ht)). destruct HT as (_ & [[-> _]|[-> HN]]); cbn [bind].
  - rewrite (s64_word z Rz). destruct v; cbn in *; subst; reflexivity.
  - assert (0 <= z)%Z. { destruct (Z.leb_spec 0 z); [assumption|]. exfalso. apply HN. exists p, c, (word z). rewrite Tn. conj_split; auto. rewrite (s64_word z Rz). assumption. }
    assert (Z.of_N (word z) = z). { unfold word. rewrite Z.mod_small by lia. lia. }
    rewrite H0. destruct v; cbn in *; subst; reflexivity.
Qed.

Lemma expand_points_ok : forall names ips types, inferred_types ips types ->
  forall ps qs i trs, Forall2 (coded_point names) ps qs -> imported types i qs trs -> (forall q, In q qs -> In q ips) ->
  Forall good_lpoint ps ->
  exists xs, mapO (export_point types) trs = Ok xs /\ mapO (expand_point names) xs = Ok ps.
Proof.
  intros names ips types HT ps qs i trs H. revert i trs. induction H as [|p q ps qs (C1 & C2 & C3) _ IH]; intros i trs HI HS HG; inversion HI as [|? ? r ? rs I1 I2 I3 I4 I5 I6]; subst.
  - exists []. split; reflexivity.
  - inversion HG as [|? ? (G1 & G2 & G3) GG]; subst. destruct (IH _ _ I6) as (xs & X1 & X2); [intros; apply HS; right; assumption|assumption|].
    assert (HV : exists ys, mapO (export_var types) (p_vars r) = Ok ys /\ mapO (expand_var names) ys = Ok (lp_scopes p)).
    { assert (HC : forall c, In c (ip_vars q) -> exists p, In p ips /\ In c (ip_vars p)) by (intros c Hc; exists q; split; [apply HS; left; reflexivity|assumption]).
      clear - C3 I5 HC HT. revert C3 HC. generalize (lp_scopes p) as vs. induction I5 as [|c w cs ws Hw _ IHv]; intros vs C3 HC; inversion C3 as [|v ? vs' ? Hv C3']; subst.
      - exists []. split; reflexivity.
      - destruct (IHv _ C3') as (ys & Y1 & Y2); [intros; apply HC; right; assumption|].
        destruct (expand_var_ok names ips types v c w Hv Hw HT (HC c (or_introl eq_refl))) as (x & E1 & E2).
        exists (x :: ys). cbn [mapO]. rewrite E1, E2. cbn [bind]. rewrite Y1, Y2. split; reflexivity. }
    destruct HV as (ys & Y1 & Y2). exists (mkIP (p_stmt r) ys (p_aux r) :: xs). cbn [mapO]. unfold export_point at 1. unfold expand_point at 1. cbn [ip_vars ip_stmt ip_aux].
    rewrite Y1, Y2. cbn [bind]. rewrite X1, X2. split; [reflexivity|]. cbn [bind]. f_equal. f_equal.
    rewrite I2, C1, I4. destruct (good_pack p G1) as (_ & U1 & U2). rewrite U1, U2. destruct p; cbn in *; subst; reflexivity.
Qed.

Lemma names_of_clean : forall ps, Forall good_lpoint ps -> map c_string (names_of ps) = names_of ps.
Proof.
  intros ps H. assert (HC : forall n, In n (names_of ps) -> c_string n = n).
  { intros n Hn. unfold names_of in Hn. apply (proj1 (remove_duplicates_In _ _)) in Hn. apply in_flat_map in Hn. destruct Hn as (p & Hp & Hn). apply in_flat_map in Hn. destruct Hn as (v & Hv & Hn).
    rewrite Forall_forall in H. destruct (H p Hp) as (_ & HV & _). rewrite Forall_forall in HV. destruct (HV v Hv) as (H1 & H2 & _).
    apply c_string_nul_free. intro HI. destruct Hn as [<-|[<-|[]]]; [rewrite Forall_forall in H1; apply (H1 _ HI)|rewrite Forall_forall in H2; apply (H2 _ HI)]; reflexivity. }
  induction (names_of ps) as [|n l IH]; [reflexivity|]. cbn [map]. rewrite HC by (left; reflexivity). rewrite IH by (intros; apply HC; right; assumption). reflexivity.
Qed.

Lemma add_points_round : forall A ok grow (l : ldb A) ps m, Forall good_lpoint ps ->
  lenN (names_of ps) < 2 ^ 32 -> (names_of ps = [] \/ ok (8 * lenN (names_of ps)) = true) ->
  exists l' tr, lisp_add_points A grow l ps m = Ok l' /\ traces (l_db l') = traces (l_db l) ++ [tr] /\ l_meta l' = m :: l_meta l /\
    convert_points ok tr (tr_points tr) (fun _ => true) = Ok ps.
Proof.
  intros A ok grow l ps m HG HN HO. destruct (encode_points_ok (names_of ps) ps HG (names_of_In ps)) as (ips & E & F).
  assert (HW : words_ok ips).
  { clear - F. remember (names_of ps) as names eqn:X. clear X. induction F as [|p q ps qs (_ & _ & H) _ IH]; constructor; [|exact IH]. clear - H. induction H as [|v c vs cs (_ & _ & (z & _ & _ & Hz) & _) _ IH]; constructor; [|exact IH].
    exists (word z). split; [exact Hz|apply word_lt]. }
  assert (HA : Forall (fun p => ip_aux p = []) ips) by (clear - F; remember (names_of ps) as names eqn:X; clear X; induction F as [|p q ps qs (_ & H & _) _ IH]; constructor; assumption).
  destruct (import_ok (names_of ps) ips HW HA) as (tr & EI & (I1 & I2 & I3)).
  unfold lisp_add_points. rewrite E. cbn [bind]. unfold add_trace_points. rewrite EI. cbn [bind].
  eexists _, tr. split; [reflexivity|]. cbn [l_db l_meta]. split; [apply traces_push|]. split; [reflexivity|].
  destruct (expand_points_ok (names_of ps) ips (tr_types tr) I2 ps ips 0 (tr_points tr) F I3 (fun q H => H) HG) as (xs & X1 & X2).
  unfold convert_points, c_get_names. rewrite X1. cbn [bind]. rewrite I1, names_of_clean by exact HG. change two32 with (2 ^ 32).
  destruct (N.leb_spec (2 ^ 32) (lenN (names_of ps))); [lia|].
  replace (ok (8 * lenN (names_of ps)) || (lenN (names_of ps) =? 0)) with true by (destruct HO as [HO|HO]; rewrite HO; [rewrite orb_true_r|]; reflexivity).
  cbn [bind]. rewrite names_of_clean by exact HG. rewrite X2. cbn [bind]. f_equal. clear. induction ps; cbn; congruence.
Qed.

(** The list [export_point] gives is what the array shows (C37). *)
Lemma export_exported : forall types p q, export_point types p = Ok q <-> exported types p q.
Proof.
  intros types p q. unfold export_point, exported. assert (HV : forall vs cs, mapO (export_var types) vs = Ok cs <-> Forall2 (exported_var types) vs cs).
  { intros vs cs. rewrite mapO_Forall2. split; intro H; (eapply Forall2_impl; [|exact H]); clear; cbv beta; intros v c; unfold export_var, exported_var.
    - destruct (nthN types (v_type v)) as [t|]; [|discriminate]. intro E. inversion E; subst. cbn. conj_split; auto. exists t. auto.
    - intros (H1 & H2 & H3 & H4 & H5 & H6 & t & Ht & Tn). rewrite Ht. destruct c; cbn in *; subst. reflexivity. }
  split.
  - intro H. apply bind_ok in H. destruct H as (cs & H & E). inversion E; subst. cbn. conj_split; auto. apply HV. exact H.
  - intros (H1 & H2 & H3). apply HV in H3. rewrite H3. cbn [bind]. destruct q; cbn in *; subst. reflexivity.
Qed.

(** ** sexp-trace-db *)
Lemma takeN_nil : forall A n, takeN n (@nil A) = [].
Proof. intros. rewrite takeN_firstn. apply firstn_nil. Qed.
Lemma takeN_0 : forall A (l : list A), takeN 0 l = [].
Proof. intros. rewrite takeN_firstn. reflexivity. Qed.
Lemma takeN_cons : forall A (x : A) l n, takeN (N.succ n) (x :: l) = x :: takeN n l.
Proof. intros. rewrite !takeN_firstn, N2Nat.inj_succ. reflexivity. Qed.
Lemma read_objects_limit : forall objs n m, n <= m -> read_objects n (Some m) objs = takeN (m - n) (before_nil objs).
Proof.
  induction objs as [|[p|] objs IH]; intros n m H; cbn [read_objects before_nil]; try (rewrite takeN_nil; reflexivity).
  destruct (N.ltb_spec n m) as [L|L].
  - rewrite IH by lia. replace (m - n) with (N.succ (m - (n + 1))) by lia. rewrite takeN_cons. reflexivity.
  - replace (m - n) with 0 by lia. rewrite takeN_0. reflexivity.
Qed.
Lemma read_objects_all : forall objs n, read_objects n None objs = before_nil objs.
Proof. induction objs as [|[p|] objs IH]; intro n; cbn [read_objects before_nil]; try reflexivity. rewrite IH. reflexivity. Qed.
Lemma read_objects_ok : forall objs max, read_objects 0 max objs = limit max (before_nil objs).
Proof. intros objs [m|]; [rewrite read_objects_limit by lia; rewrite N.sub_0_r; reflexivity|apply read_objects_all]. Qed.

Lemma do_sadds_ok : forall A (hs : list (sadd A)) s, 
  s_traces (fold_left do_sadd hs s) = rev (map fst (flat_map sadded hs)) ++ s_traces s /\
  s_meta (fold_left do_sadd hs s) = rev (map snd (flat_map sadded hs)) ++ s_meta s.
Proof.
  intros A hs. induction hs as [|a hs IH]; intro s; [split; reflexivity|]. cbn [fold_left flat_map]. destruct (IH (do_sadd s a)) as [-> ->].
  destruct a as [objs max m|t m]; cbn [do_sadd sadded].
  - unfold sexp_add_trace. rewrite read_objects_ok. destruct (limit max (before_nil objs)) as [|p t]; [split; reflexivity|].
    cbn [s_traces s_meta app map rev fst snd]. rewrite <- !app_assoc. split; reflexivity.
  - cbn [sexp_add_points s_traces s_meta app map rev fst snd]. rewrite <- !app_assoc. split; reflexivity.
Qed.

(** ** One point *)
Section Pick.
Variables (A St : Type) (sat : St -> pred -> list var -> outcome (bool * St)).
Lemma lisp_query_one : forall ok pick hash (l : ldb A) i tr c st q n m,
  nthN (db_traces (l_db l)) i = Some (tr, c) -> coherent (tr_points tr) c -> nthN (l_meta l) i = Some m ->
  lq_pick q = Some n -> n <> 0 -> (forall s n, n <> 0 -> pick s n < n) ->
  (forall p, In p (tr_points tr) -> N.land (p_stmt p) (file_mask (lq_file q)) <> file_statement (lq_file q)) \/
  exists p, In p (tr_points tr) /\
    lresults (lisp_query A St sat ok pick hash l st i q) = lresults (lisp_query A St sat ok pick hash (single (only_point p tr) m) st 0 (no_pick q)).
Proof.
  intros ok pick hash l i tr c st q n m Hn HC Hm Hq Hp HP.
  assert (HQ : (forall p, In p (tr_points tr) -> N.land (p_stmt p) (file_mask (lq_file q)) <> file_statement (lq_file q)) \/
    exists k, k < lenN (filter (fun p => N.land (p_stmt p) (file_mask (lq_file q)) =? file_statement (lq_file q)) (tr_points tr)) /\
    k = pick n (lenN (filter (fun p => N.land (p_stmt p) (file_mask (lq_file q)) =? file_statement (lq_file q)) (tr_points tr)))).
  { set (l0 := filter _ _). destruct (N.eq_dec (lenN l0) 0) as [E|E].
    - left. intros p Hp' X. assert (In p l0) by (apply filter_In; split; [assumption|apply N.eqb_eq; exact X]). destruct l0; [contradiction|]. rewrite lenN_cons in E. lia.
    - right. eexists. split; [|reflexivity]. apply HP. exact E. }
  destruct HQ as [HQ|(k & Hk & Ek)]; [left; exact HQ|]. right.
  destruct (nthN_lt _ _ _ Hk) as (p & Hkp). pose proof (nthN_In _ _ _ _ Hkp) as HI. apply filter_In in HI. destruct HI as [HI HX]. exists p. split; [exact HI|].
  unfold lresults, lisp_query, lisp_types, aref.
  change (nthN (db_traces (l_db (single (only_point p tr) m))) 0) with (Some (only_point p tr, [] : gp_cache)).
  change (nthN (l_meta (single (only_point p tr) m)) 0) with (Some m).
  rewrite Hn, Hm. cbn [bind fst]. change (c_get_types ok (only_point p tr)) with (c_get_types ok tr).
  destruct (c_get_types ok tr) as [tys| | | |]; cbn [bind]; try reflexivity.
  unfold to_cquery. cbn [no_pick lq_names lq_types lq_pick lq_file lq_pred lq_soft lq_filter]. rewrite Hq.
  destruct (match lq_pred q with Some _ => _ | None => _ end); [|reflexivity].
  destruct (mapO (type_indices tys) (lq_types q)) as [fvs| | | |]; cbn [bind]; try reflexivity.
  destruct (build_predicate (lq_names q) (lq_pred q)) as [hard| | | |]; cbn [bind]; try reflexivity.
  destruct (mapO (build_predicate (lq_names q)) (lq_soft q)) as [soft| | | |]; cbn [bind]; try reflexivity.
  destruct (file_statement (lq_file q) <? two64); [|reflexivity]. cbn [bind].
  unfold query_trace. rewrite Hn.
  change (nthN (db_traces (l_db (single (only_point p tr) m))) 0) with (Some (only_point p tr, [] : gp_cache)). cbv iota beta.
  cbn [cq_fvs cq_hard cq_soft cq_seed cq_keep cq_mask cq_stmt].
  destruct (create_predicate_obj hard) as [h| | | |]; cbn [bind]; try reflexivity.
  destruct (mapO create_predicate_obj soft) as [s| | | |]; cbn [bind]; try reflexivity.
  assert (HQ : (' (rs, _, s1) <- query St sat ok pick (tr_points tr) c st fvs h s n (file_mask (lq_file q)) (file_statement (lq_file q)) ;; Ok (rs, s1)) =
    (' (rs, _, s1) <- query St sat ok pick (tr_points (only_point p tr)) [] st fvs h s 0 (file_mask (lq_file q)) (file_statement (lq_file q)) ;; Ok (rs, s1))).
  { unfold query at 1. destruct (get_points_ok (tr_points tr) c (file_mask (lq_file q)) (file_statement (lq_file q)) HC) as [E _].
    destruct (get_points (tr_points tr) c _ _) as [l0 k0]. cbn [fst] in E. subst l0. destruct (N.eqb_spec n 0); [contradiction|].
    set (l0 := filter _ (tr_points tr)) in *. rewrite <- Ek, Hkp. destruct l0 as [|x l0]; [rewrite nthN_nth_error in Hkp; destruct (N.to_nat k); discriminate|].
    cbn [only_point tr_points]. unfold query, get_points. cbn [cache_find find filter]. rewrite HX. cbn [N.eqb collect_all].
    destruct (collect St sat ok st p fvs h s) as [[rs s1]| | | |]; cbn [bind]; try reflexivity. rewrite app_nil_r. reflexivity. }
  destruct (query St sat ok pick (tr_points tr) _ _ _ _ _ _ _ _) as [[[rs c1] s1]| | | |],
    (query St sat ok pick (tr_points (only_point p tr)) _ _ _ _ _ _ _ _) as [[[rs2 c2] s2]| | | |];
    cbn [bind] in HQ |- *; try (inversion HQ; subst; reflexivity); try discriminate.
  inversion HQ; subst. cbn [bind l_db l_meta].
  assert (EC : forall ps g, convert_points ok tr ps g = convert_points ok (only_point p tr) ps g) by reflexivity.
  destruct (lq_filter q); rewrite EC; destruct (convert_points ok (only_point p tr) _ _) as [ls| | | |]; reflexivity.
Qed.
End Pick.
