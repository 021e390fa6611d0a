From Verif Require Import BaseProofs Types Stream Reader FormatSpec Compare Predicate PredSpec Query QuerySpec QueryProofs CHeap CApi CApiSpec CApiProofs CApiProofs2 CApiProofs3 CApiProofs4 Lisp LispSpec.

(** ** Bits *)
Lemma testbit_high : forall c k n, c < 2 ^ k -> k <= n -> N.testbit c n = false.
Proof. intros c k n H L. rewrite <- (N.mod_small c (2 ^ k)) by exact H. apply N.mod_pow2_bits_high. exact L. Qed.
Lemma lor_add : forall a b k, b < 2 ^ k -> N.lor (N.shiftl a k) b = a * 2 ^ k + b.
Proof.
  intros a b k H. assert (E : N.land (N.shiftl a k) b = 0).
  { apply N.bits_inj. intro n. rewrite N.land_spec, N.bits_0. destruct (N.lt_ge_cases n k) as [L|L]; [rewrite N.shiftl_spec_low by exact L; reflexivity|].
    rewrite (testbit_high b k n H L). apply andb_false_r. }
  rewrite <- N.lxor_lor by exact E. rewrite <- N.add_nocarry_lxor by exact E. rewrite N.shiftl_mul_pow2. reflexivity.
Qed.
Lemma pack_val : forall f c, f < 2 ^ 23 -> c < 2 ^ 40 -> pack (Some f) c = 2 ^ 63 + f * 2 ^ 40 + c.
Proof.
  intros f c Hf Hc. unfold pack, statement_bits. rewrite (lor_add f c 40 Hc). rewrite lor_add; [lia|].
  change (2 ^ 63) with (2 ^ 23 * 2 ^ 40). nia.
Qed.
Lemma flagged_iff : forall s, s < 2 ^ 64 -> flagged s = (2 ^ 63 <=? s).
Proof.
  intros s Hs. unfold flagged. rewrite N.shiftl_1_l.
  assert (E : N.land s (2 ^ 63) = if N.testbit s 63 then 2 ^ 63 else 0).
  { apply N.bits_inj. intro n. rewrite N.land_spec. destruct (N.eq_dec n 63) as [->|Hn].
    - rewrite N.pow2_bits_true, andb_true_r. destruct (N.testbit s 63) eqn:E; [rewrite N.pow2_bits_true|rewrite N.bits_0]; reflexivity.
    - rewrite (N.pow2_bits_false 63 n) by congruence. rewrite andb_false_r. destruct (N.testbit s 63); [rewrite N.pow2_bits_false by congruence|rewrite N.bits_0]; reflexivity. }
  rewrite E, N.testbit_eqb. clear E.
  assert (HD : s / 2 ^ 63 < 2) by (apply N.div_lt_upper_bound; [discriminate|exact Hs]).
  rewrite N.mod_small by exact HD. destruct (N.leb_spec (2 ^ 63) s) as [L|L].
  - assert (s / 2 ^ 63 = 1). { assert (1 <= s / 2 ^ 63) by (apply N.div_le_lower_bound; [discriminate|lia]). lia. }
    rewrite H. reflexivity.
  - rewrite N.div_small by exact L. reflexivity.
Qed.
Lemma unpack_c_val : forall s, s < 2 ^ 64 -> unpack_c s = if 2 ^ 63 <=? s then s mod 2 ^ 40 else s.
Proof.
  intros s Hs. unfold unpack_c. rewrite (flagged_iff s Hs). destruct (2 ^ 63 <=? s); [|reflexivity].
  rewrite N.land_comm. change (N.shiftl 1 statement_bits - 1) with (N.ones 40). apply N.land_ones.
Qed.
Lemma unpack_f_val : forall s, s < 2 ^ 64 -> unpack_f s = if 2 ^ 63 <=? s then Some ((s / 2 ^ 40) mod 2 ^ 23) else None.
Proof.
  intros s Hs. unfold unpack_f. rewrite (flagged_iff s Hs). destruct (2 ^ 63 <=? s); [|reflexivity].
  rewrite N.land_comm. change (N.shiftl 1 file_bits - 1) with (N.ones 23). rewrite N.land_ones, N.shiftr_div_pow2. reflexivity.
Qed.
Lemma has_file_iff : forall f s, has_fileb f s = true <-> has_file f s.
Proof.
  intros f s. unfold has_fileb, has_file. rewrite !andb_true_iff, N.leb_le, N.ltb_lt, N.eqb_eq. tauto.
Qed.
Lemma unpack_f_has : forall s f, s < 2 ^ 64 -> unpack_f s = Some f <-> has_file f s.
Proof.
  intros s f Hs. rewrite (unpack_f_val s Hs). unfold has_file. destruct (N.leb_spec (2 ^ 63) s) as [L|L].
  - split; [intro H; inversion H; auto|]. intros [_ H]. rewrite H. reflexivity.
  - split; [discriminate|]. intros [[H _] _]. lia.
Qed.
Lemma pack_ok : forall f c, f < 2 ^ 23 -> c < 2 ^ 40 ->
  pack (Some f) c < 2 ^ 64 /\ unpack_f (pack (Some f) c) = Some f /\ unpack_c (pack (Some f) c) = c.
Proof.
  intros f c Hf Hc. rewrite (pack_val f c Hf Hc).
  assert (HB : f * 2 ^ 40 + c < 2 ^ 63). { change (2 ^ 63) with (2 ^ 23 * 2 ^ 40). nia. }
  assert (HL : 2 ^ 63 + f * 2 ^ 40 + c < 2 ^ 64). { change (2 ^ 64) with (2 ^ 63 + 2 ^ 63). lia. }
  split; [exact HL|]. rewrite unpack_f_val, unpack_c_val by exact HL.
  replace (2 ^ 63 <=? 2 ^ 63 + f * 2 ^ 40 + c) with true by (symmetry; apply N.leb_le; lia).
  replace (2 ^ 63 + f * 2 ^ 40 + c) with (c + (2 ^ 23 + f) * 2 ^ 40) by (change (2 ^ 63) with (2 ^ 23 * 2 ^ 40); lia).
  rewrite N.div_add, N.mod_add by discriminate. rewrite (N.div_small c) by exact Hc. rewrite (N.mod_small c) by exact Hc. split; [|reflexivity].
  f_equal. replace (0 + (2 ^ 23 + f)) with (f + 1 * 2 ^ 23) by lia. rewrite N.mod_add by discriminate. apply N.mod_small. exact Hf.
Qed.
Lemma mask_iff : forall s f, f < 2 ^ 23 -> N.land s (file_mask (Some f)) = file_statement (Some f) <-> (s / 2 ^ 40) mod 2 ^ 23 = f.
Proof.
  intros s f Hf. unfold file_mask, file_statement, statement_bits. change (N.shiftl 1 file_bits - 1) with (N.ones 23).
  assert (E : N.land s (N.shiftl (N.ones 23) 40) = N.shiftl (N.land (N.shiftr s 40) (N.ones 23)) 40).
  { apply N.bits_inj. intro n. rewrite N.land_spec. destruct (N.lt_ge_cases n 40) as [L|L].
    - rewrite !N.shiftl_spec_low by exact L. apply andb_false_r.
    - rewrite !N.shiftl_spec_high' by exact L. rewrite N.land_spec, N.shiftr_spec'. replace (n - 40 + 40) with n by lia. reflexivity. }
  rewrite E, N.land_ones, N.shiftr_div_pow2, !N.shiftl_mul_pow2. split; [|intros ->; reflexivity].
  intro H. apply N.mul_cancel_r in H; [exact H|discriminate].
Qed.

(** ** Restriction to a file *)
Section File.
Variables (A St : Type) (sat : St -> pred -> list var -> outcome (bool * St)).

Lemma query_restrict : forall ok pick points points' c c' st fvs hard soft seed mask stmt mask' stmt',
  coherent points c -> coherent points' c' ->
  filter (fun p => N.land (p_stmt p) mask =? stmt) points = filter (fun p => N.land (p_stmt p) mask' =? stmt') points' ->
  (' (rs, _, s) <- query St sat ok pick points c st fvs hard soft seed mask stmt ;; Ok (rs, s)) =
  (' (rs, _, s) <- query St sat ok pick points' c' st fvs hard soft seed mask' stmt' ;; Ok (rs, s)).
Proof.
  intros ok pick points points' c c' st fvs hard soft seed mask stmt mask' stmt' HC HC' HF. unfold query.
  destruct (get_points_ok points c mask stmt HC) as [E _]. destruct (get_points points c mask stmt) as [l k]. cbn [fst] in E.
  destruct (get_points_ok points' c' mask' stmt' HC') as [E' _]. destruct (get_points points' c' mask' stmt') as [l' k']. cbn [fst] in E'.
  rewrite HF, <- E' in E. subst l. clear. destruct (seed =? 0).
  - destruct (collect_all St sat ok st l' fvs hard soft) as [[rs s]| | | |]; reflexivity.
  - destruct l' as [|p l']; [reflexivity|]. destruct (nthN _ _); [|reflexivity].
    destruct (collect St sat ok st p0 fvs hard soft) as [[rs s]| | | |]; reflexivity.
Qed.

Lemma filter_filter : forall X (f g : X -> bool) l, filter f (filter g l) = filter (fun x => g x && f x) l.
Proof. intros X f g l. induction l as [|x l IH]; [reflexivity|]. cbn. destruct (g x); cbn; [destruct (f x)|]; rewrite IH; reflexivity. Qed.

Lemma file_selects : forall f tr, f < 2 ^ 23 -> Forall (fun p => 2 ^ 63 <= p_stmt p < 2 ^ 64) (tr_points tr) ->
  filter (fun p => N.land (p_stmt p) (file_mask (Some f)) =? file_statement (Some f)) (tr_points tr) =
  filter (fun p => N.land (p_stmt p) 0 =? 0) (tr_points (only_file f tr)).
Proof.
  intros f tr Hf HP. cbn [only_file tr_points]. rewrite filter_filter. induction (tr_points tr) as [|p l IH]; [reflexivity|].
  inversion HP as [|? ? H1 H2]; subst. cbn [filter]. rewrite IH by exact H2. rewrite N.land_0_r. cbn [N.eqb]. rewrite andb_true_r.
  replace (N.land (p_stmt p) (file_mask (Some f)) =? file_statement (Some f)) with (has_fileb f (p_stmt p)); [reflexivity|].
  apply eq_true_iff_eq. rewrite N.eqb_eq, (mask_iff _ _ Hf), has_file_iff. unfold has_file. tauto.
Qed.

Lemma query_only_file : forall ok pick hash (l : ldb A) i tr c st q f m,
  nthN (db_traces (l_db l)) i = Some (tr, c) -> coherent (tr_points tr) c -> nthN (l_meta l) i = Some m ->
  lq_file q = Some f -> f < 2 ^ 23 -> Forall (fun p => 2 ^ 63 <= p_stmt p < 2 ^ 64) (tr_points tr) ->
  lresults (lisp_query A St sat ok pick hash l st i q) =
  lresults (lisp_query A St sat ok pick hash (single (only_file f tr) m) st 0 (no_file q)).
Proof.
  intros ok pick hash l i tr c st q f m Hn HC Hm Hq Hf HP. unfold lresults, lisp_query, lisp_types, aref.
  change (nthN (db_traces (l_db (single (only_file f tr) m))) 0) with (Some (only_file f tr, [] : gp_cache)).
  change (nthN (l_meta (single (only_file f tr) m)) 0) with (Some m).
  rewrite Hn, Hm. cbn [bind fst]. change (c_get_types ok (only_file f tr)) with (c_get_types ok tr).
  destruct (c_get_types ok tr) as [tys| | | |]; cbn [bind]; try reflexivity.
  unfold to_cquery. cbn [no_file lq_names lq_types lq_pick lq_file lq_pred lq_soft lq_filter]. rewrite Hq.
  destruct (match lq_pred q with Some _ => _ | None => _ end); [|reflexivity].
  destruct (mapO (type_indices tys) (lq_types q)) as [fvs| | | |]; cbn [bind]; try reflexivity.
  destruct (build_predicate (lq_names q) (lq_pred q)) as [hard| | | |]; cbn [bind]; try reflexivity.
  destruct (mapO (build_predicate (lq_names q)) (lq_soft q)) as [soft| | | |]; cbn [bind]; try reflexivity.
  assert (HS : file_statement (Some f) < two64).
  { unfold file_statement, statement_bits. rewrite N.shiftl_mul_pow2. change two64 with (2 ^ 24 * 2 ^ 40). change (2 ^ 24) with (2 * 2 ^ 23). nia. }
  apply N.ltb_lt in HS. rewrite HS. change (file_statement None <? two64) with true. cbv iota. cbn [bind].
  unfold query_trace. rewrite Hn.
  change (nthN (db_traces (l_db (single (only_file f tr) m))) 0) with (Some (only_file f tr, [] : gp_cache)). cbv iota beta.
  cbn [cq_fvs cq_hard cq_soft cq_seed cq_keep cq_mask cq_stmt].
  destruct (create_predicate_obj hard) as [h| | | |]; cbn [bind]; try reflexivity.
  destruct (mapO create_predicate_obj soft) as [s| | | |]; cbn [bind]; try reflexivity.
  pose proof (query_restrict ok pick (tr_points tr) (tr_points (only_file f tr)) c [] st fvs h s
    (match lq_pick q with Some n => n | None => 0 end) (file_mask (Some f)) (file_statement (Some f)) 0 0 HC (Forall_nil _) (file_selects f tr Hf HP)) as HQ.
  change (file_mask None) with 0. change (file_statement None) with 0.
  destruct (query St sat ok pick (tr_points tr) _ _ _ _ _ _ _ _) as [[[rs c1] s1]| | | |],
    (query St sat ok pick (tr_points (only_file f tr)) _ _ _ _ _ _ _ _) as [[[rs2 c2] s2]| | | |];
    cbn [bind] in HQ |- *; try (inversion HQ; subst; reflexivity); try discriminate.
  inversion HQ; subst. cbn [bind l_db l_meta].
  assert (EC : forall ps g, convert_points ok tr ps g = convert_points ok (only_file f tr) ps g) by reflexivity.
  destruct (lq_filter q); rewrite EC; destruct (convert_points ok (only_file f tr) _ _) as [ls| | | |]; reflexivity.
Qed.
End File.

(** ** Additions *)
Section Adds.
Variables (A : Type) (ok : N -> bool) (coins : nat -> bool) (pos : nat) (grow : N -> N).

Lemma do_ladd_cases : forall (l : ldb A) a b l', do_ladd ok (skip_map coins pos) grow l a = Ok (b, l') ->
  (b = true /\ (exists tr, stores ok a tr /\ traces (l_db l') = traces (l_db l) ++ [tr]) /\
     l_meta l' = if is_file a then l_meta l ++ [meta_of a] else meta_of a :: l_meta l) \/
  (b = false /\ is_file a = true /\ l' = l).
Proof.
  intros l [file max garbage m|ps m] b l' H; cbn [do_ladd is_file meta_of stores] in *.
  - unfold lisp_add_trace in H. apply bind_ok in H. destruct H as ([b0 d] & H & E). inversion E; subst.
    apply add_trace_cases in H. destruct H as [[-> (bs & t & tr & Hf & Ha & ->)]|[-> [-> _]]]; cbn [l_db l_meta].
    + left. split; [reflexivity|]. split; [|reflexivity]. eexists. split; [exists bs, t, tr; eauto|]. apply traces_push.
    + right. split; [reflexivity|]. split; [reflexivity|]. destruct l; reflexivity.
  - apply bind_ok in H. destruct H as (l1 & H & E). inversion E; subst. clear E. unfold lisp_add_points in H.
    apply bind_ok in H. destruct H as (ips & HE & H). apply bind_ok in H. destruct H as ([b0 d] & H & E). inversion E; subst. cbn [l_db l_meta].
    unfold add_trace_points in H. apply bind_ok in H. destruct H as (tr & HI & H). inversion H; subst.
    left. split; [reflexivity|]. split; [|reflexivity]. exists tr. split; [eauto|]. apply traces_push.
Qed.

Lemma do_ladds_traces : forall hs (l : ldb A) bs l', do_ladds ok (skip_map coins pos) grow l hs = Ok (bs, l') ->
  exists trs, Forall2 (stores ok) (successful hs bs) trs /\ traces (l_db l') = traces (l_db l) ++ trs /\
    l_meta l' = rev (map meta_of (filter (fun a => negb (is_file a)) (successful hs bs))) ++ l_meta l ++ map meta_of (filter is_file (successful hs bs)).
Proof.
  induction hs as [|a hs IH]; intros l bs l' H; cbn [do_ladds] in H.
  - inversion H; subst. exists []. cbn. rewrite !app_nil_r. conj_split; auto.
  - apply bind_ok in H. destruct H as ([b l1] & H1 & H). apply bind_ok in H. destruct H as ([bs1 l2] & H2 & H). inversion H; subst. clear H.
    apply IH in H2. destruct H2 as (trs & F2 & Etr & Em). apply do_ladd_cases in H1. destruct H1 as [(-> & (tr & Hs & E1) & M1)|(-> & Hf & ->)]; cbn [successful].
    + exists (tr :: trs). split; [constructor; assumption|]. split; [rewrite Etr, E1, <- app_assoc; reflexivity|].
      rewrite Em, M1. cbn [filter]. destruct (is_file a); cbn [negb map rev]; rewrite <- ?app_assoc; reflexivity.
    + exists trs. auto.
Qed.
End Adds.

(** ** Duplicates *)
Lemma name_equalp_iff : forall a b, name_equalp a b = true <-> same_name a b.
Proof.
  unfold same_name. induction a as [|x a IH]; intros [|y b]; cbn [name_equalp]; split; intro H; try discriminate; try constructor; try (inversion H; fail).
  - apply andb_true_iff in H. destruct H as [H _]. apply N.eqb_eq in H. exact H.
  - apply IH. apply andb_true_iff in H. apply H.
  - inversion H; subst. apply andb_true_iff. split; [apply N.eqb_eq; assumption|]. apply IH. assumption.
Qed.
Lemma key_equalp_iff : forall p q, key_equalp (lisp_key p) (lisp_key q) = true <-> same_binding p q.
Proof.
  intros p q. unfold key_equalp, lisp_key, same_binding. cbn [fst snd]. rewrite !andb_true_iff, N.eqb_eq.
  assert (HO : optN_eqb (lp_f p) (lp_f q) = true <-> lp_f p = lp_f q).
  { destruct (lp_f p), (lp_f q); cbn; rewrite ?N.eqb_eq; split; intro H; try congruence; inversion H; reflexivity. }
  rewrite HO, and_assoc. assert (HB : bindings_equalp (map (fun v => (lv_name v, lv_type v)) (lp_scopes p)) (map (fun v => (lv_name v, lv_type v)) (lp_scopes q)) = true <->
    Forall2 (fun v w => same_name (lv_name v) (lv_name w) /\ same_name (lv_type v) (lv_type w)) (lp_scopes p) (lp_scopes q)); [|tauto].
  generalize (lp_scopes q). induction (lp_scopes p) as [|v l IH]; intros [|w m]; cbn [map bindings_equalp fst snd]; split; intro H; try discriminate; try constructor; try (inversion H; fail).
  - apply andb_true_iff in H. destruct H as [H _]. apply andb_true_iff in H. rewrite !name_equalp_iff in H. exact H.
  - apply IH. apply andb_true_iff in H. apply H.
  - inversion H as [|? ? ? ? H1 H2]; subst. rewrite !andb_true_iff, !name_equalp_iff. split; [exact H1|]. apply IH. exact H2.
Qed.
Lemma remove_duplicates_lasts : forall X (test : X -> X -> bool) (R : X -> X -> Prop), (forall x y, test x y = true <-> R x y) ->
  forall l, lasts R l (remove_duplicates test l).
Proof.
  intros X test R HR. induction l as [|x l IH]; [constructor|]. cbn [remove_duplicates].
  assert (HE : existsb (test x) l = true <-> Exists (R x) l).
  { rewrite existsb_exists, Exists_exists. split; intros (y & H1 & H2); exists y; split; auto; apply HR; assumption. }
  destruct (existsb (test x) l).
  - apply last_drop; [apply HE; reflexivity|exact IH].
  - apply last_keep; [|exact IH]. intro H. apply HE in H. discriminate.
Qed.
Lemma same_name_refl : forall a, same_name a a.
Proof. intro a. unfold same_name. induction a; constructor; auto. Qed.
Lemma same_name_trans : forall a b c, same_name a b -> same_name b c -> same_name a c.
Proof. intros a b c H. revert c. unfold same_name in *. induction H; intros c H1; inversion H1; subst; constructor; [congruence|auto]. Qed.
Lemma same_binding_refl : forall p, same_binding p p.
Proof. intro p. unfold same_binding. conj_split; auto. induction (lp_scopes p); constructor; auto using same_name_refl. Qed.
Lemma same_binding_trans : forall p q r, same_binding p q -> same_binding q r -> same_binding p r.
Proof.
  intros p q r (H1 & H2 & H3) (K1 & K2 & K3). unfold same_binding. split; [congruence|]. split; [congruence|].
  revert K3. generalize (lp_scopes r). clear - H3. induction H3 as [|v w l m Hv _ IH]; intros n K; inversion K as [|? u ? ? Hu K']; subst; constructor; [|auto].
  destruct Hv, Hu. split; eapply same_name_trans; eassumption.
Qed.
Lemma lasts_facts : forall X (R : X -> X -> Prop) l r, (forall x, R x x) -> (forall x y z, R x y -> R y z -> R x z) -> lasts R l r ->
  (forall x, In x r -> In x l) /\ (forall x, In x l -> Exists (R x) r) /\ ForallOrdPairs (fun x y => ~ R x y) r.
Proof.
  intros X R l r Hr Ht H. induction H as [|x l r HE H (I1 & I2 & I3)|x l r HE H (I1 & I2 & I3)].
  - split; [tauto|]. split; [intros x []|constructor].
  - split; [intros y Hy; right; auto|]. split; [|exact I3]. intros y [<-|Hy]; [|auto].
    apply Exists_exists in HE. destruct HE as (z & Hz & HR). apply I2 in Hz. rewrite Exists_exists in *. destruct Hz as (w & Hw & Hzw). exists w. split; [exact Hw|]. eapply Ht; eassumption.
  - split; [intros y [<-|Hy]; [left; reflexivity|right; auto]|]. split.
    + intros y [<-|Hy]; [left; apply Hr|right; auto].
    + constructor; [|exact I3]. apply Forall_forall. intros y Hy HR. apply HE. apply Exists_exists. exists y. auto.
Qed.

(** ** Predicates *)
Lemma nthN_succ : forall A (x : A) l i, nthN (x :: l) (N.succ i) = nthN l i.
Proof. intros A x l i. rewrite !nthN_nth_error, N2Nat.inj_succ. reflexivity. Qed.
Lemma sym_position_first : forall l s i, sym_position s l = Some i <-> first_at l s i.
Proof.
  induction l as [|x l IH]; intros s i; cbn [sym_position].
  - split; [discriminate|]. intros [H _]. rewrite nthN_nth_error in H. destruct (N.to_nat i); discriminate.
  - destruct (N.eqb_spec s x) as [->|Hx].
    + split.
      * intro H. inversion H; subst. split; [reflexivity|]. intros j Hj. lia.
      * intros [H1 H2]. destruct (N.eq_dec i 0) as [->|Hi]; [reflexivity|]. exfalso. apply (H2 0); [lia|reflexivity].
    + split.
      * intro H. destruct (sym_position s l) as [k|] eqn:E; [|discriminate]. cbn in H. inversion H; subst. apply IH in E. destruct E as [E1 E2]. split.
        -- rewrite nthN_succ. exact E1.
        -- intros j Hj. destruct (N.eq_dec j 0) as [->|Hj0]; [cbn; congruence|]. replace j with (N.succ (N.pred j)) by lia. rewrite nthN_succ. apply E2. lia.
      * intros [H1 H2]. destruct (N.eq_dec i 0) as [->|Hi]; [cbn in H1; congruence|]. replace i with (N.succ (N.pred i)) in * by lia. rewrite nthN_succ in H1.
        assert (E : sym_position s l = Some (N.pred i)).
        { apply IH. split; [exact H1|]. intros j Hj. specialize (H2 (N.succ j) ltac:(lia)). rewrite nthN_succ in H2. exact H2. }
        rewrite E. cbn. reflexivity.
Qed.

Section SInd.
Variable P : sexp -> Prop.
Hypothesis H : forall e, match e with SList _ l => Forall P l | _ => True end -> P e.
Fixpoint sexp_ind2 (e : sexp) : P e.
Proof.
  apply H. destruct e as [s|z|b|o l]; try exact I.
  exact ((fix go (l : list sexp) : Forall P l := match l with [] => Forall_nil P | c :: r => Forall_cons c (sexp_ind2 c) (go r) end) l).
Defined.
End SInd.

Definition build_args (names : list N) (l : list sexp) : outcome (list cpred) :=
  (fix go l := match l with
               | [] => Ok []
               | a :: r => c <- build names a ;; cs <- go r ;; Ok (c :: cs)
               end) l.
Lemma build_list : forall names o args, build names (SList o args) =
  (k <- op_kind o ;; cs <- build_args names args ;; Ok (CPred k (lenN args) 0 0 0 0 (Some cs))).
Proof. reflexivity. Qed.

(** [good names e p]: e is built, and the result is a proper description of p. *)
Definition good names e p := exists c, build names e = Ok c /\ describes c p /\ kind_of c <> NULL_PREDICATE /\ counts_match c.

Lemma build_args_good : forall names l ps, Forall2 (good names) l ps ->
  exists cs, build_args names l = Ok cs /\ describes_list cs ps /\ lenN cs = lenN l /\ Forall counts_match cs.
Proof.
  intros names l ps H. induction H as [|e p l ps (c & E & D & K & M) _ (cs & Ecs & Dcs & L & Mcs)].
  - exists []. cbn. conj_split; auto. constructor.
  - exists (c :: cs). cbn [build_args]. rewrite E. cbn [bind]. fold (build_args names l). rewrite Ecs. cbn [bind]. rewrite !lenN_cons, L. conj_split; auto. constructor; assumption.
Qed.
Lemma all_counts : forall l, Forall counts_match l -> (fix all l := match l with [] => True | c :: r => counts_match c /\ all r end) l.
Proof. intros l H. induction H; auto. Qed.
Lemma good_op : forall names o k l ps, op_kind o = Ok k -> ~ In k [VAR_REFERENCE; UNSIGNED_VALUE; SIGNED_VALUE; FLOAT_VALUE] -> k <> NULL_PREDICATE ->
  lenN l < 2 ^ 32 -> Forall2 (good names) l ps -> good names (SList o l) (Pred k (lenN l) ps).
Proof.
  intros names o k l ps HK HN H0 HL H. destruct (build_args_good names l ps H) as (cs & E & D & L & M).
  exists (CPred k (lenN l) 0 0 0 0 (Some cs)). rewrite build_list, HK. cbn [bind]. rewrite E. conj_split; auto.
  - apply d_op; [exact HN|]. constructor; assumption.
  - cbn [counts_match]. rewrite L. conj_split; auto. apply all_counts. exact M.
Qed.
Lemma good_sym : forall names s i, first_at names s i -> good names (SSym s) (Pred VAR_REFERENCE i []).
Proof.
  intros names s i H. apply sym_position_first in H. exists (CPred VAR_REFERENCE 0 i 0 0 0 None). cbn [build]. rewrite H. conj_split; auto; [|discriminate|exact I].
  constructor. constructor.
Qed.
Ltac op_tac := lazymatch goal with
  | |- op_kind _ = _ => reflexivity
  | |- ~ _ => cbn; intuition discriminate
  | |- _ <> _ => discriminate
  | |- lenN (?x :: _) < _ => apply N.ltb_lt; reflexivity
  | |- lenN _ < _ => assumption
  | |- _ => idtac
  end.

Lemma says_i_good : forall names e x, says_i names e x -> exists p, good names e p /\ repr_i x p.
Proof.
  intros names e x H. induction H as [z Hz|s i Hi|s i Hi|a b x y _ (p & Gp & Rp) _ (q & Gq & Rq)|a b x y _ (p & Gp & Rp) _ (q & Gq & Rq)|a b x y _ (p & Gp & Rp) _ (q & Gq & Rq)].
  - destruct (Z.leb_spec 0 z) as [L|L].
    + exists (Pred UNSIGNED_VALUE (Z.to_N z) []). split.
      * exists (CPred UNSIGNED_VALUE 0 0 (Z.to_N z) 0 0 None). cbn [build]. rewrite (proj2 (Z.leb_le 0 z)) by exact L. rewrite (proj2 (Z.ltb_lt z (2 ^ 64))) by apply Hz.
        conj_split; auto; [|discriminate|exact I]. constructor. constructor.
      * replace z with (Z.of_N (Z.to_N z)) at 1 by lia. constructor. lia.
    + exists (Pred SIGNED_VALUE (Z.to_N (z mod 2 ^ 64)) []).
      assert (HM : (z mod 2 ^ 64 = z + 2 ^ 64)%Z). { symmetry. apply (Z.mod_unique z (2 ^ 64) (-1)); lia. }
      rewrite HM. split.
      * exists (CPred SIGNED_VALUE 0 0 0 (Z.to_N (z + 2 ^ 64)) 0 None). cbn [build]. rewrite (proj2 (Z.leb_gt 0 z)) by exact L. rewrite (proj2 (Z.leb_le (- 2 ^ 63) z)) by apply Hz.
        rewrite HM. conj_split; auto; [|discriminate|exact I]. constructor. constructor.
      * replace z with (s64 (Z.to_N (z + 2 ^ 64))) at 1; [constructor; lia|]. unfold s64.
        destruct (N.ltb_spec (Z.to_N (z + 2 ^ 64)) two63) as [X|X]; [exfalso; change two63 with (2 ^ 63) in X; lia|]. change two64 with (2 ^ 64). lia.
  - exists (Pred VAR_VALUE 1 [Pred VAR_REFERENCE i []]). split; [|constructor]. apply (good_op names OValue VAR_VALUE [SSym s]); op_tac. repeat constructor. apply good_sym. exact Hi.
  - exists (Pred VAR_SIZE 1 [Pred VAR_REFERENCE i []]). split; [|constructor]. apply (good_op names OSize VAR_SIZE [SSym s]); op_tac. repeat constructor. apply good_sym. exact Hi.
  - exists (Pred ADD 2 [p; q]). split; [|constructor; assumption]. apply (good_op names OAdd ADD [a; b]); op_tac. repeat constructor; assumption.
  - exists (Pred SUBTRACT 2 [p; q]). split; [|constructor; assumption]. apply (good_op names OSub SUBTRACT [a; b]); op_tac. repeat constructor; assumption.
  - exists (Pred MULTIPLY 2 [p; q]). split; [|constructor; assumption]. apply (good_op names OMul MULTIPLY [a; b]); op_tac. repeat constructor; assumption.
Qed.

Lemma says_good : forall names e x, says names e x -> exists p, good names e p /\ repr_b x p.
Proof.
  intros names e. induction e as [e IH] using sexp_ind2. intros x H.
  assert (HL : forall l xs, Forall (fun e => forall x, says names e x -> exists p, good names e p /\ repr_b x p) l -> Forall2 (says names) l xs ->
    exists ps, Forall2 (good names) l ps /\ Forall2 repr_b xs ps).
  { intros l xs HF HS. induction HS as [|a y l xs Ha _ IHl]; [exists []; split; constructor|]. inversion HF as [|? ? F1 F2]; subst.
    destruct (F1 _ Ha) as (p & Gp & Rp). destruct (IHl F2) as (ps & Gs & Rs). exists (p :: ps). split; constructor; assumption. }
  destruct H as [o c a b x y Hc Ha Hb|s t i j Hs Ht|a x Ha|l xs Hl HS|l xs Hl HS].
  - apply says_i_good in Ha. apply says_i_good in Hb. destruct Ha as (p & Gp & Rp), Hb as (q & Gq & Rq). exists (Pred (cmp_kind c) 2 [p; q]).
    split; [|constructor; assumption]. apply (good_op names o (cmp_kind c) [a; b]); try (destruct Hc; op_tac; fail). repeat constructor; assumption.
  - exists (Pred DISTINCT_VARS 2 [Pred VAR_REFERENCE i []; Pred VAR_REFERENCE j []]). split; [|constructor].
    apply (good_op names ODistinct DISTINCT_VARS [SSym s; SSym t]); op_tac. repeat constructor; apply good_sym; assumption.
  - inversion IH as [|? ? H1 _]; subst. destruct (H1 _ Ha) as (p & Gp & Rp). exists (Pred NOT 1 [p]). split; [|constructor; assumption].
    apply (good_op names ONot NOT [a]); op_tac. repeat constructor; assumption.
  - destruct (HL _ _ IH HS) as (ps & Gs & Rs). exists (Pred AND (lenN l) ps). split; [|constructor; assumption]. apply (good_op names OAnd AND l); op_tac; assumption.
  - destruct (HL _ _ IH HS) as (ps & Gs & Rs). exists (Pred OR (lenN l) ps). split; [|constructor; assumption]. apply (good_op names OOr OR l); op_tac; assumption.
Qed.

Lemma sym_position_In : forall l s i, sym_position s l = Some i -> In s l.
Proof. intros l s i H. apply sym_position_first in H. destruct H as [H _]. eapply nthN_In. exact H. Qed.
Lemma build_known : forall names e c, build names e = Ok c -> all_known names e.
Proof.
  intros names e. induction e as [e IH] using sexp_ind2. intros c H. destruct e as [s|z|b|o l]; try exact I.
  - cbn [build] in H. destruct (sym_position s names) eqn:E; [|discriminate]. apply sym_position_In in E. exact E.
  - rewrite build_list in H. apply bind_ok in H. destruct H as (k & HK & H). apply bind_ok in H. destruct H as (cs & HC & _).
    cbn [all_known]. split; [destruct o; discriminate|]. clear HK. revert cs HC. induction IH as [|e l H1 _ IHl]; intros cs HC; [exact I|].
    cbn [build_args] in HC. apply bind_ok in HC. destruct HC as (c1 & E1 & HC). fold (build_args names l) in HC. apply bind_ok in HC. destruct HC as (c2 & E2 & _). split; [eauto|]. eapply IHl. exact E2.
Qed.
