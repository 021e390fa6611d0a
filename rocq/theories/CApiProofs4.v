(** Proofs about histories of calls. *)
From Verif Require Import BaseProofs Types Stream Reader SkipList FormatSpec AMap ReaderMore ReaderProps Predicate PredSpec PredProofs Query QuerySpec QueryProofs CHeap CHeapProofs CApi CApiSpec CApiProofs CApiProofs2 CApiProofs3.

Lemma traces_push : forall grow d tr, traces (push_trace grow d tr) = traces d ++ [tr].
Proof.
  intros grow d tr. unfold push_trace, traces. destruct (_ <? _); cbn [db_traces]; rewrite map_app; cbn [map fst]; [reflexivity|].
  rewrite map_map. reflexivity.
Qed.

Lemma lenN_traces : forall d, lenN (traces d) = lenN (db_traces d).
Proof. intro d. unfold traces. apply lenN_map. Qed.

Lemma set_cache_traces : forall l i c, map fst (set_cache l i c) = map fst l.
Proof. induction l as [|[t c'] l IH]; intros i c; [reflexivity|]. cbn [set_cache]. destruct (i =? 0); cbn [map fst]; [reflexivity|]. rewrite IH. reflexivity. Qed.

Section Calls.
Variable St : Type.
Variable sat : St -> pred -> list var -> outcome (bool * St).
Variables (ok : N -> bool) (coins : nat -> bool) (pos : nat) (grow : N -> N) (pick : N -> N -> N) (hash : N * list (N * N) -> N).
Notation M := (skip_map coins pos).

Lemma add_trace_cases : forall garbage d file max b d', add_trace ok M garbage grow d file max = Ok (b, d') ->
  (b = true /\ exists bs t tr, file = Ok (bs, t) /\ accepted ok max bs tr /\ d' = push_trace grow d (settle garbage tr)) \/
  (b = false /\ d' = d /\ forall bs t, file = Ok (bs, t) -> ~ exists tr, accepted ok max bs tr).
Proof.
  intros garbage d file max b d' H. unfold add_trace in H. destruct file as [[bs t]|e|k| |]; cbn [bind] in H; try discriminate.
  - destruct (read_trace ok M max (open_stream bs t)) as [tr|e| | |] eqn:E; inversion H; subst.
    + left. split; [reflexivity|]. exists bs, t, tr. split; [reflexivity|]. split; [|reflexivity]. apply (read_iff ok coins pos t). exact E.
    + right. split; [reflexivity|]. split; [reflexivity|]. intros bs' t' X. inversion X; subst. intros (tr & HA).
      apply (read_iff ok coins pos t') in HA. congruence.
  - inversion H; subst. right. split; [reflexivity|]. split; [reflexivity|]. discriminate.
Qed.

Lemma import_cases : forall names ps tr, import_trace names ps = Ok tr -> words_ok ps -> imports names ps tr.
Proof.
  intros names ps tr H HW. destruct (import_ok names ps HW (import_aux _ _ _ H)) as (tr' & E & HI). congruence.
Qed.

Lemma query_trace_cases : forall d st i q rs d' st', query_trace St sat ok pick hash d st i q = Ok (rs, d', st') ->
  i < lenN (db_traces d) /\ traces d' = traces d /\ db_cap d' = db_cap d /\ db_base d' = db_base d.
Proof.
  intros d st i q rs d' st' H. unfold query_trace in H. destruct (nthN (db_traces d) i) as [[tr c]|] eqn:E; [|discriminate].
  split; [apply nthN_Some_lt in E; exact E|].
  apply bind_ok in H. destruct H as (hard & _ & H). apply bind_ok in H. destruct H as (soft & _ & H).
  apply bind_ok in H. destruct H as ([[rs0 c'] st0] & _ & H). inversion H; subst. unfold traces. cbn. rewrite set_cache_traces. auto.
Qed.

Lemma do_call_effect : forall d st c a d' st', do_call St sat ok M grow pick hash d st c = Ok (a, d', st') ->
  exists new, effect ok (traces d) c a new /\ traces d' = traces d ++ new.
Proof.
  intros d st c a d' st' H. destruct c as [file max garbage|names ps|i q|i|]; cbn [do_call] in H.
  - apply bind_ok in H. destruct H as ([b d1] & H & E). inversion E; subst. apply add_trace_cases in H.
    destruct H as [(-> & bs & t & tr & H1 & H2 & ->)|(-> & -> & H1)].
    + exists [settle garbage tr]. split; [left; split; [reflexivity|]; exists bs, t, tr; auto|apply traces_push].
    + exists []. split; [right; auto|rewrite app_nil_r; reflexivity].
  - apply bind_ok in H. destruct H as ([b d1] & H & E). inversion E; subst. unfold add_trace_points in H. apply bind_ok in H.
    destruct H as (tr & H & E'). inversion E'; subst. exists [tr]. split; [split; [reflexivity|]; exists tr; split; [reflexivity|apply import_cases; assumption]|apply traces_push].
  - apply bind_ok in H. destruct H as ([[rs d1] st1] & H & E). inversion E; subst. apply query_trace_cases in H. destruct H as (H1 & H2 & _).
    exists []. split; [|rewrite app_nil_r; exact H2]. split; [reflexivity|]. split; [rewrite lenN_traces; exact H1|eauto].
  - apply bind_ok in H. destruct H as (p & H & E). inversion E; subst. unfold get_trace in H. destruct (N.ltb_spec i (lenN (db_traces d'))) as [L|]; [|discriminate].
    exists []. split; [|rewrite app_nil_r; reflexivity]. split; [reflexivity|]. split; [rewrite lenN_traces; exact L|eauto].
  - inversion H; subst. exists []. split; [|rewrite app_nil_r; reflexivity]. split; [reflexivity|]. rewrite lenN_traces. reflexivity.
Qed.

Lemma do_calls_effects : forall cs d st l d' st', do_calls St sat ok M grow pick hash d st cs = Ok (l, d', st') ->
  effects ok (traces d) cs l (traces d').
Proof.
  induction cs as [|c cs IH]; intros d st l d' st' H; cbn [do_calls] in H; [inversion H; subst; constructor|].
  apply bind_ok in H. destruct H as ([[a d1] st1] & H1 & H). apply bind_ok in H. destruct H as ([[l2 d2] st2] & H2 & H). inversion H; subst.
  destruct (do_call_effect _ _ _ _ _ _ H1) as (new & HE & HT). apply IH in H2. rewrite HT in H2. econstructor; eassumption.
Qed.

(** ** Pointers to traces *)
Definition db_ok (d : db) : Prop := lenN (db_traces d) <= db_cap d.
Definition grows : Prop := forall c, c < grow c.

Lemma do_call_storage : grows -> forall d st c a d' st', db_ok d -> do_call St sat ok M grow pick hash d st c = Ok (a, d', st') ->
  db_ok d' /\ lenN (db_traces d) <= lenN (db_traces d') /\
  ((db_base d' = db_base d /\ db_cap d' = db_cap d) \/ (db_base d < db_base d' /\ db_cap d < lenN (db_traces d'))).
Proof.
  intros HG d st c a d' st' HO H.
  assert (HP : forall tr, db_ok (push_trace grow d tr) /\ lenN (db_traces d) <= lenN (db_traces (push_trace grow d tr)) /\
    ((db_base (push_trace grow d tr) = db_base d /\ db_cap (push_trace grow d tr) = db_cap d) \/
     (db_base d < db_base (push_trace grow d tr) /\ db_cap d < lenN (db_traces (push_trace grow d tr))))).
  { intro tr. unfold push_trace, db_ok in *. destruct (N.ltb_spec (lenN (db_traces d)) (db_cap d)); cbn [db_traces db_cap db_base].
    - rewrite lenN_app. change (lenN [(tr, [] : gp_cache)]) with 1. split; [lia|]. split; [lia|]. left. auto.
    - rewrite lenN_app, lenN_map. change (lenN [(tr, [] : gp_cache)]) with 1. specialize (HG (db_cap d)). split; [lia|]. split; [lia|]. right. lia. }
  destruct c as [file max garbage|names ps|i q|i|]; cbn [do_call] in H.
  - apply bind_ok in H. destruct H as ([b d1] & H & E). inversion E; subst. apply add_trace_cases in H.
    destruct H as [(-> & bs & t & tr & H1 & H2 & ->)|(-> & -> & H1)]; [apply HP|]. split; [assumption|]. split; [lia|]. left. auto.
  - apply bind_ok in H. destruct H as ([b d1] & H & E). inversion E; subst. unfold add_trace_points in H. apply bind_ok in H.
    destruct H as (tr & H & E'). inversion E'; subst. apply HP.
  - apply bind_ok in H. destruct H as ([[rs d1] st1] & H & E). inversion E; subst. apply query_trace_cases in H. destruct H as (H1 & H2 & H3 & H4).
    unfold db_ok in *. rewrite H3. rewrite <- (lenN_traces d'), H2, lenN_traces. split; [assumption|]. split; [lia|]. left. auto.
  - apply bind_ok in H. destruct H as (p & H & E). inversion E; subst. split; [assumption|]. split; [lia|]. left. auto.
  - inversion H; subst. split; [assumption|]. split; [lia|]. left. auto.
Qed.

Lemma do_calls_storage : grows -> forall cs d st l d' st', db_ok d -> do_calls St sat ok M grow pick hash d st cs = Ok (l, d', st') ->
  db_ok d' /\ lenN (db_traces d) <= lenN (db_traces d') /\
  ((db_base d' = db_base d /\ db_cap d' = db_cap d) \/ (db_base d < db_base d' /\ db_cap d < lenN (db_traces d'))).
Proof.
  intros HG. induction cs as [|c cs IH]; intros d st l d' st' HO H; cbn [do_calls] in H; [inversion H; subst; split; [assumption|split; [lia|auto]]|].
  apply bind_ok in H. destruct H as ([[a d1] st1] & H1 & H). apply bind_ok in H. destruct H as ([[l2 d2] st2] & H2 & H). inversion H; subst.
  destruct (do_call_storage HG _ _ _ _ _ _ HO H1) as (A1 & A2 & A3). destruct (IH _ _ _ _ _ A1 H2) as (B1 & B2 & B3).
  split; [assumption|]. split; [lia|]. destruct A3 as [[A3 A4]|[A3 A4]], B3 as [[B3 B4]|[B3 B4]].
  - left. split; congruence.
  - right. split; [congruence|]. rewrite <- A4. exact B4.
  - right. split; [congruence|]. lia.
  - right. split; lia.
Qed.

Lemma effects_prefix : forall ts cs l ts', effects ok ts cs l ts' -> exists more, ts' = ts ++ more /\ lenN more = additions cs l.
Proof.
  induction 1 as [ts|ts c a new cs l ts' HE _ (more & -> & IH)]; [exists []; rewrite app_nil_r; auto|].
  exists (new ++ more). split; [rewrite app_assoc; reflexivity|]. rewrite lenN_app, IH.
  destruct c as [file max garbage|names ps|i q|i|]; cbn [effect] in HE.
  - destruct HE as [(-> & bs & t & tr & _ & _ & ->)|(-> & -> & _)]; cbn [additions]; [change (lenN [settle garbage tr]) with 1; lia|change (lenN (@nil (trace N))) with 0; lia].
  - destruct HE as (-> & tr & -> & _). cbn [additions]. change (lenN [tr]) with 1. lia.
  - destruct HE as (-> & _ & rs & ->). cbn [additions]. change (lenN (@nil (trace N))) with 0. lia.
  - destruct HE as (-> & _ & rs & ->). cbn [additions]. change (lenN (@nil (trace N))) with 0. lia.
  - destruct HE as (-> & ->). cbn [additions]. change (lenN (@nil (trace N))) with 0. lia.
Qed.

Lemma pointer_valid : grows -> forall cs d st l d' st' i tr, db_ok d ->
  do_calls St sat ok M grow pick hash d st cs = Ok (l, d', st') ->
  nthN (traces d) i = Some tr ->
  exists p, get_trace d i = Ok p /\ deref d p = Ok tr /\
    (lenN (traces d') <= db_cap d -> deref d' p = Ok tr) /\ (db_cap d < lenN (traces d') -> deref d' p = UB UDangling).
Proof.
  intros HG cs d st l d' st' i tr HO H Hi. exists (db_base d, i).
  assert (L : i < lenN (db_traces d)) by (apply nthN_Some_lt in Hi; rewrite lenN_traces in Hi; exact Hi).
  assert (D : forall e, db_base e = db_base d -> nthN (traces e) i = Some tr -> deref e (db_base d, i) = Ok tr).
  { intros e Hb Ht. unfold deref. cbn [fst snd]. rewrite Hb, N.eqb_refl. unfold traces in Ht. rewrite nthN_map in Ht.
    destruct (nthN (db_traces e) i) as [x|]; [|discriminate]. inversion Ht; subst. reflexivity. }
  split; [unfold get_trace; destruct (N.ltb_spec i (lenN (db_traces d))); [reflexivity|lia]|].
  split; [apply D; auto|].
  destruct (do_calls_storage HG _ _ _ _ _ _ HO H) as (A1 & A2 & A3). apply do_calls_effects in H. apply effects_prefix in H. destruct H as (more & HM & _).
  rewrite lenN_traces. unfold db_ok in A1. split; intro X.
  - destruct A3 as [[A3 A4]|[A3 A4]]; [|lia]. apply D; [assumption|]. rewrite HM. rewrite nthN_app1; [assumption|]. rewrite lenN_traces. assumption.
  - destruct A3 as [[A3 A4]|[A3 A4]]; [lia|]. unfold deref. cbn [fst snd]. destruct (N.eqb_spec (db_base d) (db_base d')); [lia|reflexivity].
Qed.

(** ** Invariant of the stored traces *)
Definition trace_ok (e : trace N * gp_cache) : Prop :=
  coherent (tr_points (fst e)) (snd e) /\ Forall (fun p => Forall var_ok (p_vars p)) (tr_points (fst e)) /\
  type_indices_ok (tr_types (fst e)) (tr_points (fst e)).

Lemma settle_points : forall garbage tr p, In p (tr_points (settle garbage tr)) -> exists q, In q (tr_points tr) /\ p_vars p = p_vars q.
Proof. intros garbage tr p H. cbn in H. apply in_map_iff in H. destruct H as (q & <- & Hq). exists q. split; [assumption|reflexivity]. Qed.

Lemma settled_ok : forall garbage t max bs tr, read_trace ok M max (open_stream bs t) = Ok tr -> trace_ok (settle garbage tr, []).
Proof.
  intros garbage t max bs tr E. split; [constructor|]. split.
  - apply Forall_forall. intros p Hp. apply settle_points in Hp. destruct Hp as (q & Hq & ->). eapply read_var_ok; eassumption.
  - apply Forall_forall. intros p Hp. apply settle_points in Hp. destruct Hp as (q & Hq & ->). apply Forall_forall. intros v Hv.
    destruct (valid_lemma _ _ _ _ _ _ _ _ _ E Hq Hv) as (_ & d & X & _). apply nthN_Some_lt in X. exact X.
Qed.

Lemma imported_ok : forall names ps tr, words_ok ps -> imports names ps tr -> trace_ok (tr, []).
Proof.
  intros names ps tr HW HI. split; [constructor|]. split; [eapply imported_vars_ok; eassumption|].
  destruct HI as (_ & _ & HI). cbn [fst]. unfold type_indices_ok. clear HW. revert HI. generalize (tr_types tr) as types. generalize 0. generalize (tr_points tr). intros qs i types HI.
  induction HI as [|i p q ps qs _ _ _ _ HV _ IH]; constructor; [|assumption]. clear - HV.
  induction HV as [|c v cs vs (_ & _ & _ & _ & _ & t & X & _) _ IH]; constructor; [apply nthN_Some_lt in X; exact X|assumption].
Qed.

Lemma push_ok : forall d tr, Forall trace_ok (db_traces d) -> trace_ok (tr, []) -> Forall trace_ok (db_traces (push_trace grow d tr)).
Proof.
  intros d tr H1 H2. unfold push_trace. destruct (_ <? _); cbn [db_traces]; apply Forall_app; (split; [|constructor; [assumption|constructor]]); [assumption|].
  apply Forall_map. eapply Forall_impl; [|exact H1]. intros e (_ & A & B). split; [constructor|]. split; assumption.
Qed.

Lemma query_coherent : forall points c st fvs hard soft seed mask stmt rs c' st', coherent points c ->
  query St sat ok pick points c st fvs hard soft seed mask stmt = Ok (rs, c', st') -> coherent points c'.
Proof.
  intros points c st fvs hard soft seed mask stmt rs c' st' HC H. unfold query in H.
  destruct (get_points_ok points c mask stmt HC) as [_ HC']. destruct (get_points points c mask stmt) as [l c0]. cbn [snd] in HC'.
  destruct (seed =? 0); [apply bind_ok in H; destruct H as ([rs0 st0] & _ & H); inversion H; subst; assumption|].
  destruct l; [inversion H; subst; assumption|]. destruct (nthN _ _); [|discriminate].
  apply bind_ok in H. destruct H as ([rs0 st0] & _ & H); inversion H; subst; assumption.
Qed.

Lemma set_cache_ok : forall l i tr c c', Forall trace_ok l -> nthN l i = Some (tr, c) -> coherent (tr_points tr) c' -> Forall trace_ok (set_cache l i c').
Proof.
  induction l as [|[t c0] l IH]; intros i tr c c' HF Hn HC; [destruct i; discriminate|]. inversion HF as [|? ? H1 H2]; subst. cbn [set_cache nthN] in *.
  destruct (N.eqb_spec i 0); [|constructor; [assumption|eapply IH; eassumption]].
  inversion Hn; subst. constructor; [|assumption]. destruct H1 as (_ & A). split; assumption.
Qed.

Lemma do_call_ok : forall d st c a d' st', Forall trace_ok (db_traces d) -> call_ok c ->
  do_call St sat ok M grow pick hash d st c = Ok (a, d', st') -> Forall trace_ok (db_traces d').
Proof.
  intros d st c a d' st' HF HC H. destruct c as [file max garbage|names ps|i q|i|]; cbn [do_call] in H.
  - apply bind_ok in H. destruct H as ([b d1] & H & E). inversion E; subst. apply add_trace_cases in H.
    destruct H as [(-> & bs & t & tr & H1 & H2 & ->)|(-> & -> & H1)]; [|assumption]. apply push_ok; [assumption|].
    apply (settled_ok garbage t max bs). apply (read_iff ok coins pos t). assumption.
  - apply bind_ok in H. destruct H as ([b d1] & H & E). inversion E; subst. unfold add_trace_points in H. apply bind_ok in H.
    destruct H as (tr & H & E'). inversion E'; subst. apply push_ok; [assumption|]. cbn [call_ok] in HC. eapply imported_ok; [exact HC|]. apply import_cases; eassumption.
  - apply bind_ok in H. destruct H as ([[rs d1] st1] & H & E). inversion E; subst. unfold query_trace in H.
    destruct (nthN (db_traces d) i) as [[tr c]|] eqn:En; [|discriminate].
    apply bind_ok in H. destruct H as (hard & _ & H). apply bind_ok in H. destruct H as (soft & _ & H).
    apply bind_ok in H. destruct H as ([[rs0 c'] st0] & HQ & H). inversion H; subst. cbn [db_traces].
    eapply set_cache_ok; [eassumption|exact En|]. eapply query_coherent; [|exact HQ].
    rewrite Forall_forall in HF. apply nthN_In in En. apply HF in En. apply En.
  - apply bind_ok in H. destruct H as (p & H & E). inversion E; subst. assumption.
  - inversion H; subst. assumption.
Qed.

Lemma do_calls_ok : forall cs d st l d' st', Forall trace_ok (db_traces d) -> Forall call_ok cs ->
  do_calls St sat ok M grow pick hash d st cs = Ok (l, d', st') -> Forall trace_ok (db_traces d').
Proof.
  induction cs as [|c cs IH]; intros d st l d' st' HF HC H; cbn [do_calls] in H; [inversion H; subst; assumption|].
  inversion HC as [|? ? HC1 HC2]; subst. apply bind_ok in H. destruct H as ([[a d1] st1] & H1 & H). apply bind_ok in H. destruct H as ([[l2 d2] st2] & H2 & H). inversion H; subst.
  eapply IH; [|assumption|exact H2]. eapply do_call_ok; eassumption.
Qed.

Lemma query_trace_answer : forall d st i q tr, Forall trace_ok (db_traces d) -> nthN (traces d) i = Some tr ->
  results_of (query_trace St sat ok pick hash d st i q) = results_of (query_trace St sat ok pick hash (mkDB [(tr, [])] 1 0) st 0 q).
Proof.
  intros d st i q tr HF Hn. unfold traces in Hn. rewrite nthN_map in Hn. unfold results_of, query_trace.
  destruct (nthN (db_traces d) i) as [[tr' c]|] eqn:En; [|discriminate]. cbn in Hn. inversion Hn; subst tr'. clear Hn.
  cbn [db_traces]. change (nthN [(tr, [] : gp_cache)] 0) with (Some (tr, [] : gp_cache)). cbv iota beta.
  destruct (create_predicate_obj (cq_hard q)) as [hard| | | |]; cbn [bind]; try reflexivity.
  destruct (mapO create_predicate_obj (cq_soft q)) as [soft| | | |]; cbn [bind]; try reflexivity.
  assert (HC : coherent (tr_points tr) c). { rewrite Forall_forall in HF. apply nthN_In in En. apply HF in En. apply En. }
  pose proof (query_cache St sat ok pick (tr_points tr) c st (cq_fvs q) hard soft (cq_seed q) (cq_mask q) (cq_stmt q) HC) as HQ.
  destruct (query St sat ok pick (tr_points tr) c st _ _ _ _ _ _) as [[[rs c'] st1]| | | |], (query St sat ok pick (tr_points tr) [] st _ _ _ _ _ _) as [[[rs2 c2] st2]| | | |];
    cbn [bind]; try (destruct HQ as (-> & -> & _); reflexivity); try (inversion HQ; subst; reflexivity); try discriminate.
Qed.
End Calls.

(** ** Counts of 2^32 and more; no memory *)
Lemma points_to_array_modulo : forall al types h ps, allocates al -> type_indices_ok types ps -> room al ps -> ps <> [] ->
  exists a h', points_to_array al types h ps = Ok (a, h') /\
    forall i p, nthN ps i = Some p -> exists c, load h' a i = Ok (CellPoint c) /\ sees_modulo h' types p c.
Proof.
  intros al types h ps Hal HT (HR1 & HR2 & HR3) Hne0.
  assert (Hne : 0 < lenN ps) by (destruct ps; [contradiction|rewrite lenN_cons; lia]).
  unfold points_to_array. change two64 with (2 ^ 64). unfold sizeof_var, sizeof_point. rewrite (N.mul_comm (lenN ps)), N.mod_small by assumption.
  destruct (N.ltb_spec 0 (40 * lenN ps)); [|lia].
  destruct (malloc_ok _ al h (40 * lenN ps) 40 Hal HR2) as (a & h1 & E1 & Na & Fa & H1). rewrite E1.
  replace (N.to_nat (40 * lenN ps / 40)) with (length ps) in H1.
  2:{ unfold lenN. rewrite N.mul_comm, N.div_mul by discriminate. lia. }
  destruct (store_points_ok al types a Hal Na ps h1 [] 0 eq_refl) as (h2 & cs & E2 & H2a & H2b & _); auto.
  { rewrite H1, N.eqb_refl. reflexivity. }
  rewrite E2. cbn [bind]. cbn [app] in H2a. exists a, h2. split; [reflexivity|]. intros i p Hi.
  assert (HX : exists c, nthN cs i = Some c /\ built h2 types p c).
  { clear - H2b Hi. revert i Hi. induction H2b as [|p0 c0 ps cs HB _ IH]; intros i Hi; [destruct i; discriminate|]. cbn [nthN] in *.
    destruct (i =? 0); [inversion Hi; subst; eauto|auto]. }
  destruct HX as (c & Hc & (B1 & B2 & B3 & B4 & B5 & (vs & B6 & B7) & B8)). exists c. split; [eapply load_ok; [assumption|exact H2a|]; rewrite map_map, nthN_map, Hc; reflexivity|].
  unfold sees_modulo. conj_split; auto.
  - intros j v Hj. eapply load_ok; [assumption|exact B8|]. rewrite map_map, nthN_map, Hj. reflexivity.
  - intros j v Hj. assert (HY : exists x, nthN vs j = Some x /\ exported_var types v x).
    { clear - B6 Hj. revert j Hj. induction B6 as [|p0 c0 ps cs HB _ IH]; intros i Hi; [destruct i; discriminate|]. cbn [nthN] in *.
      destruct (i =? 0); [inversion Hi; subst; eauto|auto]. }
    destruct HY as (x & Hx & HE). exists x. split; [|exact HE]. eapply load_ok; [assumption|exact B7|]. rewrite map_map, nthN_map, Hx. reflexivity.
Qed.

Lemma points_to_array_null : forall al types h ps, 40 * lenN ps < 2 ^ 64 -> ps <> [] -> al_ok al (40 * lenN ps) = false ->
  points_to_array al types h ps = UB UNull.
Proof.
  intros al types h ps HR Hne HF. unfold points_to_array. change two64 with (2 ^ 64). unfold sizeof_var, sizeof_point.
  rewrite (N.mul_comm (lenN ps)), N.mod_small by assumption.
  destruct ps as [|p ps]; [contradiction|]. rewrite lenN_cons in *. destruct (N.ltb_spec 0 (40 * N.succ (lenN ps))); [|lia].
  unfold malloc. rewrite HF. cbn [store_points]. destruct (calloc al h _ _) as [va h1]. destruct (calloc al h1 _ _) as [xa h2]. reflexivity.
Qed.

(** ** Names and types *)
Lemma c_string_nul_free : forall n, ~ In x00 n -> c_string n = n.
Proof.
  induction n as [|b n IH]; intro H; [reflexivity|]. cbn [c_string]. destruct (N.eqb_spec (N_of_byte b) 0) as [E|E].
  - exfalso. apply H. left. apply N_of_byte_inj. rewrite E. reflexivity.
  - rewrite IH; [reflexivity|]. intro X. apply H. right. exact X.
Qed.

Lemma accepted_names : forall ok max bs tr, accepted ok max bs tr -> Forall nul_free (tr_names tr) /\ lenN (tr_types tr) < 2 ^ 32.
Proof.
  intros ok max bs tr H. destruct H as [F es HF _ _ _ _ HD|F rest HF _ _ _ HD|names k HN _ _ ->|names types t part missing HN HT _ _ _ ->].
  - destruct HD as (-> & -> & _). destruct HF as ((A & _) & (_ & B & _) & _). auto.
  - destruct HD as (-> & -> & _). destruct HF as ((A & _) & (_ & B & _) & _). auto.
  - cbn. split; [apply HN|vm_compute; reflexivity].
  - cbn [tr_names tr_types]. split; [apply HN|]. destruct HT as (_ & HT & _). rewrite lenN_app in *. exact HT.
Qed.

(** ** For computing with the database *)
Lemma do_call_transfer : forall St sat ok coins pos grow pick hash d st c,
  do_call St sat ok (skip_map coins pos) grow pick hash d st c = do_call St sat ok abs_map grow pick hash d st c.
Proof.
  intros St sat ok coins pos grow pick hash d st c. destruct c as [file max garbage| | | |]; try reflexivity. cbn [do_call]. unfold add_trace.
  destruct file as [[bs t]| | | |]; cbn [bind]; [rewrite read_trace_transfer|..]; reflexivity.
Qed.
Lemma do_calls_transfer : forall St sat ok coins pos grow pick hash cs d st,
  do_calls St sat ok (skip_map coins pos) grow pick hash d st cs = do_calls St sat ok abs_map grow pick hash d st cs.
Proof.
  intros St sat ok coins pos grow pick hash. induction cs as [|c cs IH]; intros d st; [reflexivity|]. cbn [do_calls]. rewrite do_call_transfer.
  destruct (do_call St sat ok abs_map grow pick hash d st c) as [[[a d1] st1]| | | |]; cbn [bind]; [rewrite IH|..]; reflexivity.
Qed.
