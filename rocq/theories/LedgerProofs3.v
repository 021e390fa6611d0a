(** The functions of the C API and histories of calls. *)
From Verif Require Import BaseProofs Types Stream SkipList AMap MemMapSpec MemMapProofs MemMapMore Reader FormatSpec FormatUB.
From Verif Require Import ReaderProofs ReaderProofs2 ReaderProofs3 ReaderMore ReaderProps Ledger LedgerSpec LedgerProofs LedgerProofs2.

Lemma filter_other a (A : list (N * block)) : Forall (fun e => fst e <> a) A -> filter (fun e => negb (fst e =? a)) A = A.
Proof. induction 1 as [|x A H _ IH]; [reflexivity|]. cbn [filter]. destruct (N.eqb_spec (fst x) a); [congruence|]. cbn [negb]. rewrite IH. reflexivity. Qed.
Lemma release_at nx A a x B : Forall (fun e => fst e <> a) A -> Forall (fun e => fst e <> a) B ->
  release a (mkL nx (A ++ (a, x) :: B)) = (Ok tt, mkL nx (A ++ B)).
Proof.
  intros HA HB. unfold release. cbn [l_live l_next]. rewrite existsb_app. cbn [existsb fst]. rewrite N.eqb_refl. cbn [orb]. rewrite orb_true_r.
  rewrite filter_app. cbn [filter fst]. rewrite N.eqb_refl. cbn [negb]. rewrite !filter_other by assumption. reflexivity.
Qed.

Section C.
Variables (ok : alloc) (coins : nat -> bool) (pos : nat).
Notation SM := (skip_map coins pos).

Ltac ids F E := repeat (apply Forall_app; split) || (repeat constructor);
  try (eapply Forall_impl; [|first [exact F|exact E]]; cbn; intros; lia).

Lemma read_c max src l : fresh l -> defined ok SM (max, src) ->
  exists res l' b, read_trace_c ok SM max src l = (Ok res, l') /\ leak ok SM max src b /\
    match res with
    | None => grow l l' b
    | Some (tr, c) => live l' = live l ++ BTrace :: b /\ (exists l'', free_trace_c tr l' = (Ok tt, l'') /\ grow l l'' b) /\
        exists bs t, src = Some (bs, t) /\ read_trace ok SM max (open_stream bs t) = Ok c
    end.
Proof.
  intros F D. destruct src as [[bs t]|].
  2:{ eexists None, l, []. split; [reflexivity|]. split; [constructor|]. apply grow_refl. }
  destruct l as [n L]. unfold fresh in F. cbn [l_next l_live] in F.
  unfold read_trace_c. unfold mbind at 1. cbn [obtain l_next l_live]. unfold mbind at 1. cbn [obtain l_next l_live].
  unfold catch. unfold mbind at 1. cbn [obtain l_next l_live]. unfold mbind at 1.
  set (l3 := mkL _ _).
  assert (F3 : fresh l3).
  { unfold fresh, l3. cbn [l_live l_next]. repeat (apply Forall_app; split);
      [eapply Forall_impl; [|exact F]; cbn; intros; lia| | |]; repeat constructor; cbn; lia. }
  destruct (trace_ledger ok coins pos max bs t l3 F3) as (o & l4 & b & -> & -> & (ext & EL & <- & EN & EI) & LK).
  cbn [defined] in D. specialize (LK D).
  destruct l4 as [n4 L4]. unfold l3 in EL, EN, EI. cbn [l_live l_next] in EL, EN, EI. subst L4.
  destruct (read_trace ok SM max (open_stream bs t)) as [c|e|k| |] eqn:ER.
  - (* success *)
    unfold mbind. rewrite <- !app_assoc. cbn [app].
    rewrite release_at; [|eapply Forall_impl; [|exact F]; cbn; intros; lia|].
    2:{ constructor; [cbn; lia|]. constructor; [cbn; lia|]. eapply Forall_impl; [|exact EI]; cbn; intros; lia. }
    rewrite release_at; [|eapply Forall_impl; [|exact F]; cbn; intros; lia|].
    2:{ constructor; [cbn; lia|]. eapply Forall_impl; [|exact EI]; cbn; intros; lia. }
    cbn [mret]. eexists (Some _), _, (map snd ext). split; [reflexivity|]. split; [exact LK|]. cbn iota. split; [|split].
    + unfold live. cbn [l_live]. rewrite map_app. reflexivity.
    + unfold free_trace_c. rewrite release_at; [|eapply Forall_impl; [|exact F]; cbn; intros; lia|eapply Forall_impl; [|exact EI]; cbn; intros; lia].
      eexists. split; [reflexivity|]. exists ext. cbn [l_live l_next]. split; [reflexivity|]. split; [reflexivity|]. split; [lia|].
      eapply Forall_impl; [|exact EI]; cbn; intros; lia.
    + exists bs, t. split; [reflexivity|exact ER].
  - (* exception *)
    unfold mbind. rewrite <- !app_assoc. cbn [app].
    replace (L ++ (n, BStreamBuf) :: (n + 1, BStream) :: (n + 1 + 1, BTrace) :: ext) with
      ((L ++ [(n, BStreamBuf); (n + 1, BStream)]) ++ (n + 1 + 1, BTrace) :: ext) by (rewrite <- app_assoc; reflexivity).
    rewrite release_at; [| |eapply Forall_impl; [|exact EI]; cbn; intros; lia].
    2:{ apply Forall_app. split; [eapply Forall_impl; [|exact F]; cbn; intros; lia|]. constructor; [cbn; lia|]. constructor; [cbn; lia|constructor]. }
    cbn [mret]. rewrite <- app_assoc. cbn [app].
    rewrite release_at; [|eapply Forall_impl; [|exact F]; cbn; intros; lia|].
    2:{ constructor; [cbn; lia|]. eapply Forall_impl; [|exact EI]; cbn; intros; lia. }
    rewrite release_at; [|eapply Forall_impl; [|exact F]; cbn; intros; lia|eapply Forall_impl; [|exact EI]; cbn; intros; lia].
    eexists None, _, (map snd ext). split; [reflexivity|]. split; [exact LK|]. cbn iota.
    exists ext. cbn [l_live l_next]. split; [reflexivity|]. split; [reflexivity|]. split; [lia|].
    eapply Forall_impl; [|exact EI]; cbn; intros; lia.
  - destruct (D k eq_refl).
  - destruct (read_total ok coins pos t max bs) as [X _]. destruct (X ER).
  - destruct (read_total ok coins pos t max bs) as [_ X]. destruct (X ER).
Qed.

Lemma add_c max src l : fresh l -> defined ok SM (max, src) ->
  exists res l' b, add_trace_c ok SM max src l = (Ok res, l') /\ leak ok SM max src b /\ grow l l' b /\
    match src with
    | None => res = None
    | Some (bs, t) => match read_trace ok SM max (open_stream bs t) with Ok c => res = Some c | _ => res = None end
    end.
Proof.
  intros F D. destruct src as [[bs t]|].
  2:{ eexists None, l, []. split; [reflexivity|]. split; [constructor|]. split; [apply grow_refl|reflexivity]. }
  destruct l as [n L]. unfold fresh in F. cbn [l_next l_live] in F.
  unfold add_trace_c. unfold mbind at 1. cbn [obtain l_next l_live]. unfold mbind at 1. cbn [obtain l_next l_live].
  unfold catch. unfold mbind at 1.
  set (l3 := mkL _ _).
  assert (F3 : fresh l3).
  { unfold fresh, l3. cbn [l_live l_next]. repeat (apply Forall_app; split);
      [eapply Forall_impl; [|exact F]; cbn; intros; lia| |]; repeat constructor; cbn; lia. }
  destruct (trace_ledger ok coins pos max bs t l3 F3) as (o & l4 & b & -> & -> & (ext & EL & <- & EN & EI) & LK).
  cbn [defined] in D. specialize (LK D).
  destruct l4 as [n4 L4]. unfold l3 in EL, EN, EI. cbn [l_live l_next] in EL, EN, EI. subst L4.
  assert (G : grow (mkL n L) (mkL n4 (L ++ ext)) (map snd ext)).
  { exists ext. cbn [l_live l_next]. split; [reflexivity|]. split; [reflexivity|]. split; [lia|].
    eapply Forall_impl; [|exact EI]; cbn; intros; lia. }
  assert (R : forall A (x : outcome A), (_ <~ release n ;; _ <~ release (n + 1) ;; mret x) (mkL n4 (((L ++ [(n, BStreamBuf)]) ++ [(n + 1, BStream)]) ++ ext)) = (x, mkL n4 (L ++ ext))).
  { intros A x. unfold mbind. rewrite <- !app_assoc. cbn [app].
    rewrite release_at; [|eapply Forall_impl; [|exact F]; cbn; intros; lia|].
    2:{ constructor; [cbn; lia|]. eapply Forall_impl; [|exact EI]; cbn; intros; lia. }
    rewrite release_at; [|eapply Forall_impl; [|exact F]; cbn; intros; lia|eapply Forall_impl; [|exact EI]; cbn; intros; lia].
    reflexivity. }
  destruct (read_trace ok SM max (open_stream bs t)) as [c|e|k| |] eqn:ER.
  - rewrite R. eexists (Some c), _, (map snd ext). split; [reflexivity|]. split; [exact LK|]. split; [exact G|reflexivity].
  - rewrite R. eexists None, _, (map snd ext). split; [reflexivity|]. split; [exact LK|]. split; [exact G|reflexivity].
  - destruct (D k eq_refl).
  - destruct (read_total ok coins pos t max bs) as [X _]. destruct (X ER).
  - destruct (read_total ok coins pos t max bs) as [_ X]. destruct (X ER).
Qed.

Lemma session_lemma files : Forall (defined ok SM) files -> forall l, fresh l ->
  exists l' bs, read_and_free ok SM files l = (Ok tt, l') /\
    Forall2 (fun f b => leak ok SM (fst f) (snd f) b) files bs /\ grow l l' (concat bs).
Proof.
  induction 1 as [|[max src] files D _ IH]; intros l F; cbn [read_and_free].
  - exists l, []. split; [reflexivity|]. split; [constructor|apply grow_refl].
  - unfold mbind at 1. destruct (read_c max src l F D) as (res & l1 & b & -> & LK & R). unfold mbind.
    destruct res as [[tr c]|].
    + destruct R as (_ & (l2 & -> & G) & _). destruct (IH l2 (grow_fresh _ _ _ F G)) as (l3 & bs & -> & LKs & Gs).
      exists l3, (b :: bs). split; [reflexivity|]. split; [constructor; assumption|]. exact (grow_trans _ _ _ _ _ G Gs).
    + cbn [mret]. destruct (IH l1 (grow_fresh _ _ _ F R)) as (l3 & bs & -> & LKs & Gs).
      exists l3, (b :: bs). split; [reflexivity|]. split; [constructor; assumption|]. exact (grow_trans _ _ _ _ _ R Gs).
Qed.
Lemma add_all_lemma files : Forall (defined ok SM) files -> forall l, fresh l ->
  exists l' bs, add_all ok SM files l = (Ok (flat_map (readable ok SM) files), l') /\
    Forall2 (fun f b => leak ok SM (fst f) (snd f) b) files bs /\ grow l l' (concat bs).
Proof.
  induction 1 as [|[max src] files D _ IH]; intros l F; cbn [add_all].
  - exists l, []. split; [reflexivity|]. split; [constructor|apply grow_refl].
  - unfold mbind at 1. destruct (add_c max src l F D) as (res & l1 & b & -> & LK & G & RES). unfold mbind.
    destruct (IH l1 (grow_fresh _ _ _ F G)) as (l3 & bs & -> & LKs & Gs).
    exists l3, (b :: bs). split;
      [unfold mret; cbn [flat_map readable]; destruct src as [[x t]|]; [destruct (read_trace ok SM max (open_stream x t))|]; subst res; reflexivity|]. split; [constructor; assumption|]. exact (grow_trans _ _ _ _ _ G Gs).
Qed.
Lemma database_lemma files : Forall (defined ok SM) files ->
  exists l' bs, database_life ok SM files no_memory = (Ok (flat_map (readable ok SM) files), l') /\
    Forall2 (fun f b => leak ok SM (fst f) (snd f) b) files bs /\ live l' = concat bs.
Proof.
  intros D. unfold database_life, create_db_c. unfold mbind at 1. change (obtain BDb no_memory) with (Ok 0, mkL 1 [(0, BDb)]). cbv iota beta.
  assert (F : fresh (mkL 1 [(0, BDb)])) by (repeat constructor).
  unfold mbind at 1. destruct (add_all_lemma files D _ F) as (l' & bs & -> & LK & (ext & EL & EB & EN & EI)).
  unfold mbind, free_db_c. destruct l' as [n' L']. cbn [l_live l_next] in EL, EN, EI. subst L'. cbn [app].
  change ((0, BDb) :: ext) with ([] ++ (0, BDb) :: ext).
  rewrite release_at; [|constructor|eapply Forall_impl; [|exact EI]; cbn; intros; lia].
  eexists _, bs. split; [reflexivity|]. split; [exact LK|]. unfold live. cbn [l_live app]. exact EB.
Qed.

(** ** No leak *)
Lemma no_blob_entries types es : Forall (fun t => t_fmt t <> BLOB) types -> flat_map (entry_blobs types) es = [].
Proof.
  intros F. induction es as [|e es IH]; [reflexivity|]. cbn [flat_map]. rewrite IH, app_nil_r. destruct e; try reflexivity.
  cbn [entry_blobs]. destruct (nthN types ty) as [d|] eqn:E; [|reflexivity]. apply nthN_In in E. rewrite Forall_forall in F.
  specialize (F _ E). destruct (t_fmt d); congruence.
Qed.
Lemma no_blob_started names types r : Forall (fun t => t_fmt t <> BLOB) types -> started_blob ok names types r = [].
Proof.
  intros F. destruct r as [|tag nm]; [reflexivity|]. unfold started_blob. destruct (_ || _); [reflexivity|].
  destruct (nthN types _) as [d|] eqn:E; [|reflexivity]. apply nthN_In in E. rewrite Forall_forall in F. specialize (F _ E).
  destruct (_ <=? _); [reflexivity|]. destruct (t_fmt d); congruence.
Qed.
Lemma no_leak max src b : no_blob_file ok (max, src) -> leak ok SM max src b -> b = [].
Proof.
  intros NB L. unfold no_blob_file in NB. cbn [snd] in NB. destruct L as [|t F es W|t F rest W| | |t bs e b ER H]; try reflexivity.
  - destruct NB as [_ NB]. apply no_blob_entries. unfold enc_file in NB. apply (NB (f_names F) (f_types F) (enc_points (f_types F) (f_points F) ++ enc_entries (f_types F) es)); [apply W|apply W|].
    rewrite <- app_assoc. reflexivity.
  - destruct NB as [_ NB]. apply no_blob_entries. unfold enc_file in NB. apply (NB (f_names F) (f_types F) (enc_points (f_types F) (f_points F) ++ rest)); [apply W|apply W|].
    rewrite <- app_assoc. reflexivity.
  - destruct H as [[H _]|[(S & _)|(names & types & pts & es & r & WN & WT & _ & _ & E & _ & _ & _ & ->)]]; [exact H|destruct NB; lia|].
    destruct NB as [_ NB]. specialize (NB _ _ _ WN WT E). rewrite no_blob_entries, no_blob_started by exact NB. reflexivity.
Qed.
Lemma no_leaks files bs : Forall (no_blob_file ok) files -> Forall2 (fun f b => leak ok SM (fst f) (snd f) b) files bs -> concat bs = [].
Proof.
  intros NB L. induction L as [|[max src] b files bs L _ IH]; [reflexivity|]. inversion NB; subst. cbn [concat].
  rewrite (no_leak _ _ _ H1 L), IH by assumption. reflexivity.
Qed.
End C.

(** ** What a well-formed file leaves *)
Section U.
Variables (ok : alloc) (t : tail_kind).
Definition blobs_of (max : N) (bs : list byte) : outcome (list block) :=
  '(names, s1) <- read_names ok (open_stream bs t) ;;
  '(types, s2) <- read_types ok s1 ;;
  '(ps, vs, _) <- read_points_d (S (S (length (s_rest s2)))) ok abs_map max 0 names types (mo_new abs_map) s2 ;;
  Ok (pblobs ps ++ vblobs vs).

Lemma blobs_header max names types r : names_wf ok names -> types_wf ok types ->
  blobs_of max (enc_header names types ++ r) =
  ('(ps, vs, _) <- read_points_d (S (S (length r))) ok abs_map max 0 names types (mo_new abs_map) (open_stream r t) ;; Ok (pblobs ps ++ vblobs vs)).
Proof.
  intros HN HT. unfold blobs_of, enc_header. rewrite <- app_assoc, read_names_enc by exact HN. cbn [bind].
  rewrite read_types_enc by exact HT. reflexivity.
Qed.
Lemma blobs_all max F es : file_wf ok F -> Forall (entry_wf ok (f_names F) (f_types F)) es ->
  sentinel_safe (records (concat (f_points F) ++ es)) -> max = 0 \/ lenN (f_points F) < max ->
  blobs_of max (enc_file F ++ enc_entries (f_types F) es) = Ok (flat_map (entry_blobs (f_types F)) (concat (f_points F) ++ es)).
Proof.
  intros (HN & HT & HW & HS) He HS' Hm. unfold enc_file. rewrite <- app_assoc, blobs_header by assumption.
  destruct (psteps_total ok (f_names F) (f_types F) (f_points F) 0 [] [] hist_ok_nil HW HS) as (m & ps & HP).
  pose proof (psteps_hist ok _ _ _ 0 [] [] m ps hist_ok_nil HW HP) as Hh. cbn [app] in Hh.
  destruct (points_d_prefix ok (f_names F) (f_types F) t (f_points F) max [] m ps (enc_entries (f_types F) es) 0 HW HP ltac:(lia)) as (f & Hf & Hd).
  rewrite records_app in HS'.
  destruct (points_d_tail ok (f_names F) (f_types F) t f es max (0 + lenN (f_points F)) _ m (proj1 Hh) He HS' ltac:(lia) ltac:(lia)) as (vs & Hv & Hb).
  cbn [mo_state mo_new abs_map] in *. rewrite Hd, Hv. cbn [bind]. rewrite app_nil_r, (psteps_blobs _ _ _ _ _ _ HP), Hb, <- flat_map_app. reflexivity.
Qed.
Lemma blobs_max max F r : file_wf ok F -> max <> 0 -> lenN (f_points F) = max ->
  blobs_of max (enc_file F ++ r) = Ok (flat_map (entry_blobs (f_types F)) (concat (f_points F))).
Proof.
  intros (HN & HT & HW & HS) Hm Hl. unfold enc_file. rewrite <- app_assoc, blobs_header by assumption.
  destruct (psteps_total ok (f_names F) (f_types F) (f_points F) 0 [] [] hist_ok_nil HW HS) as (m & ps & HP).
  destruct (points_d_prefix ok (f_names F) (f_types F) t (f_points F) max [] m ps r 0 HW HP ltac:(lia)) as (f & Hf & Hd).
  cbn [mo_state mo_new abs_map] in *. rewrite Hd. destruct f; [lia|]. cbn [read_points_d]. rewrite N.add_0_l, Hl, N.ltb_irrefl, good_open.
  destruct (N.eqb_spec max 0); [congruence|]. cbn [orb andb bind vblobs flat_map]. rewrite !app_nil_r, (psteps_blobs _ _ _ _ _ _ HP). reflexivity.
Qed.
Lemma names_same names names' r r' : names_wf ok names -> names_wf ok names' -> enc_names names ++ r = enc_names names' ++ r' -> names = names' /\ r = r'.
Proof.
  intros H H' E. pose proof (read_names_enc ok names r t H) as A. rewrite E, (read_names_enc ok names' r' t H') in A.
  injection A as -> A. auto.
Qed.
Lemma leak_wf M max F r b : file_wf ok F -> max = 0 /\ r = [] \/ max <> 0 /\ r = [] /\ lenN (f_points F) < max \/ max <> 0 /\ lenN (f_points F) = max ->
  (forall e, read_trace ok M max (open_stream (enc_file F ++ r) t) <> Throw e) ->
  leak ok M max (Some (enc_file F ++ r, t)) b -> b = flat_map (entry_blobs (f_types F)) (concat (f_points F)).
Proof.
  intros HF Hm NT L.
  assert (B : blobs_of max (enc_file F ++ r) = Ok (flat_map (entry_blobs (f_types F)) (concat (f_points F)))).
  { destruct Hm as [[M0 ->]|[(M0 & -> & ML)|[M0 ML]]]; [| |apply blobs_max; assumption];
      (pose proof (blobs_all max F [] HF (Forall_nil _)) as X; rewrite !app_nil_r in X; cbn [enc_entries map concat] in X;
       rewrite app_nil_r; rewrite ?app_nil_r in X; apply X; [apply HF|first [left; exact M0|right; exact ML]]). }
  remember (Some (enc_file F ++ r, t)) as src eqn:ES. destruct HF as (HN & HT & HW & HS).
  assert (HDR : forall x, enc_file F ++ x = enc_names (f_names F) ++ (enc_types (f_types F) ++ enc_points (f_types F) (f_points F) ++ x)).
  { intros x. unfold enc_file, enc_header. rewrite <- !app_assoc. reflexivity. }
  assert (SI : forall (x y : list byte) (u v : tail_kind), Some (x, u) = Some (y, v) -> x = y /\ u = v) by (intros x y u v E; injection E; auto).
  destruct L as [|t' F' es W E S Lm|t' F' rest W M0 ML|t' names k W K|t' bs names types ty part missing W TW P NE BS|t' bs e b ER _]; try discriminate ES.
  - apply SI in ES. destruct ES as [ES _]. rewrite <- ES, blobs_all in B by assumption. injection B as B. exact B.
  - apply SI in ES. destruct ES as [ES _]. rewrite <- ES, blobs_max in B by assumption. injection B as B. exact B.
  - exfalso. apply SI in ES. destruct ES as [ES _]. symmetry in ES. rewrite HDR in ES. apply names_same in ES; [|assumption|assumption]. destruct ES as [_ ES].
    apply (f_equal (@length byte)) in ES. unfold enc_types in ES. rewrite !app_length, repeat_length, le_bytes_length in ES. lia.
  - exfalso. apply SI in ES. destruct ES as [-> _]. rewrite HDR, <- app_assoc in BS. unfold enc_header in BS. apply names_same in BS; [|assumption|assumption]. destruct BS as [_ BS].
    unfold enc_types in BS. rewrite <- !app_assoc in BS.
    assert (LE : forall l : list tdesc, lenN (concat (map enc_type l)) = 12 * lenN l).
    { induction l as [|x l IH]; [reflexivity|]. cbn [map concat]. rewrite lenN_app, lenN_enc_type, IH, lenN_cons. lia. }
    assert (Q : lenN (f_types F) = lenN (types ++ [ty])).
    { pose proof (read_word_app 4 0 (lenN (f_types F)) (concat (map enc_type (f_types F)) ++ (enc_points (f_types F) (f_points F) ++ r) ++ missing) t (proj1 (proj2 HT))) as A.
      rewrite <- !app_assoc in A. rewrite BS, read_word_app in A by exact (proj1 (proj2 TW)). injection A as A _. auto. }
    apply (f_equal (@lenN byte)) in BS. rewrite !lenN_app, !LE, Q in BS. rewrite !lenN_le_bytes in BS.
    assert (lenN missing <> 0) by (apply lenN_cons_ne; exact NE). lia.
  - exfalso. apply SI in ES. destruct ES as [-> ->]. exact (NT e ER).
Qed.
Lemma header_same names types names' types' r r' : names_wf ok names -> types_wf ok types -> names_wf ok names' -> types_wf ok types' ->
  enc_header names types ++ r = enc_header names' types' ++ r' -> names = names' /\ types = types' /\ r = r'.
Proof.
  unfold enc_header. rewrite <- !app_assoc. intros N T N' T' E. apply names_same in E; [|assumption|assumption]. destruct E as [-> E].
  pose proof (read_types_enc ok types r t T) as A. rewrite E, (read_types_enc ok types' r' t T') in A. injection A as -> A. auto.
Qed.
End U.
(** A file with a well-formed header without blobs is one. *)
Lemma no_blob_header ok max names types r t : names_wf ok names -> types_wf ok types -> Forall (fun d => t_fmt d <> BLOB) types ->
  no_blob_file ok (max, Some (enc_header names types ++ r, t)).
Proof.
  intros N T F. split.
  - unfold enc_header, enc_names. rewrite !lenN_app, lenN_le_bytes. lia.
  - intros names' types' r' N' T' E. apply (header_same ok t) in E; try assumption. destruct E as (_ & -> & _). exact F.
Qed.
