(** Properties C12, C17, C35 - C38, C47 and C49: the C interface.
    Specification in CApiSpec.v. *)
From Verif Require Import BaseProofs Types Stream Reader SkipList AMap FormatSpec ReaderProofs ReaderProps Predicate FloatQ PredSpec PredProofs Query QuerySpec QueryProofs
  CHeap CHeapProofs CApi CApiSpec CApiProofs CApiProofs2 CApiProofs3 CApiProofs4 P_Reader P_Pred P_Query.

(** C12.  Expected: get_types is safe on every trace that was read.  False: the
    reader does not check the name index of a type. *)
Theorem C12_get_types_refuted : exists bs tr, (forall coins pos t, read all_ok coins pos t 0 bs = Ok tr) /\
  c_get_types all_ok tr = UB UOob.
Proof.
  exists (enc_file (mkF [[x61]] [mkT 1 UNSIGNED 4] [])). exists (mkTr [[x61]] [mkT 1 UNSIGNED 4] []). split; [|reflexivity]. intros. destruct t; run_reader.
Qed.
Print Assumptions C12_get_types_refuted.

(** On traces that were read, it is safe exactly if all name indices are valid,
    and then returns the names of the types in order. *)
Theorem C12_get_types_exactly : forall ok coins pos t max bs tr, read ok coins pos t max bs = Ok tr ->
  (lenN (tr_types tr) = 0 \/ ok (8 * lenN (tr_types tr)) = true) ->
  ((exists l, c_get_types ok tr = Ok l) <-> Forall (fun d => t_name d < lenN (tr_names tr)) (tr_types tr)) /\
  (forall l, c_get_types ok tr = Ok l -> Forall2 (fun d n => nthN (tr_names tr) (t_name d) = Some n) (tr_types tr) l) /\
  (Exists (fun d => lenN (tr_names tr) <= t_name d) (tr_types tr) -> c_get_types ok tr = UB UOob).
Proof.
  intros ok coins pos t max bs tr E HO. apply read_iff in E. apply accepted_names in E. destruct E as [HN HT].
  assert (EQ : c_get_types ok tr = mapO (fun t => match nthN (tr_names tr) (t_name t) with Some n => Ok (c_string n) | None => UB UOob end) (tr_types tr)).
  { unfold c_get_types. change two32 with (2 ^ 32). destruct (N.leb_spec (2 ^ 32) (lenN (tr_types tr))); [lia|].
    destruct HO as [HO|HO]; rewrite HO; [rewrite orb_true_r|]; reflexivity. }
  rewrite EQ. clear EQ HO HT. set (f := fun t : tdesc => _).
  assert (HF : forall d n, nthN (tr_names tr) (t_name d) = Some n -> f d = Ok n).
  { intros d n Hd. unfold f. rewrite Hd. rewrite c_string_nul_free; [reflexivity|]. rewrite Forall_forall in HN. apply HN. eapply nthN_In; eassumption. }
  assert (HG : forall d, lenN (tr_names tr) <= t_name d -> f d = UB UOob).
  { intros d Hd. unfold f. destruct (nthN (tr_names tr) (t_name d)) eqn:E; [|reflexivity]. apply nthN_Some_lt in E. lia. }
  clearbody f. assert (HM : forall l, mapO f (tr_types tr) = Ok l -> Forall2 (fun d n => nthN (tr_names tr) (t_name d) = Some n) (tr_types tr) l).
  { intros l H. apply mapO_Forall2 in H. eapply Forall2_impl; [|exact H]. cbv beta. intros d n Hd. destruct (N.lt_ge_cases (t_name d) (lenN (tr_names tr))) as [L|L].
    - destruct (nthN_lt _ _ _ L) as (m & Hm). rewrite (HF _ _ Hm) in Hd. congruence.
    - rewrite (HG _ L) in Hd. discriminate. }
  split; [split|split; [exact HM|]].
  - intros (l & H). apply HM in H. clear - H. induction H as [|d n ds ns Hd _ IH]; constructor; [apply nthN_Some_lt in Hd; exact Hd|assumption].
  - intro H. clear HM HG HN. induction H as [|d ds Hd _ (l & IH)]; [exists []; reflexivity|]. destruct (nthN_lt _ _ _ Hd) as (m & Hm).
    exists (m :: l). cbn [mapO]. rewrite (HF _ _ Hm). cbn [bind]. rewrite IH. reflexivity.
  - intro H. clear HM. induction H as [d ds Hd|d ds H IH]; cbn [mapO]; [rewrite (HG _ Hd); reflexivity|].
    destruct (N.lt_ge_cases (t_name d) (lenN (tr_names tr))) as [L|L]; [|rewrite (HG _ L); reflexivity].
    destruct (nthN_lt _ _ _ L) as (m & Hm). rewrite (HF _ _ Hm). cbn [bind]. rewrite IH. reflexivity.
Qed.
Print Assumptions C12_get_types_exactly.
Theorem C12_get_names : forall ok coins pos t max bs tr, read ok coins pos t max bs = Ok tr ->
  lenN (tr_names tr) < 2 ^ 32 -> (lenN (tr_names tr) = 0 \/ ok (8 * lenN (tr_names tr)) = true) ->
  c_get_names ok tr = Ok (tr_names tr) /\ c_n_names tr = lenN (tr_names tr).
Proof.
  intros ok coins pos t max bs tr E HL HO. apply read_iff in E. apply accepted_names in E. destruct E as [HN _].
  unfold c_get_names, c_n_names. change two32 with (2 ^ 32). destruct (N.leb_spec (2 ^ 32) (lenN (tr_names tr))); [lia|]. split; [|apply N.mod_small; assumption].
  replace (ok (8 * lenN (tr_names tr)) || (lenN (tr_names tr) =? 0)) with true by (destruct HO as [HO|HO]; rewrite HO; [rewrite orb_true_r|]; reflexivity).
  f_equal. clear - HN. induction HN as [|n l Hn _ IH]; [reflexivity|]. cbn [map]. rewrite c_string_nul_free by exact Hn. f_equal. exact IH.
Qed.
Print Assumptions C12_get_names.
(** n_types is the number of types, of every trace that was read. *)
Theorem C12_n_types : forall ok coins pos t max bs tr, read ok coins pos t max bs = Ok tr -> c_n_types tr = lenN (tr_types tr).
Proof. intros ok coins pos t max bs tr E. apply read_iff in E. apply accepted_names in E. now apply N.mod_small. Qed.
Print Assumptions C12_n_types.
(** Had the reader used the other read function of type descriptions, which is
    given the names, it would have rejected exactly the indices beyond them. *)
Theorem C12_checked_read : forall names d rest t, type_wf d ->
  (t_name d < lenN names -> read_type_checked names (open_stream (enc_type d ++ rest) t) = Ok (d, open_stream rest t)) /\
  (lenN names <= t_name d -> read_type_checked names (open_stream (enc_type d ++ rest) t) = Throw EInvalidNameIndex).
Proof.
  intros names d rest t W. unfold read_type_checked. rewrite (read_type_enc d rest t W). cbn [bind].
  destruct (N.leb_spec (lenN names) (t_name d)); split; intros; try reflexivity; lia.
Qed.
Print Assumptions C12_checked_read.
Example C12_checked_ex : type_wf (mkT 1 UNSIGNED 4) /\ read_type_checked [[x61]] (open_stream (enc_type (mkT 1 UNSIGNED 4)) TailEof) = Throw EInvalidNameIndex /\
  read_type_checked [[x61]; [x62]] (open_stream (enc_type (mkT 1 UNSIGNED 4)) TailEof) = Ok (mkT 1 UNSIGNED 4, open_stream [] TailEof).
Proof. split; [repeat split; discriminate|split; reflexivity]. Qed.
(** With 2^32 names or more the loop never ends. *)
Theorem C12_many_names_loop : forall A ok (tr : trace A), 2 ^ 32 <= lenN (tr_names tr) -> c_get_names ok tr = Diverge.
Proof. intros A ok tr H. unfold c_get_names. change two32 with (2 ^ 32). destruct (N.leb_spec (2 ^ 32) (lenN (tr_names tr))); [reflexivity|lia]. Qed.
Print Assumptions C12_many_names_loop.
Example C12_ex : c_get_types all_ok ex_trace = Ok [[x69; x6e; x74]; [x69; x2a]; [x73]; [x69; x6e; x74]] /\
  c_get_names all_ok ex_trace = Ok (f_names ex_file).
Proof. split; reflexivity. Qed.

(** A database to play with. *)
Definition ex_grow (c : N) : N := if c =? 0 then 1 else 2 * c.
Definition ex_hash (k : N * list (N * N)) : N := fst k.
Definition ex_garbage (i : N) : N := 77.
Definition ex_cv (u nm ty : N) : cvar := mkCV (VBits u) UNSIGNED nm ty 8 0 0.
Definition ex_ipoints : list ipoint := [mkIP 7 [ex_cv 10 0 1; ex_cv (2 ^ 64 - 1) 2 1; ex_cv 3 0 0] []; mkIP 8 [ex_cv 5 0 0] []].
Definition ex_query : cquery := mkCQ ex_fvs (Some (client ex_hard)) [] 0 1 0 0.
Definition ex_calls : list call :=
  [CAdd (Ok (enc_file ex_file, TailEof)) 0 ex_garbage; CAdd (Ok ([x01], TailEof)) 0 ex_garbage; CAdd (Throw ECannotOpen) 0 ex_garbage;
   CCount; CAddPoints [[x61]; [x62; x00; x63]; [x64]] ex_ipoints; CQuery 1 ex_query; CGet 0; CCount].

(** C17. *)
Theorem C17_histories : forall St sat ok coins pos grow pick hash cs d st l d' st',
  do_calls St sat ok (skip_map coins pos) grow pick hash d st cs = Ok (l, d', st') ->
  effects ok (traces d) cs l (traces d').
Proof. exact do_calls_effects. Qed.
Print Assumptions C17_histories.
(** In particular, what is stored stays where and what it is, and the number of
    traces is the number of successful additions. *)
Theorem C17_append_only : forall St sat ok coins pos grow pick hash cs d st l d' st',
  do_calls St sat ok (skip_map coins pos) grow pick hash d st cs = Ok (l, d', st') ->
  (forall i tr, nthN (traces d) i = Some tr -> nthN (traces d') i = Some tr) /\
  lenN (traces d') = lenN (traces d) + additions cs l.
Proof.
  intros St sat ok coins pos grow pick hash cs d st l d' st' H. apply do_calls_effects in H. apply (effects_prefix ok coins pos grow pick) in H. destruct H as (more & -> & HL).
  split; [|rewrite lenN_app, HL; reflexivity]. intros i tr Hi. rewrite nthN_app1; [assumption|]. apply nthN_Some_lt in Hi. exact Hi.
Qed.
Print Assumptions C17_append_only.
(** add_trace always returns unless the file is one on which the reader is
    undefined (C13); it returns 1 exactly for accepted files. *)
Theorem C17_add_trace : forall ok coins pos garbage grow d bs t max,
  (forall e, read ok coins pos t max bs <> UB e) ->
  exists b d', add_trace ok (skip_map coins pos) garbage grow d (Ok (bs, t)) max = Ok (b, d') /\
    (b = true <-> exists tr, accepted ok max bs tr) /\
    (b = false -> d' = d) /\ (b = true -> exists tr, accepted ok max bs tr /\ traces d' = traces d ++ [settle garbage tr]).
Proof.
  intros ok coins pos garbage grow d bs t max HU. unfold add_trace. cbn [bind].
  destruct (read ok coins pos t max bs) as [tr|e|k| |] eqn:E.
  - exists true, (push_trace grow d (settle garbage tr)). split; [reflexivity|]. apply read_iff in E. split; [split; [eauto|reflexivity]|]. split; [discriminate|].
    intros _. exists tr. split; [assumption|]. apply traces_push.
  - exists false, d. split; [reflexivity|]. split; [split; [discriminate|]|split; [reflexivity|discriminate]].
    intros (tr & HA). apply (read_iff ok coins pos t) in HA. congruence.
  - exfalso. eapply HU. reflexivity.
  - exfalso. destruct (C13_terminates ok coins pos t max bs) as (H1 & _). congruence.
  - exfalso. destruct (C13_terminates ok coins pos t max bs) as (_ & H1). congruence.
Qed.
Print Assumptions C17_add_trace.

(** The count returned has 32 bits. *)
Theorem C17_count_wraps : forall d, n_traces d = lenN (traces d) mod 2 ^ 32.
Proof. intro d. rewrite lenN_traces. reflexivity. Qed.
Print Assumptions C17_count_wraps.

Example C17_ex : forall coins pos, exists l d,
  do_calls unit (direct qops) all_ok (skip_map coins pos) ex_grow ex_pick ex_hash create_db tt ex_calls = Ok (l, d, tt) /\
  l = [ARet true; ARet false; ARet false; ANum 1; ARet true;
       AResults [mkP 0 7 [] [mkV (VBits 3) 0 0 UNSIGNED 8 0 0; mkV (VBits 10) 0 1 SIGNED 8 0 0] []]; APtr (2, 0); ANum 2] /\
  lenN (traces d) = 2.
Proof. intros. eexists _, _. split; [rewrite do_calls_transfer; vm_compute; reflexivity|]. split; reflexivity. Qed.

(** C35. *)
Theorem C35_add_trace_points : forall grow d names ps, words_ok ps -> Forall (fun p => ip_aux p = []) ps ->
  exists d' tr, add_trace_points grow d names ps = Ok (true, d') /\ traces d' = traces d ++ [tr] /\ imports names ps tr.
Proof.
  intros grow d names ps HW HA. destruct (import_ok names ps HW HA) as (tr & E & HI). exists (push_trace grow d tr), tr.
  unfold add_trace_points. rewrite E. split; [reflexivity|]. split; [apply traces_push|exact HI].
Qed.
Print Assumptions C35_add_trace_points.
(** The imported variables can be queried (they meet [var_ok]), and their type
    indices are valid. *)
Theorem C35_queryable : forall names ps tr, words_ok ps -> imports names ps tr ->
  Forall (fun p => Forall var_ok (p_vars p)) (tr_points tr) /\ type_indices_ok (tr_types tr) (tr_points tr).
Proof. intros names ps tr HW HI. destruct (imported_ok names ps tr HW HI) as (_ & H). exact H. Qed.
Print Assumptions C35_queryable.
Example C35_ex : words_ok ex_ipoints /\ Forall (fun p => ip_aux p = []) ex_ipoints /\
  import_trace [[x61]; [x62; x00; x63]; [x64]] ex_ipoints =
  Ok (mkTr [[x61]; [x62]; [x64]] [mkT 0 UNSIGNED 8; mkT 1 SIGNED 8]
       [mkP 0 7 [] [mkV (VBits 10) 0 1 SIGNED 8 0 0; mkV (VBits (2 ^ 64 - 1)) 2 1 SIGNED 8 0 0; mkV (VBits 3) 0 0 UNSIGNED 8 0 0] [];
        mkP 1 8 [] [mkV (VBits 5) 0 0 UNSIGNED 8 0 0] []]).
Proof.
  split; [|split; [repeat constructor|vm_compute; reflexivity]].
  repeat (apply Forall_cons || apply Forall_nil); (eexists; split; [reflexivity|vm_compute; reflexivity]).
Qed.
(** Name indices are not checked: get_types on such a trace may read outside
    the names. *)
Theorem C35_unchecked_names_refuted : exists names ps d' tr, words_ok ps /\
  add_trace_points ex_grow create_db names ps = Ok (true, d') /\ traces d' = [tr] /\ c_get_types all_ok tr = UB UOob.
Proof.
  exists [], [mkIP 7 [ex_cv 1 0 0] []]. eexists _, _. split; [|split; [vm_compute; reflexivity|split; [reflexivity|vm_compute; reflexivity]]].
  repeat (apply Forall_cons || apply Forall_nil); (eexists; split; [reflexivity|vm_compute; reflexivity]).
Qed.
Print Assumptions C35_unchecked_names_refuted.

(** C36.  Expected: aux values are stored.  False: any aux value makes the call
    write outside a vector. *)
Theorem C36_aux_refuted : exists names ps, words_ok ps /\ import_trace names ps = UB UOob.
Proof. exists [], [mkIP 7 [] [9]]. split; [repeat constructor|reflexivity]. Qed.
Print Assumptions C36_aux_refuted.
Theorem C36_aux_never_stored : forall grow d names ps b d', add_trace_points grow d names ps = Ok (b, d') -> Forall (fun p => ip_aux p = []) ps.
Proof. intros grow d names ps b d' H. unfold add_trace_points in H. apply bind_ok in H. destruct H as (tr & H & _). exact (import_aux _ _ _ H). Qed.
Print Assumptions C36_aux_never_stored.
(** For every array in which some point has aux values the call is undefined. *)
Theorem C36_aux_undefined : forall grow d names ps, words_ok ps -> Exists (fun p => ip_aux p <> []) ps ->
  add_trace_points grow d names ps = UB UOob.
Proof.
  intros grow d names ps HW HE. unfold add_trace_points, import_trace.
  assert (HT : forall types i qs, Exists (fun p => ip_aux p <> []) qs -> (forall p v, In p qs -> In v (ip_vars p) -> exists w, import_var types v = Ok w) ->
    import_points types i qs = UB UOob).
  { intros types i qs HX. revert i. induction HX as [p qs HX|p qs HX IH]; intros i HV; cbn [import_points].
    - destruct (ip_aux p); [congruence|reflexivity].
    - destruct (ip_aux p); [|reflexivity].
      assert (HM : forall vs, (forall v, In v vs -> exists w, import_var types v = Ok w) -> exists ws, mapO (import_var types) vs = Ok ws).
      { induction vs as [|v vs IHv]; intro Hvs; [exists []; reflexivity|]. destruct (Hvs v (or_introl eq_refl)) as (w & Ew). destruct IHv as (ws & Ews); [intros; apply Hvs; right; assumption|].
        exists (w :: ws). cbn [mapO]. rewrite Ew. cbn [bind]. rewrite Ews. reflexivity. }
      destruct (HM (ip_vars p)) as (ws & E); [intros v Hv; eapply HV; [left; reflexivity|exact Hv]|].
      rewrite E. cbn [bind]. rewrite IH; [reflexivity|]. intros q v Hq Hv. eapply HV; [right; exact Hq|exact Hv]. }
  rewrite HT; [reflexivity|exact HE|]. intros p v Hp Hv. unfold import_var.
  destruct (types_inferred ps HW) as (_ & HI & _). destruct (position_ok (types_of_formats (type_formats ps)) (cv_tname v)) as (t & Ht & _).
  { apply HI. exists p, v. auto. }
  rewrite Ht. eauto.
Qed.
Print Assumptions C36_aux_undefined.

(** C37. *)
Theorem C37_array : forall al types h ps, allocates al -> type_indices_ok types ps -> counts_ok ps -> room al ps ->
  exists a h' l, points_to_array al types h ps = Ok (a, h') /\
    Forall2 (exported types) ps l /\ sees h' a (lenN ps) l /\
    (forall x b, h_find h x = Some b -> h_find h' x = Some b) /\
    exists h'', free_trace_points h' a (lenN ps) = Ok h'' /\ forall x, h_find h'' x = h_find h x.
Proof. exact points_to_array_ok. Qed.
Print Assumptions C37_array.
(** A second release is an error, so each block is released once. *)
Theorem C37_no_double_free : forall h a n h', a <> 0 -> free_trace_points h a n = Ok h' -> free h' a = UB UBadFree.
Proof.
  intros h a n h' Ha H. unfold free_trace_points in H. apply bind_ok in H. destruct H as (h1 & _ & H). unfold free in H.
  destruct (N.eqb_spec a 0); [contradiction|]. destruct (h_find h1 a); [|discriminate]. inversion H; subst.
  unfold free. destruct (N.eqb_spec a 0); [contradiction|]. rewrite find_remove, N.eqb_refl. reflexivity.
Qed.
Print Assumptions C37_no_double_free.
(** The type indices of traces that were read are valid. *)
Theorem C37_read_traces : forall ok coins pos t max bs tr garbage, read ok coins pos t max bs = Ok tr ->
  type_indices_ok (tr_types tr) (tr_points (settle garbage tr)).
Proof. intros ok coins pos t max bs tr garbage E. destruct (settled_ok ok coins pos garbage t max bs tr E) as (_ & _ & H). exact H. Qed.
Print Assumptions C37_read_traces.
(** For points with 2^32 variables or aux values, or more, the counts in the
    structs are wrong. *)
Theorem C37_counts_modulo : forall al types h ps, allocates al -> type_indices_ok types ps -> room al ps -> ps <> [] ->
  exists a h', points_to_array al types h ps = Ok (a, h') /\
    forall i p, nthN ps i = Some p -> exists c, load h' a i = Ok (CellPoint c) /\ sees_modulo h' types p c.
Proof. exact points_to_array_modulo. Qed.
Print Assumptions C37_counts_modulo.
Theorem C37_counts_refuted : exists ps : list (point N), forall al h, allocates al -> (forall n, al_ok al n = true) ->
  exists a h' c, points_to_array al [] h ps = Ok (a, h') /\ load h' a 0 = Ok (CellPoint c) /\
    cp_naux c = 0 /\ forall p, nthN ps 0 = Some p -> lenN (p_aux p) = 2 ^ 32.
Proof.
  assert (HL : forall n, exists big : list N, lenN big = n).
  { intro n. exists (repeat 0 (N.to_nat n)). unfold lenN. rewrite repeat_length. apply N2Nat.id. }
  destruct (HL (2 ^ 32)) as (big & Hbig). clear HL. rename Hbig into HL.
  exists [mkP 0 7 [] [] big]. intros al h Hal Hok.
  destruct (points_to_array_modulo al [] h [mkP 0 7 [] [] big] Hal) as (a & h' & E & H).
  - constructor; constructor.
  - split; [vm_compute; reflexivity|]. split; [apply Hok|]. constructor; [split; apply Hok|constructor].
  - discriminate.
  - destruct (H 0 _ eq_refl) as (c & Hc & (_ & _ & HX & _)). exists a, h', c. cbn [p_aux] in HX. rewrite HL in HX. conj_split; auto.
    intros p Hp. inversion Hp; subst. exact HL.
Qed.
Print Assumptions C37_counts_refuted.
(** Without memory for the array the program writes through a null pointer. *)
Theorem C37_no_memory_refuted : forall al types h ps, 40 * lenN ps < 2 ^ 64 -> ps <> [] -> al_ok al (40 * lenN ps) = false ->
  points_to_array al types h ps = UB UNull.
Proof. exact points_to_array_null. Qed.
Print Assumptions C37_no_memory_refuted.

(** An allocator: the addresses used are those above all live ones. *)
Definition ex_fresh {cell} (h : heap cell) : N := 1 + fold_right (fun e m => N.max (fst e) m) 0 h.
Definition ex_al {cell} : allocator cell := mkAlloc all_ok ex_fresh.
Example ex_al_ok : forall cell, allocates (@ex_al cell).
Proof.
  intros cell h. change (al_fresh ex_al h) with (ex_fresh h). unfold ex_fresh. split; [lia|]. unfold h_find.
  destruct (find _ h) as [e|] eqn:E; [|reflexivity]. apply find_some in E. destruct E as [HI HE]. apply N.eqb_eq in HE.
  assert (fst e <= fold_right (fun e m => N.max (fst e) m) 0 h); [|lia]. clear HE. induction h as [|x h IH]; [destruct HI|]. cbn. destruct HI as [->|HI]; [lia|]. specialize (IH HI). lia.
Qed.
Example C37_ex : type_indices_ok (f_types ex_file) (tr_points (settle ex_garbage ex_trace)) /\ counts_ok (tr_points (settle ex_garbage ex_trace)) /\
  room ex_al (tr_points (settle ex_garbage ex_trace)) /\
  exists a h', points_to_array ex_al (f_types ex_file) [] (tr_points (settle ex_garbage ex_trace)) = Ok (a, h') /\
    load h' a 0 = Ok (CellPoint (mkCP 7 2 2 3 1)) /\
    load h' 2 1 = Ok (CellVar (mkCV (VBits 4112) POINTER 2 3 8 48 1)) /\ free_trace_points h' a 3 = Ok [].
Proof.
  split; [repeat constructor|]. split; [repeat constructor|]. split; [split; [vm_compute; reflexivity|split; [reflexivity|repeat constructor]]|].
  eexists _, _. split; [vm_compute; reflexivity|]. conj_split; vm_compute; reflexivity.
Qed.

(** C38. *)
Theorem C38_converted : forall c p, counts_match c -> create_predicate c = Ok p <-> describes c p.
Proof. exact create_iff. Qed.
Print Assumptions C38_converted.
Theorem C38_client : forall p, plain_pred p -> create_predicate (client p) = Ok p.
Proof. exact client_ok. Qed.
Print Assumptions C38_client.
(** Leaving out NULL_PREDICATE operands of AND does not change the meaning ... *)
Theorem C38_nulls : forall O vars c p, create_predicate c = Ok p -> counts_match c -> nulls_ok c ->
  satisfied O vars p = satisfied O vars (verbatim c).
Proof. exact nulls_meaning. Qed.
Print Assumptions C38_nulls.
(** ... but of OR it does. *)
Theorem C38_nulls_or_refuted : exists c p, create_predicate c = Ok p /\ counts_match c /\
  forall O vars, satisfied O vars p = Ok false /\ satisfied O vars (verbatim c) = Ok true.
Proof.
  exists (CPred OR 1 0 0 0 0 (Some [CPred NULL_PREDICATE 0 0 0 0 0 None])). eexists. split; [vm_compute; reflexivity|]. split; [vm_compute; auto|].
  intros O vars. split; reflexivity.
Qed.
Print Assumptions C38_nulls_or_refuted.
Theorem C38_freed_once : forall t fuel h a, (depth t <= fuel)%nat -> in_memory h a 0 t -> NoDup (a :: blocks t) ->
  (forall x, In x (blocks t) -> x <> 0 /\ h_find h x <> None) ->
  exists h', free_c_predicate fuel h a = Ok h' /\ forall x, h_find h' x = if in_dec N.eq_dec x (a :: blocks t) then None else h_find h x.
Proof. exact free_c_predicate_ok. Qed.
Print Assumptions C38_freed_once.
Definition ex_null : cpred := CPred NULL_PREDICATE 0 0 0 0 0 None.
Example C38_ex : plain_pred ex_pred /\ create_predicate (client ex_pred) = Ok ex_pred /\
  counts_match (CPred AND 3 0 0 0 0 (Some [ex_null; client ex_hard; ex_null])) /\ nulls_ok (CPred AND 3 0 0 0 0 (Some [ex_null; client ex_hard; ex_null])) /\
  create_predicate (CPred AND 3 0 0 0 0 (Some [ex_null; client ex_hard; ex_null])) = Ok (Pred AND 3 [ex_hard]).
Proof.
  assert (HP : plain_pred ex_pred) by (cbn; intuition (try congruence; try (vm_compute; reflexivity))).
  split; [exact HP|]. split; [apply C38_client; exact HP|]. split; [cbn; intuition (vm_compute; reflexivity)|]. split; [cbn; intuition discriminate|vm_compute; reflexivity].
Qed.
Definition ex_tree : ctree := CT AND 20 [CT NOT 30 [CT VAR_REFERENCE 0 []]; CT NULL_PREDICATE 0 []].
Definition ex_heap : heap cpnode :=
  [(10, [Some (mkCN AND 2 20)]); (20, [Some (mkCN NOT 1 30); Some (mkCN NULL_PREDICATE 0 0)]); (30, [Some (mkCN VAR_REFERENCE 0 0)]); (40, [])].
Example C38_free_ex : in_memory ex_heap 10 0 ex_tree /\ NoDup (10 :: blocks ex_tree) /\ (forall x, In x (blocks ex_tree) -> x <> 0 /\ h_find ex_heap x <> None) /\
  free_c_predicate 3 ex_heap 10 = Ok [(40, [])].
Proof.
  split; [cbn; intuition (try discriminate; try reflexivity)|]. split; [repeat constructor; cbn; intuition discriminate|].
  split; [|vm_compute; reflexivity]. intros x H. cbn in H. destruct H as [<-|[<-|[]]]; split; vm_compute; discriminate.
Qed.

(** C47.  Expected: the pointer stays valid.  False: adding a trace may move
    the traces. *)
Theorem C47_pointer_refuted : forall coins pos, exists d i p tr cs l d',
  get_trace d i = Ok p /\ deref d p = Ok tr /\
  do_calls unit (direct qops) all_ok (skip_map coins pos) ex_grow ex_pick ex_hash d tt cs = Ok (l, d', tt) /\
  deref d' p = UB UDangling.
Proof.
  intros. exists (mkDB [(mkTr [] [] [], [])] 1 1), 0. eexists _, _. exists [CAddPoints [] []]. eexists _, _.
  split; [vm_compute; reflexivity|]. split; [vm_compute; reflexivity|]. split; [rewrite do_calls_transfer; vm_compute; reflexivity|vm_compute; reflexivity].
Qed.
Print Assumptions C47_pointer_refuted.
(** It is valid exactly as long as the number of traces is at most the capacity
    of the vector at the time of get_trace. *)
Theorem C47_pointer_valid : forall St sat ok coins pos grow pick hash,
  (forall c, c < grow c) ->
  forall cs d st l d' st' i tr, lenN (traces d) <= db_cap d ->
  do_calls St sat ok (skip_map coins pos) grow pick hash d st cs = Ok (l, d', st') ->
  nthN (traces d) i = Some tr ->
  exists p, get_trace d i = Ok p /\ deref d p = Ok tr /\
    (lenN (traces d') <= db_cap d -> deref d' p = Ok tr) /\ (db_cap d < lenN (traces d') -> deref d' p = UB UDangling).
Proof.
  intros St sat ok coins pos grow pick hash HG cs d st l d' st' i tr HO H Hi.
  apply (pointer_valid St sat ok coins pos grow pick hash HG cs d st l d' st' i tr); auto. unfold db_ok. rewrite <- lenN_traces. exact HO.
Qed.
Print Assumptions C47_pointer_valid.
(** The capacity is always large enough. *)
Theorem C47_capacity : forall St sat ok coins pos grow pick hash, (forall c, c < grow c) ->
  forall cs st l d st', do_calls St sat ok (skip_map coins pos) grow pick hash create_db st cs = Ok (l, d, st') -> lenN (traces d) <= db_cap d.
Proof.
  intros St sat ok coins pos grow pick hash HG cs st l d st' H.
  destruct (do_calls_storage St sat ok coins pos grow pick hash HG cs create_db st l d st') as (HO & _); [vm_compute; discriminate|exact H|]. rewrite lenN_traces. exact HO.
Qed.
Print Assumptions C47_capacity.
Example C47_ex : (forall c, c < ex_grow c) /\ forall coins pos, exists l d p,
  do_calls unit (direct qops) all_ok (skip_map coins pos) ex_grow ex_pick ex_hash create_db tt [CAddPoints [] []; CAddPoints [] []; CAddPoints [] []] = Ok (l, d, tt) /\
  get_trace d 0 = Ok p /\ db_cap d = 4.
Proof.
  split; [intro c; unfold ex_grow; destruct (N.eqb_spec c 0); lia|]. intros. eexists _, _, _. split; [rewrite do_calls_transfer; vm_compute; reflexivity|]. split; vm_compute; reflexivity.
Qed.

(** C49.  After any history, a query on trace i returns what it returns on a
    new database that contains only this trace. *)
Theorem C49_history_independent : forall St sat ok coins pos grow pick hash cs l d st0 st1 st i q tr,
  do_calls St sat ok (skip_map coins pos) grow pick hash create_db st0 cs = Ok (l, d, st1) -> Forall call_ok cs ->
  nthN (traces d) i = Some tr ->
  results_of (query_trace St sat ok pick hash d st i q) = results_of (query_trace St sat ok pick hash (mkDB [(tr, [])] 1 0) st 0 q).
Proof.
  intros St sat ok coins pos grow pick hash cs l d st0 st1 st i q tr H HC Hi.
  apply query_trace_answer; [|exact Hi]. eapply do_calls_ok; [|exact HC|exact H]. constructor.
Qed.
Print Assumptions C49_history_independent.

(** From the history to the array the caller gets: the results of a query are
    the assignments that satisfy the predicate, and the array shows them. *)
Theorem C49_end_to_end : forall O ok coins pos grow pick hash cs l d i tr q p,
  do_calls unit (direct O) ok (skip_map coins pos) grow pick hash create_db tt cs = Ok (l, d, tt) -> Forall call_ok cs ->
  nthN (traces d) i = Some tr ->
  cq_hard q = Some (client p) -> plain_pred p -> cq_soft q = [] -> cq_seed q = 0 -> cq_keep q <> 0 ->
  cq_fvs q <> [] -> wt_bool (lenN (cq_fvs q)) p -> Forall (fun x => fits ok x (cq_fvs q)) (tr_points tr) ->
  exists rs d', query_trace unit (direct O) ok pick hash d tt i q = Ok (rs, d', tt) /\ traces d' = traces d /\
    (forall r, In r rs <-> exists x bs, In x (tr_points tr) /\ selected (cq_mask q) (cq_stmt q) x /\ assignment x (cq_fvs q) bs /\
                             satisfied O (bound x bs) p = Ok true /\ r = result x bs) /\
    forall al h, allocates al -> counts_ok rs -> room al rs ->
    exists a h' s, points_to_array al (tr_types tr) h rs = Ok (a, h') /\ Forall2 (exported (tr_types tr)) rs s /\ sees h' a (lenN rs) s.
Proof.
  intros O ok coins pos grow pick hash cs l d i tr q p H HC Hi Hh Hp Hs Hseed Hk Hf Hw Hfit.
  assert (HI : Forall trace_ok (db_traces d)) by (eapply do_calls_ok; [|exact HC|exact H]; constructor).
  pose proof Hi as Hi0. unfold traces in Hi. rewrite nthN_map in Hi. destruct (nthN (db_traces d) i) as [[tr' c]|] eqn:En; [|discriminate]. cbn in Hi. inversion Hi; subst tr'.
  assert (HT : trace_ok (tr, c)) by (rewrite Forall_forall in HI; apply HI; eapply nthN_In; exact En). destruct HT as (HT1 & HT2 & HT3). cbn [fst snd] in *.
  destruct (C19_sound_complete O ok pick (tr_points tr) c (cq_fvs q) p (cq_mask q) (cq_stmt q) HT1 Hf) as (B & ps & c' & E & Eps & HB); [|exact Hw|].
  { unfold good_points. rewrite Forall_forall in *. intros x Hx. split; auto. }
  assert (EQ : query_trace unit (direct O) ok pick hash d tt i q = Ok (flat_map (fun x => map (result x) (B x)) ps, mkDB (set_cache (db_traces d) i c') (db_cap d) (db_base d), tt)).
  { unfold query_trace. rewrite En, Hh, Hs, Hseed. cbn [create_predicate_obj]. rewrite (client_ok p Hp). cbn [bind mapO]. rewrite E. cbn [bind].
    destruct (N.eqb_spec (cq_keep q) 0); [contradiction|reflexivity]. }
  set (rs := flat_map (fun x => map (result x) (B x)) ps) in *.
  assert (HR : forall r, In r rs <-> exists x bs, In x (tr_points tr) /\ selected (cq_mask q) (cq_stmt q) x /\ assignment x (cq_fvs q) bs /\
                             satisfied O (bound x bs) p = Ok true /\ r = result x bs).
  { intro r. unfold rs. rewrite in_flat_map. split.
    - intros (x & Hx & Hr). apply in_map_iff in Hr. destruct Hr as (bs & <- & Hb). rewrite Eps in Hx. apply filter_In in Hx. destruct Hx as [Hx Hsx]. apply N.eqb_eq in Hsx.
      apply HB in Hb. exists x, bs. destruct Hb. conj_split; auto.
    - intros (x & bs & Hx & Hsx & Ha & Hsat & ->). exists x. split; [rewrite Eps; apply filter_In; split; [assumption|apply N.eqb_eq; exact Hsx]|].
      apply in_map. apply HB. split; assumption. }
  eexists rs, _. split; [exact EQ|]. split; [unfold traces; cbn [db_traces]; apply set_cache_traces|]. split; [exact HR|].
  intros al h Hal Hc Hroom. destruct (points_to_array_ok al (tr_types tr) h rs Hal) as (a & h' & s & E1 & E2 & E3 & _); auto; [|eauto 10].
  apply Forall_forall. intros r Hr. apply HR in Hr. destruct Hr as (x & bs & Hx & _ & _ & _ & ->). apply Forall_forall. intros v Hv. cbn [p_vars result] in Hv.
  unfold bound in Hv. apply in_flat_map in Hv. destruct Hv as (b & _ & Hv). destruct (nthN (p_vars x) b) as [w|] eqn:Ew; [|destruct Hv]. destruct Hv as [->|[]]. apply nthN_In in Ew.
  unfold type_indices_ok in HT3. rewrite Forall_forall in HT3. specialize (HT3 x Hx). rewrite Forall_forall in HT3. apply HT3. exact Ew.
Qed.
Print Assumptions C49_end_to_end.
Example C49_ex : Forall call_ok ex_calls /\ plain_pred ex_hard /\ cq_hard ex_query = Some (client ex_hard) /\ wt_bool (lenN (cq_fvs ex_query)) ex_hard /\
  forall coins pos, exists l d tr, do_calls unit (direct qops) all_ok (skip_map coins pos) ex_grow ex_pick ex_hash create_db tt ex_calls = Ok (l, d, tt) /\
    nthN (traces d) 1 = Some tr /\ Forall (fun x => fits all_ok x (cq_fvs ex_query)) (tr_points tr).
Proof.
  split; [|split; [|split; [reflexivity|split; [apply ex_good|]]]].
  - repeat (apply Forall_cons; [exact I || exact (proj1 C35_ex)|]). apply Forall_nil.
  - cbn; intuition (try congruence; try (vm_compute; reflexivity)).
  - intros. eexists _, _, _. split; [rewrite do_calls_transfer; vm_compute; reflexivity|]. split; [vm_compute; reflexivity|].
    repeat (apply Forall_cons || apply Forall_nil); split; vm_compute; reflexivity.
Qed.
