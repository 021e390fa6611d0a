(** Properties C31 and C58: databases as text. *)
From Coq Require Import Strings.String.
From Verif Require Import BaseProofs Types Stream Reader SkipList FormatSpec Order Predicate PredSpec Query QuerySpec CApi CApiSpec CApiProofs4 PrintPred Archive ArchiveSpec ArchiveProofs ArchiveProofs2 ArchiveProofs3 FloatQ P_Reader P_Query P_CApi.

(** C31.  Any database built by any history of calls, that has no trace with
    2^32 or more names or types: the text contains no NUL, and reading it gives
    a database with the same traces, which serialises to the same text and
    answers every query in the same way.  [ver]: the version of the archive
    library.  Assumes that there is enough memory when the text is read. *)
Theorem C31_round_trip : forall St sat ok coins pos grow pick hash cs st l d st' ok' ver,
  do_calls St sat ok (skip_map coins pos) grow pick hash create_db st cs = Ok (l, d, st') ->
  Forall call_in_range cs -> not_huge (traces d) -> (forall n, ok' n = true) -> ver < 2 ^ 16 ->
  ~ In x00 (serialize_trace_db ver d) /\
  exists d', deserialize_trace_db ok' ver (serialize_trace_db ver d) = Ok d' /\ traces d' = traces d /\
    serialize_trace_db ver d' = serialize_trace_db ver d /\
    forall st1 i q tr, nthN (traces d) i = Some tr ->
      results_of (query_trace St sat ok pick hash d' st1 i q) = results_of (query_trace St sat ok pick hash d st1 i q).
Proof.
  intros St sat ok coins pos grow pick hash cs st l d st' ok' ver H HR HN Hok HV.
  pose proof (history_storable _ _ _ _ _ _ _ _ _ _ _ _ _ H HR HN) as HS. destruct (round_trip ok' ver d Hok HV HS) as [HC HD].
  split. { intro X. unfold clean in HC. rewrite Forall_forall in HC. exact (HC _ X eq_refl). }
  set (d' := mkDB (map (fun t => (t, [])) (traces d)) (lenN (traces d)) 0) in *. exists d'. split; [exact HD|].
  assert (HT : traces d' = traces d) by (unfold traces at 1, d'; cbn [db_traces]; rewrite map_map; cbn [fst]; apply map_id). split; [exact HT|].
  split; [unfold serialize_trace_db; f_equal; f_equal; f_equal; exact HT|]. intros st1 i q tr Hi.
  assert (HK : Forall call_ok cs).
  { eapply Forall_impl; [|exact HR]. intros [| | | |]; try exact (fun _ => I). cbn [call_in_range call_ok]. intro X. eapply Forall_impl; [|exact X].
    intros p (_ & _ & Y). eapply Forall_impl; [|exact Y]. intros v (_ & _ & _ & _ & Z). exact Z. }
  assert (HO : Forall trace_ok (db_traces d)) by (eapply do_calls_ok; [|exact HK|exact H]; constructor).
  assert (HO' : Forall trace_ok (db_traces d')).
  { unfold d'. cbn [db_traces]. unfold traces. rewrite map_map. apply Forall_map. eapply Forall_impl; [|exact HO]. intros e (_ & A). split; [constructor|exact A]. }
  rewrite (query_trace_answer St sat ok pick hash d st1 i q tr HO Hi).
  apply (query_trace_answer St sat ok pick hash d' st1 i q tr HO'). rewrite HT. exact Hi.
Qed.
Print Assumptions C31_round_trip.

(** The same for any database whose members are within their types, however it
    was built; text after the archive, separated by a space, is ignored. *)
Theorem C31_storable : forall ok ver d more, (forall n, ok n = true) -> ver < 2 ^ 16 -> storable (traces d) ->
  ~ In x00 (serialize_trace_db ver d) /\
  exists d', deserialize_trace_db ok ver (serialize_trace_db ver d) = Ok d' /\ traces d' = traces d /\
    deserialize_trace_db ok ver (serialize_trace_db ver d ++ space :: more) = Ok d'.
Proof.
  intros ok ver d more Hok HV HS. rewrite (trailing_ignored ok ver d more Hok HV HS). destruct (round_trip ok ver d Hok HV HS) as [HC ->].
  split. { intro X. unfold clean in HC. rewrite Forall_forall in HC. exact (HC _ X eq_refl). }
  eexists. split; [reflexivity|]. split; [|reflexivity]. unfold traces. cbn [db_traces]. rewrite !map_map. cbn [fst]. reflexivity.
Qed.
Print Assumptions C31_storable.

(** Different databases have different texts. *)
Corollary C31_injective : forall ver d1 d2, ver < 2 ^ 16 -> storable (traces d1) -> storable (traces d2) ->
  serialize_trace_db ver d1 = serialize_trace_db ver d2 -> traces d1 = traces d2.
Proof.
  intros ver d1 d2 HV H1 H2 E. destruct (C31_storable (fun _ => true) ver d1 [] (fun _ => eq_refl) HV H1) as (_ & e1 & A1 & B1 & _).
  destruct (C31_storable (fun _ => true) ver d2 [] (fun _ => eq_refl) HV H2) as (_ & e2 & A2 & B2 & _). rewrite E, A2 in A1. inversion A1; subst e2. congruence.
Qed.
Print Assumptions C31_injective.

(** With 2^32 names all of them are lost, silently. *)
Theorem C31_many_names_refuted : exists d, traces d <> [] /\
  forall ok ver, (forall n, ok n = true) -> ver < 2 ^ 16 ->
    exists d', deserialize_trace_db ok ver (serialize_trace_db ver d) = Ok d' /\ traces d' <> traces d.
Proof.
  destruct (ex_len (2 ^ 32)) as (names & HL & _). exists (mkDB [(mkTr names [] [], [])] 1 0). split; [discriminate|]. intros ok ver Hok HV.
  eexists. split; [apply (many_names ok ver _ names Hok HV HL); reflexivity|]. unfold traces. cbn [db_traces map fst]. intro E.
  assert (X : names = []) by (inversion E; reflexivity). subst names. discriminate HL.
Qed.
Print Assumptions C31_many_names_refuted.

(** A database with two traces, shared point data, a blob, a signed value and a
    name with a space. *)
Definition ar_v1 : var := mkV (VBits (2 ^ 64 - 5)) 0 0 SIGNED 4 0 0.
Definition ar_v2 : var := mkV (VBlob [byte_of_N 200; x00; byte_of_N 7]) 1 1 BLOB 3 0 0.
Definition ar_v3 : var := mkV (VBits 4096) 1 2 POINTER 8 16 1.
Definition ar_db : db :=
  mkDB [(mkTr [text "x"; text "char *"; []] [mkT 0 SIGNED 4; mkT 1 BLOB 0; mkT 1 POINTER 8]
           [mkP 0 7 [mkB 4096 16] [ar_v1; ar_v2] [5]; mkP 1 8 [mkB 4096 16] [ar_v1; ar_v2] [5]; mkP 2 7 [] [ar_v3] []], []);
        (mkTr [] [] [mkP 0 9 [] [ar_v3] []], [])] 2 0.
Example C31_ex_text : serialize_trace_db 16 ar_db =
  text "22 serialization::archive 16 0 0 2 0 0 3 3 3 0 0 0 7 0 0 0 0 0 1 2 1 0 0 4096 16 0 0 0 0 1 4 0 0 18446744073709551611 1 1 4 3 0 0 -56 0 7 5 1 8 0 2 7 1 0 1 0 1 2 3 8 16 1 4096 1 x 6 char * 0  0 0 0 1 4 1 4 0 1 3 8 1 0 0 0 9 1".
Proof. vm_compute. reflexivity. Qed.
Example C31_ex : storable (traces ar_db) /\ deserialize_trace_db (fun _ => true) 16 (serialize_trace_db 16 ar_db) = Ok ar_db.
Proof.
  split; [|vm_compute; reflexivity]. split; [reflexivity|]. split; [reflexivity|]. split.
  - unfold traces, ar_db. cbn [db_traces map fst].
    assert (R : forall n, nul_free n <-> Forall (fun b => b <> x00) n) by (intro n; unfold nul_free; rewrite Forall_forall; split; [intros H b Hb ->; exact (H Hb)|intros H Hb; exact (H _ Hb eq_refl)]).
    assert (V1 : var_in_range ar_v1) by (unfold var_in_range; cbn; conj_split; try reflexivity; try discriminate).
    assert (V2 : var_in_range ar_v2) by (unfold var_in_range; cbn; conj_split; try reflexivity; try discriminate).
    assert (V3 : var_in_range ar_v3) by (unfold var_in_range; cbn; conj_split; try reflexivity; try discriminate).
    constructor; [|constructor; [|constructor]]; unfold trace_in_range; cbn [tr_names tr_types tr_points]; conj_split; try reflexivity.
    + repeat (apply Forall_cons; [split; [apply R; repeat constructor; discriminate|reflexivity]|]). constructor.
    + repeat (apply Forall_cons; [split; reflexivity|]). constructor.
    + repeat (apply Forall_cons; [unfold point_in_range; cbn [p_counter p_stmt p_sizes p_vars p_aux]; conj_split; try reflexivity; repeat (apply Forall_cons; [first [assumption|reflexivity|split; reflexivity]|]); constructor|]). constructor.
    + constructor.
    + constructor.
    + repeat (apply Forall_cons; [unfold point_in_range; cbn [p_counter p_stmt p_sizes p_vars p_aux]; conj_split; try reflexivity; repeat (apply Forall_cons; [first [assumption|reflexivity|split; reflexivity]|]); constructor|]). constructor.
  - unfold traces, ar_db. cbn [db_traces map fst]. intros t u p q [<-|[<-|[]]] [<-|[<-|[]]] Hp Hq; cbn [tr_points In] in Hp, Hq;
      repeat match goal with H : _ \/ _ |- _ => destruct H as [H|H] end; try contradiction; subst; intro E; try discriminate E; repeat split.
Qed.
(** A history of calls that meets the hypotheses of C31_round_trip. *)
Example C31_ex_history : forall coins pos, exists l d,
  do_calls unit (direct qops) all_ok (skip_map coins pos) ex_grow ex_pick ex_hash create_db tt ex_calls = Ok (l, d, tt) /\
  Forall call_in_range ex_calls /\ not_huge (traces d) /\ lenN (traces d) = 2.
Proof.
  intros. eexists _, _. split; [rewrite do_calls_transfer; vm_compute; reflexivity|]. split.
  - unfold ex_calls. repeat (apply Forall_cons; [first [exact I|intro; reflexivity|cbn [call_in_range ex_ipoints]; repeat (apply Forall_cons; [split; [reflexivity|]; split; [reflexivity|]; repeat (apply Forall_cons; [conj_split; try reflexivity; eexists; split; reflexivity|]); constructor|]); constructor]|]). constructor.
  - split; [|vm_compute; reflexivity]. unfold not_huge, traces. cbn [db_traces map fst]. split; [reflexivity|]. split; [reflexivity|].
    repeat (apply Forall_cons; [conj_split; try reflexivity; cbn [tr_names tr_points]; repeat (apply Forall_cons; [first [reflexivity|conj_split; reflexivity]|]); constructor|]). constructor.
Qed.

(** C58.  Whatever text is given, deserialize_trace_db returns a database or
    ends the process; it neither loops nor reads or writes out of bounds. *)
Theorem C58_any_text : forall ok ver txt, (forall n, ok n = true) ->
  deserialize_trace_db ok ver txt = Abort \/ exists d, deserialize_trace_db ok ver txt = Ok d.
Proof. exact deserialize_total. Qed.
Print Assumptions C58_any_text.

(** But a shortened text may be accepted and give another database. *)
Theorem C58_cut_refuted : exists d d' p q, serialize_trace_db 16 d = p ++ q /\ q <> [] /\
  deserialize_trace_db (fun _ => true) 16 p = Ok d' /\ traces d' <> traces d.
Proof.
  exists (mkDB [(mkTr [text "x"] [mkT 0 UNSIGNED 16] [], [])] 1 0), (mkDB [(mkTr [text "x"] [mkT 0 UNSIGNED 1] [], [])] 1 0).
  exists (text "22 serialization::archive 16 0 0 1 0 0 0 1 1 1 x 0 0 0 0 1"), (text "6").
  split; [vm_compute; reflexivity|]. split; [discriminate|]. split; [vm_compute; reflexivity|]. vm_compute. discriminate.
Qed.
Print Assumptions C58_cut_refuted.

(** A number of elements that the text does not contain ends the process. *)
Example C58_ex : deserialize_trace_db (fun _ => true) 16 (text "22 serialization::archive 16 0 0 18446744073709551615 0 0") = Abort /\
  deserialize_trace_db (fun _ => true) 16 (text "22 serialization::archive 17 0 0 0") = Abort /\
  deserialize_trace_db (fun _ => true) 16 (text "no archive") = Abort.
Proof. split; [vm_compute; reflexivity|]. split; vm_compute; reflexivity. Qed.
