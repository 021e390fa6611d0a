(** Properties C05 - C11 and C13 - C16: reading and writing binary traces.
    [read] below is the whole reader on the whole input, with the real skip
    list as memory map ([coins], [pos]: any random levels), for any outcome of
    memory allocation ([ok]) and any way in which the input ends ([t]). *)
From Verif Require Import BaseProofs Types Stream SkipList AMap MemMapSpec Reader Writer FormatSpec FormatUB CanonSpec ReaderMore ReaderProps.

Notation read ok coins pos t max bs := (read_trace ok (skip_map coins pos) max (open_stream bs t)).

(** A concrete file, used in the examples below. *)
Definition ex_file : tfile :=
  mkF [[x78]; [x69; x6e; x74]; [x70]; [x69; x2a]; [x73]]
      [mkT 1 SIGNED 4; mkT 3 POINTER 8; mkT 4 BLOB 0; mkT 1 FLOAT 8]
      [[EStmt 7; EBuf 4096 64; EVar 0 0 (le_bytes 4 (2 ^ 32 - 5)); EVar 2 1 (le_bytes 8 4112); EAux 9];
       [];
       [EStmt 3; EStmt 8; EBuf 4096 0; EVar 4 2 [x61; x00; x62]; EVar 2 1 (le_bytes 8 4112); EVar 0 3 (le_bytes 8 5)]].
Definition ex_trace : trace (option N) :=
  mkTr (f_names ex_file) (f_types ex_file)
    [mkP 0 (Some 7) [mkB 4096 64]
       [mkV (VBits (2 ^ 64 - 5)) 0 0 SIGNED 4 0 0; mkV (VBits 4112) 2 1 POINTER 8 48 1] [9];
     mkP 1 None [] [] [];
     mkP 2 (Some 8) [mkB 4096 0]
       [mkV (VBlob [x61; x00; x62]) 4 2 BLOB 3 0 0; mkV (VBits 4112) 2 1 POINTER 8 0 0;
        mkV (VBits 5) 0 3 FLOAT 8 0 0] []].

Lemma ex_file_wf : file_wf (fun _ => true) ex_file.
Proof.
  split; [|split; [|split]].
  - split; [|split].
    + repeat constructor; intro H; cbn in H; intuition discriminate.
    + vm_compute. reflexivity.
    + reflexivity.
  - split; [|split].
    + repeat constructor; try (vm_compute; reflexivity); discriminate.
    + vm_compute; reflexivity.
    + reflexivity.
  - repeat constructor; try (vm_compute; reflexivity);
      (eexists; split; [vm_compute; reflexivity|vm_compute; auto 10]).
    + split; [reflexivity|discriminate].
    + split; [reflexivity|discriminate].
    + split; [reflexivity|discriminate].
  - intros pre post H. cbn in H.
    do 3 (destruct pre as [|? pre]; [vm_compute; lia | try (injection H as <- H)]).
    discriminate H.
Qed.

Ltac run_reader := rewrite read_trace_transfer; vm_compute; reflexivity.

Example ex_read : forall coins pos t, read (fun _ => true) coins pos t 0 (enc_file ex_file) = Ok ex_trace.
Proof. intros. destruct t; run_reader. Qed.
Example ex_denotes : denotes ex_file ex_trace.
Proof.
  destruct (complete_lemma (fun _ => true) (fun _ => true) 0 TailEof ex_file ex_file_wf) as (tr & E & HD & _).
  rewrite ex_read in E. inversion E; subst. exact HD.
Qed.

(** C05.  Every trace the format can represent is written successfully and
    read back identically (all names, types and fields of all points). *)
Theorem C05_write_read_roundtrip : forall ok coins pos t tr, trace_canon ok tr ->
  exists bs, write_trace tr = Ok bs /\ read ok coins pos t 0 bs = Ok (some_trace tr).
Proof. exact roundtrip_lemma. Qed.
Print Assumptions C05_write_read_roundtrip.

(** What is written is a well-formed file that describes the trace. *)
Theorem C05_written_file_wellformed : forall ok tr, trace_canon ok tr ->
  exists F, write_trace tr = Ok (enc_file F) /\ file_wf ok F /\ denotes F (some_trace tr).
Proof. exact (fun ok => write_canon ok (fun _ => true) O). Qed.
Print Assumptions C05_written_file_wellformed.

(** Traces read from a file can be represented, provided the types are ones the
    writer supports, each point has a statement id and no buffer record follows
    a variable of its point. *)
Theorem C05_read_traces_canonical : forall ok F tr,
  file_wf ok F -> Forall writable (f_types F) -> Forall sizes_first (f_points F) ->
  denotes F (some_trace tr) -> trace_canon ok tr.
Proof. exact (fun ok => reread_lemma ok (fun _ => true) O). Qed.
Print Assumptions C05_read_traces_canonical.

Definition ex_trace05 : trace N :=
  mkTr (f_names ex_file) (f_types ex_file)
    [mkP 0 7 [mkB 4096 64]
       [mkV (VBits (2 ^ 64 - 5)) 0 0 SIGNED 4 0 0; mkV (VBits 4112) 2 1 POINTER 8 48 1] [9];
     mkP 1 8 [mkB 4096 0] [mkV (VBlob [x61; x00; x62]) 4 2 BLOB 3 0 0; mkV (VBits 4112) 2 1 POINTER 8 0 0] []].
Definition ex_file05 : tfile :=
  mkF (f_names ex_file) (f_types ex_file)
      [[EStmt 7; EBuf 4096 64; EVar 0 0 (le_bytes 4 (2 ^ 32 - 5)); EVar 2 1 (le_bytes 8 4112); EAux 9];
       [EStmt 8; EBuf 4096 0; EVar 4 2 [x61; x00; x62]; EVar 2 1 (le_bytes 8 4112)]].
Lemma ex_file05_wf : file_wf (fun _ => true) ex_file05.
Proof.
  split; [apply ex_file_wf|]. split; [apply ex_file_wf|]. split.
  - repeat constructor; try (vm_compute; reflexivity);
      (eexists; split; [vm_compute; reflexivity|vm_compute; auto 10]);
      (split; [reflexivity|discriminate]).
  - intros pre post H. cbn in H.
    do 3 (destruct pre as [|? pre]; [vm_compute; lia | try (injection H as <- H)]).
    discriminate H.
Qed.
Example C05_canonical : trace_canon (fun _ => true) ex_trace05.
Proof.
  apply (C05_read_traces_canonical _ ex_file05).
  - exact ex_file05_wf.
  - apply Forall_forall. intros d Hd. cbn in Hd. destruct Hd as [<-|[<-|[<-|[<-|[]]]]]; vm_compute; auto 10.
  - constructor; [exists [EStmt 7; EBuf 4096 64]; eexists; split; [reflexivity|split; reflexivity]|].
    constructor; [exists [EStmt 8; EBuf 4096 0]; eexists; split; [reflexivity|split; reflexivity]|constructor].
  - destruct (complete_lemma (fun _ => true) (fun _ => true) 0 TailEof ex_file05 ex_file05_wf) as (tr & E & HD & _).
    assert (E' : read_trace (fun _ => true) (skip_map (fun _ => true) 0) 0 (open_stream (enc_file ex_file05) TailEof) = Ok (some_trace ex_trace05)) by run_reader.
    rewrite E in E'. inversion E'; subst. exact HD.
Qed.

(** Outside these conditions the round trip fails on traces that were read
    from a file. *)
Definition lossy (F : tfile) : Prop := exists tr bs',
  file_wf (fun _ => true) F /\
  (forall coins pos t, read (fun _ => true) coins pos t 0 (enc_file F) = Ok (some_trace tr)) /\
  write_trace tr = Ok bs' /\
  (forall coins pos t, read (fun _ => true) coins pos t 0 bs' <> Ok (some_trace tr)).

Lemma wf_small : forall nm T es, T <> [] -> nul_free nm -> lenN nm < 1000 -> Forall type_wf T -> lenN T < 1000 ->
  Forall (entry_wf (fun _ => true) [nm] T) es -> Forall (fun r => fst r < 2 ^ 64 - 1) (records es) ->
  file_wf (fun _ => true) (mkF [nm] T [es]).
Proof.
  intros nm T es H0 H1 H2 H3 H4 H5 H6. change (2 ^ 64 - 1) with 18446744073709551615 in H6.
  split; [split; [|split]|split; [split; [|split]|split]]; cbn [f_names f_types f_points]; auto.
  - unfold name_chars. cbn [map concat]. rewrite !lenN_app. change (lenN [x00]) with 1. change (lenN (@nil byte)) with 0.
    change (2 ^ 64) with 18446744073709551616. lia.
  - change (2 ^ 32) with 4294967296. lia.
  - cbn [concat]. rewrite app_nil_r. intros pre post E. rewrite E in H6. apply Forall_app in H6. destruct H6 as [H6 _].
    assert (X : sentinel_frees pre = O); [|rewrite X; lia].
    unfold sentinel_frees. clear E. induction H6 as [|[a s] l Ha _ IH]; [reflexivity|]. cbn [filter fst snd] in *.
    destruct (N.eqb_spec a (2 ^ 64 - 1)) as [->|_]; [change (2 ^ 64 - 1) with 18446744073709551615 in Ha; lia|exact IH].
Qed.

Ltac wf_ex := apply wf_small;
  [discriminate
  |intros [X|[]]; discriminate X
  |reflexivity
  |repeat constructor; discriminate
  |reflexivity
  |repeat constructor; eexists; (split; [reflexivity|vm_compute; intuition discriminate])
  |repeat constructor].

Definition ex_fixed_blob := mkF [[x73]] [mkT 0 BLOB 3] [[EStmt 1; EVar 0 0 [x61; x62; x63]]].
Theorem C05_fixed_blob_refuted : lossy ex_fixed_blob.
Proof.
  exists (mkTr [[x73]] [mkT 0 BLOB 3] [mkP 0 1 [] [mkV (VBlob [x61; x62; x63]) 0 0 BLOB 3 0 0] []]). eexists. split; [wf_ex|]. split; [intros; destruct t; run_reader|].
  split; [vm_compute; reflexivity|]. intros coins pos t. rewrite read_trace_transfer. destruct t; vm_compute; discriminate.
Qed.
Print Assumptions C05_fixed_blob_refuted.

Definition ex_pointer4 := mkF [[x70]] [mkT 0 POINTER 4] [[EStmt 1; EVar 0 0 (le_bytes 4 16)]].
Theorem C05_pointer4_refuted : lossy ex_pointer4.
Proof.
  exists (mkTr [[x70]] [mkT 0 POINTER 4] [mkP 0 1 [] [mkV (VBits 16) 0 0 POINTER 4 0 0] []]). eexists. split; [wf_ex|]. split; [intros; destruct t; run_reader|].
  split; [vm_compute; reflexivity|]. intros coins pos t. rewrite read_trace_transfer. destruct t; vm_compute; discriminate.
Qed.
Print Assumptions C05_pointer4_refuted.

Definition ex_unsigned3 := mkF [[x70]] [mkT 0 UNSIGNED 3] [[EStmt 1; EVar 0 0 (le_bytes 3 16)]].
Theorem C05_odd_integer_refuted : lossy ex_unsigned3.
Proof.
  exists (mkTr [[x70]] [mkT 0 UNSIGNED 3] [mkP 0 1 [] [mkV (VBits 16) 0 0 UNSIGNED 3 0 0] []]). eexists. split; [wf_ex|]. split; [intros; destruct t; run_reader|].
  split; [vm_compute; reflexivity|]. intros coins pos t. rewrite read_trace_transfer. destruct t; vm_compute; discriminate.
Qed.
Print Assumptions C05_odd_integer_refuted.

(** A pointer logged before the allocation record of the same point gets a
    buffer size after the round trip. *)
Definition ex_late_size := mkF [[x70]] [mkT 0 POINTER 8] [[EStmt 1; EVar 0 0 (le_bytes 8 4096); EBuf 4096 64]].
Theorem C05_late_size_refuted : lossy ex_late_size.
Proof.
  exists (mkTr [[x70]] [mkT 0 POINTER 8] [mkP 0 1 [mkB 4096 64] [mkV (VBits 4096) 0 0 POINTER 8 0 0] []]). eexists. split; [wf_ex|]. split; [intros; destruct t; run_reader|].
  split; [vm_compute; reflexivity|]. intros coins pos t. rewrite read_trace_transfer. destruct t; vm_compute; discriminate.
Qed.
Print Assumptions C05_late_size_refuted.

(** C06.  Every well-formed file is read; the result is the one trace it
    describes. *)
Theorem C06_reader_complete : forall ok coins pos t F, file_wf ok F ->
  exists tr, read ok coins pos t 0 (enc_file F) = Ok tr /\ denotes F tr /\ (forall tr', denotes F tr' -> tr' = tr).
Proof. exact complete_lemma. Qed.
Print Assumptions C06_reader_complete.
(* [ex_file] meets the hypothesis: [ex_file_wf]. *)

(** C07.  The reader accepts exactly the files of [accepted], with exactly that
    result. *)
Theorem C07_reader_exact : forall ok coins pos t max bs tr,
  read ok coins pos t max bs = Ok tr <-> accepted ok max bs tr.
Proof. exact read_iff. Qed.
Print Assumptions C07_reader_exact.

Example C07_unfinished : forall coins pos t,
  read (fun _ => true) coins pos t 0 (enc_file ex_file ++ enc_entries (f_types ex_file) [EStmt 4; EAux 5]) = Ok ex_trace.
Proof. intros. destruct t; run_reader. Qed.

(** C08.  Cutting a readable file anywhere: what is still read has the same
    names, a prefix of the points, and (if there is any point) the same types.
    The reader never misbehaves except for the two kinds of cuts named here. *)
Theorem C08_truncation : forall ok coins pos t max p q tr,
  read ok coins pos t max (p ++ q) = Ok tr ->
  match read ok coins pos t max p with
  | Ok tr' => tr_names tr' = tr_names tr /\ (exists more, tr_points tr = tr_points tr' ++ more) /\
              (tr_types tr' = tr_types tr \/ tr_points tr' = [])
  | Throw _ => True
  | UB k => k = UUninit /\ cut_in_names p \/ k = UBadFree /\ cut_in_sentinel_record p
  | _ => False
  end.
Proof. exact truncation_lemma. Qed.
Print Assumptions C08_truncation.

Example C08_case : forall coins pos t, exists tr',
  read (fun _ => true) coins pos t 0 (takeN 149 (enc_file ex_file)) = Ok tr' /\ length (tr_points tr') = 2%nat.
Proof. intros. eexists. split; [destruct t; run_reader|reflexivity]. Qed.

(** Both exceptions occur, and so do wrong types without points. *)
Theorem C08_names_cut_refuted : exists p q, forall coins pos t,
  (exists tr, read (fun _ => true) coins pos t 0 (p ++ q) = Ok tr) /\
  read (fun _ => true) coins pos t 0 p = UB UUninit.
Proof.
  exists (takeN 9 (enc_file ex_file)), (dropN 9 (enc_file ex_file)). intros coins pos t. split.
  - exists ex_trace. rewrite takeN_dropN. apply ex_read.
  - rewrite read_trace_transfer. destruct t; vm_compute; reflexivity.
Qed.
Print Assumptions C08_names_cut_refuted.

Definition ex_sentinel := mkF [] [] [[EStmt 1; EBuf (2 ^ 64 - 1) 256]].
Theorem C08_sentinel_cut_refuted : exists p q, forall coins pos t,
  (exists tr, read (fun _ => true) coins pos t 0 (p ++ q) = Ok tr) /\
  read (fun _ => true) coins pos t 0 p = UB UBadFree.
Proof.
  exists (takeN 31 (enc_file ex_sentinel)), (dropN 31 (enc_file ex_sentinel)). intros coins pos t. split.
  - eexists. rewrite takeN_dropN. destruct t; run_reader.
  - rewrite read_trace_transfer. destruct t; vm_compute; reflexivity.
Qed.
Print Assumptions C08_sentinel_cut_refuted.

Theorem C08_type_cut_refuted : exists p q, forall coins pos t, exists tr tr',
  read (fun _ => true) coins pos t 0 (p ++ q) = Ok tr /\ read (fun _ => true) coins pos t 0 p = Ok tr' /\
  tr_types tr' <> tr_types tr /\ length (tr_types tr') = length (tr_types tr).
Proof.
  set (F := mkF [] [mkT 0 BLOB 258] []).
  exists (takeN 21 (enc_file F)), (dropN 21 (enc_file F)). intros coins pos t. do 2 eexists. split; [|split; [|split]].
  - rewrite takeN_dropN. destruct t; run_reader.
  - destruct t; run_reader.
  - vm_compute. discriminate.
  - reflexivity.
Qed.
Print Assumptions C08_type_cut_refuted.

(** C09.  The expectation is false: a cut inside any entry (after any number
    of complete points) makes the whole file unreadable ... *)
Theorem C09_crash_keeps_points_refuted : forall ok coins pos t F es e p q, file_wf ok F ->
  Forall (entry_wf ok (f_names F) (f_types F)) es -> entry_wf ok (f_names F) (f_types F) e ->
  sentinel_safe (records (concat (f_points F) ++ es)) ->
  enc_entry (f_types F) e = p ++ q -> p <> [] -> q <> [] ->
  forall tr, read ok coins pos t 0 (enc_file F ++ enc_entries (f_types F) es ++ p) <> Ok tr.
Proof. exact cut_entry_lemma. Qed.
Print Assumptions C09_crash_keeps_points_refuted.
Example C09_hyps : Forall (entry_wf (fun _ => true) (f_names ex_file) (f_types ex_file)) [EStmt 4] /\
  sentinel_safe (records (concat (f_points ex_file) ++ [EStmt 4])) /\
  enc_entry (f_types ex_file) (EAux 1) = [x04; x01] ++ repeat x00 7.
Proof.
  split; [repeat constructor; vm_compute; reflexivity|]. split; [|reflexivity].
  rewrite records_app_nil. apply ex_file_wf.
Qed.

(** ... while after a cut between two entries all completed points are read. *)
Theorem C09_cut_between_entries : forall ok coins pos t F es tr, file_wf ok F ->
  Forall (entry_wf ok (f_names F) (f_types F)) es -> sentinel_safe (records (concat (f_points F) ++ es)) ->
  denotes F tr -> read ok coins pos t 0 (enc_file F ++ enc_entries (f_types F) es) = Ok tr.
Proof. exact cut_boundary_lemma. Qed.
Print Assumptions C09_cut_between_entries.

(** C10.  Reading at most m points of a readable file gives its first m points ... *)
Theorem C10_max_points : forall ok coins pos t m bs tr, m <> 0 ->
  read ok coins pos t 0 bs = Ok tr ->
  read ok coins pos t m bs = Ok (mkTr (tr_names tr) (tr_types tr) (takeN m (tr_points tr))).
Proof. exact max_lemma. Qed.
Print Assumptions C10_max_points.

(** ... and never looks at what follows the m-th point. *)
Theorem C10_rest_ignored : forall ok coins pos t m F rest tr, file_wf ok F -> lenN (f_points F) = m -> m <> 0 ->
  denotes F tr -> read ok coins pos t m (enc_file F ++ rest) = Ok tr.
Proof. exact rest_ignored_lemma. Qed.
Print Assumptions C10_rest_ignored.

Example C10_case : forall coins pos t, exists tr,
  read (fun _ => true) coins pos t 3 (enc_file ex_file ++ [x07; x07]) = Ok tr /\ tr_points tr = tr_points ex_trace.
Proof. intros. exists ex_trace. split; [apply rest_ignored_lemma; auto using ex_file_wf, ex_denotes; discriminate|reflexivity]. Qed.

(** C11.  Validity of what an accepted trace contains. *)
Theorem C11_indices_valid : forall ok coins pos t max bs tr p v,
  read ok coins pos t max bs = Ok tr -> In p (tr_points tr) -> In v (p_vars p) ->
  v_name v < lenN (tr_names tr) /\
  exists d, nthN (tr_types tr) (v_type v) = Some d /\ v_fmt v = t_fmt d /\ v_fmt v <> INVALID_FORMAT /\ v_val v <> VIndet /\
    (t_fmt d <> BLOB \/ t_size d <> 0 -> v_size v = t_size d) /\
    (forall b, v_val v = VBlob b -> lenN b = v_size v).
Proof. exact valid_lemma. Qed.
Print Assumptions C11_indices_valid.
Theorem C11_formats_valid : forall ok coins pos t max bs tr,
  read ok coins pos t max bs = Ok tr -> Forall (fun d => t_fmt d <> INVALID_FORMAT) (tr_types tr).
Proof. exact types_valid_lemma. Qed.
Print Assumptions C11_formats_valid.

(** C13.  Exactly the inputs of [ub_file] make the reader perform an undefined
    operation; on all others it returns a trace or throws (it never aborts or
    loops). *)
Theorem C13_undefined_exactly : forall ok coins pos t max bs k,
  read ok coins pos t max bs = UB k <-> ub_file ok max bs k.
Proof. exact ub_iff. Qed.
Print Assumptions C13_undefined_exactly.
Theorem C13_terminates : forall ok coins pos t max bs,
  read ok coins pos t max bs <> Abort /\ read ok coins pos t max bs <> Diverge.
Proof. exact read_total. Qed.
Print Assumptions C13_terminates.

(** In particular, the conditions of the English claim are sufficient. *)
Theorem C13_safe_inputs : forall ok coins pos t max bs,
  (forall n, ok n = true) ->
  (* the dictionary is complete and its last character is NUL *)
  (forall n r, bs = le_bytes 8 n ++ r -> 0 < n -> n < 2 ^ 64 -> exists p q, r = p ++ x00 :: q /\ lenN p + 1 = n) ->
  (* no wide types; no buffer record of the sentinel address with size 0 *)
  (forall names types r d, bs = enc_header names types ++ r -> In d types -> t_fmt d <> SIGNED -> t_fmt d <> BLOB -> t_size d <= 8) ->
  (forall p r, bs = p ++ x03 :: le_bytes 8 (2 ^ 64 - 1) ++ r -> le_val (takeN 8 r) <> 0) ->
  (exists tr, read ok coins pos t max bs = Ok tr) \/ (exists e, read ok coins pos t max bs = Throw e).
Proof. exact safe_inputs_lemma. Qed.
Print Assumptions C13_safe_inputs.

Example C13_overflow : forall coins pos t,
  read (fun _ => true) coins pos t 0 (enc_header [[x78]] [mkT 0 UNSIGNED 16] ++ [x02] ++ repeat x00 24) = UB UOob.
Proof. intros. destruct t; run_reader. Qed.

(** C14.  The j-th variable entry of the i-th point becomes the j-th variable
    of the i-th point, decoded according to its type. *)
Theorem C14_values_decoded : forall ok coins pos t F pts1 es1 nm ty data es2 pts2 d,
  file_wf ok F -> f_points F = pts1 ++ (es1 ++ EVar nm ty data :: es2) :: pts2 ->
  nthN (f_types F) ty = Some d ->
  exists tr p v, read ok coins pos t 0 (enc_file F) = Ok tr /\
    nth_error (tr_points tr) (length pts1) = Some p /\ nth_error (p_vars p) (n_vars es1) = Some v /\
    v_name v = nm /\ v_type v = ty /\ v_fmt v = t_fmt d /\ v_size v = lenN data /\
    match t_fmt d with
    | UNSIGNED | POINTER | FLOAT => v_val v = VBits (le_val data)
    | SIGNED => exists u, v_val v = VBits u /\ u < 2 ^ 64 /\ s64 u = signed_val data
    | BLOB => v_val v = VBlob data
    | INVALID_FORMAT => False
    end.
Proof. exact decoded_lemma. Qed.
Print Assumptions C14_values_decoded.

(** Every integer in range is the meaning of its n-byte encoding. *)
Theorem C14_signed_in_range : forall n z, In n [1; 2; 4; 8] ->
  (- 2 ^ (8 * Z.of_N n - 1) <= z < 2 ^ (8 * Z.of_N n - 1))%Z ->
  signed_val (le_bytes (N.to_nat n) (Z.to_N (z mod 2 ^ 64))) = z.
Proof. exact signed_range_lemma. Qed.
Print Assumptions C14_signed_in_range.
Theorem C14_unsigned_in_range : forall n u, u < 2 ^ (8 * n) -> le_val (le_bytes (N.to_nat n) u) = u.
Proof. exact unsigned_range_lemma. Qed.
Print Assumptions C14_unsigned_in_range.

(** C15.  Buffer sizes of pointers: what the records before the variable say. *)
Theorem C15_pointer_sizes : forall ok coins pos t F pts1 es1 nm ty data es2 pts2 d,
  file_wf ok F -> f_points F = pts1 ++ (es1 ++ EVar nm ty data :: es2) :: pts2 ->
  nthN (f_types F) ty = Some d ->
  exists tr p v, read ok coins pos t 0 (enc_file F) = Ok tr /\
    nth_error (tr_points tr) (length pts1) = Some p /\ nth_error (p_vars p) (n_vars es1) = Some v /\
    (t_fmt d = POINTER -> pointer_size (records (concat pts1 ++ es1)) (le_val data) (v_bsz v) (v_has v)) /\
    (t_fmt d <> POINTER -> v_bsz v = 0 /\ v_has v = 0).
Proof. exact pointer_lemma. Qed.
Print Assumptions C15_pointer_sizes.
(* see the two pointers in [ex_read]: 4112 has size 48 before and none after the free *)

(** C16.  The statement id of a point is that of its last STATEMENT_ID entry and
    indeterminate ([None]) iff there is none; counters are positions. *)
Theorem C16_statement_ids : forall ok coins pos t F i es, file_wf ok F -> nth_error (f_points F) i = Some es ->
  exists tr p, read ok coins pos t 0 (enc_file F) = Ok tr /\ nth_error (tr_points tr) i = Some p /\
  p_counter p = N.of_nat i /\
  (forall a id b, es = a ++ EStmt id :: b -> (forall x, ~ In (EStmt x) b) -> p_stmt p = Some id) /\
  ((forall x, ~ In (EStmt x) es) -> p_stmt p = None).
Proof. exact stmt_read. Qed.
Print Assumptions C16_statement_ids.

Theorem C16_always_defined_refuted : exists bs, forall coins pos t, exists tr p,
  read (fun _ => true) coins pos t 0 bs = Ok tr /\ In p (tr_points tr) /\ p_stmt p = None.
Proof.
  exists (enc_file ex_file). intros. exists ex_trace. eexists. split; [apply ex_read|]. split; [right; left; reflexivity|reflexivity].
Qed.
Print Assumptions C16_always_defined_refuted.
