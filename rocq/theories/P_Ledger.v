(** Property C72: the memory that reading a trace obtains explicitly (new, malloc)
    is given back when the trace or the database is freed, and nothing is freed
    twice.

    [read_and_free files]: each file is read (with its limit on the number of
    points) and its trace freed; [database_life files]: a database is created, the
    files are added, the database is freed.  [live l] are the blocks that are still
    allocated at the end; [leak] (LedgerSpec.v) says which blocks each file leaves.
    A release of a block that is not live would be [UB UBadFree]. *)
From Verif Require Import BaseProofs Types Stream SkipList MemMapSpec Reader FormatSpec ReaderMore ReaderProps Ledger LedgerSpec LedgerProofs LedgerProofs3 LedgerUnique.

(** Nothing is freed twice, and the streams, the buffer of the names and the traces
    are given back, whether the files can be opened, are accepted or rejected.  What
    remains are the blobs (and in one case, a file cut within its first number, that
    buffer). *)
Theorem C72_exact : forall ok coins pos files, Forall (defined ok (skip_map coins pos)) files ->
  exists l leaks, read_and_free ok (skip_map coins pos) files no_memory = (Ok tt, l) /\
    Forall2 (fun f b => leak ok (skip_map coins pos) (fst f) (snd f) b) files leaks /\
    live l = concat leaks.
Proof.
  intros ok coins pos files D. destruct (session_lemma ok coins pos files D no_memory (Forall_nil _)) as (l & bs & E & L & G).
  exists l, bs. split; [exact E|]. split; [exact L|]. exact (grow_live _ _ _ G).
Qed.
Print Assumptions C72_exact.

(** [leak] leaves no choice: the blocks that remain are determined by the file. *)
Theorem C72_leak_unique : forall ok coins pos max src b b',
  leak ok (skip_map coins pos) max src b -> leak ok (skip_map coins pos) max src b' -> b = b'.
Proof. exact leak_unique. Qed.
Print Assumptions C72_leak_unique.

Theorem C72_database : forall ok coins pos files, Forall (defined ok (skip_map coins pos)) files ->
  exists l leaks, database_life ok (skip_map coins pos) files no_memory = (Ok (flat_map (readable ok (skip_map coins pos)) files), l) /\
    Forall2 (fun f b => leak ok (skip_map coins pos) (fst f) (snd f) b) files leaks /\
    live l = concat leaks.
Proof. exact database_lemma. Qed.
Print Assumptions C72_database.

(** Without blobs everything is given back, also if files are rejected. *)
Theorem C72_no_blob : forall ok coins pos files, Forall (defined ok (skip_map coins pos)) files ->
  Forall (no_blob_file ok) files ->
  (exists l, read_and_free ok (skip_map coins pos) files no_memory = (Ok tt, l) /\ live l = []) /\
  (exists trs l, database_life ok (skip_map coins pos) files no_memory = (Ok trs, l) /\ live l = []).
Proof.
  intros ok coins pos files D NB. split.
  - destruct (C72_exact ok coins pos files D) as (l & bs & E & L & G). exists l. split; [exact E|].
    rewrite G. exact (no_leaks ok coins pos files bs NB L).
  - destruct (C72_database ok coins pos files D) as (l & bs & E & L & G). exists (flat_map (readable ok (skip_map coins pos)) files), l. split; [exact E|].
    rewrite G. exact (no_leaks ok coins pos files bs NB L).
Qed.
Print Assumptions C72_no_blob.

(** Well-formed files: exactly one block for every blob in a trace remains, of the
    size of the blob, however often files are read. *)
Definition whole (t : tail_kind) (F : tfile) : N * source := (0, Some (enc_file F, t)).
Definition file_blobs (F : tfile) : list block := flat_map (entry_blobs (f_types F)) (concat (f_points F)).
Lemma whole_defined ok coins pos t Fs : Forall (file_wf ok) Fs -> Forall (defined ok (skip_map coins pos)) (map (whole t) Fs).
Proof.
  intros W. apply Forall_map. eapply Forall_impl; [|exact W]. intros F HF k. destruct (complete_lemma ok coins pos t F HF) as (tr & E & _).
  rewrite E. discriminate.
Qed.
Lemma whole_leaks ok coins pos t Fs leaks : Forall (file_wf ok) Fs ->
  Forall2 (fun f b => leak ok (skip_map coins pos) (fst f) (snd f) b) (map (whole t) Fs) leaks -> concat leaks = flat_map file_blobs Fs.
Proof.
  intros W. revert leaks. induction W as [|F Fs HF _ IH]; intros leaks L; cbn [map] in L; inversion L as [|? b ? bs L1 L2]; subst; [reflexivity|].
  cbn [concat flat_map]. rewrite (IH _ L2). f_equal. unfold whole in L1. cbn [fst snd] in L1.
  apply (leak_wf ok t (skip_map coins pos) 0 F [] b HF); rewrite ?app_nil_r; [left; split; reflexivity| |exact L1].
  intros e E. destruct (complete_lemma ok coins pos t F HF) as (tr & E' & _). rewrite E' in E. discriminate.
Qed.
Theorem C72_well_formed : forall ok coins pos t Fs, Forall (file_wf ok) Fs ->
  (exists l, read_and_free ok (skip_map coins pos) (map (whole t) Fs) no_memory = (Ok tt, l) /\ live l = flat_map file_blobs Fs) /\
  (exists trs l, database_life ok (skip_map coins pos) (map (whole t) Fs) no_memory = (Ok trs, l) /\
     Forall2 denotes Fs trs /\ live l = flat_map file_blobs Fs).
Proof.
  intros ok coins pos t Fs W. pose proof (whole_defined ok coins pos t Fs W) as D. split.
  - destruct (C72_exact ok coins pos _ D) as (l & bs & E & L & G). exists l. split; [exact E|]. rewrite G. exact (whole_leaks ok coins pos t Fs bs W L).
  - destruct (C72_database ok coins pos _ D) as (l & bs & E & L & G). eexists _, l. split; [exact E|]. split.
    + clear - W. induction W as [|F Fs HF _ IH]; [constructor|]. cbn [map flat_map whole readable].
      destruct (complete_lemma ok coins pos t F HF) as (tr & -> & HD & _). cbn [app]. constructor; assumption.
    + rewrite G. exact (whole_leaks ok coins pos t Fs bs W L).
Qed.
Print Assumptions C72_well_formed.

(** A file that is refused at the bytes [r], where no entry can be read: a block for
    every blob before [r], and one for the blob that begins there if its size was
    known. *)
Theorem C72_rejected : forall ok coins pos max t names types pts es r e,
  names_wf ok names -> types_wf ok types ->
  Forall (Forall (entry_wf ok names types)) pts -> Forall (entry_wf ok names types) es ->
  r <> [] -> (forall q, r <> x00 :: q) -> (forall e q, entry_wf ok names types e -> r <> enc_entry types e ++ q) ->
  let bs := enc_header names types ++ enc_points types pts ++ enc_entries types es ++ r in
  read_trace ok (skip_map coins pos) max (open_stream bs t) = Throw e ->
  exists l, read_and_free ok (skip_map coins pos) [(max, Some (bs, t))] no_memory = (Ok tt, l) /\
    live l = flat_map (entry_blobs types) (concat pts ++ es) ++ started_blob ok names types r.
Proof.
  intros ok coins pos max t names types pts es r e N T P W R0 R1 R2 bs E.
  destruct (C72_exact ok coins pos [(max, Some (bs, t))]) as (l & leaks & EL & L & G).
  { constructor; [|constructor]. intros k X. rewrite E in X. discriminate X. }
  exists l. split; [exact EL|]. rewrite G. inversion L as [|? b ? bs' L1 L2]; subst. inversion L2; subst. cbn [concat]. rewrite app_nil_r.
  cbn [fst snd] in L1. apply (leak_unique ok coins pos max (Some (bs, t))); [exact L1|].
  apply (leak_rejected ok (skip_map coins pos) max t bs e); [exact E|]. right. right. exists names, types, pts, es, r. auto 10.
Qed.
Print Assumptions C72_rejected.

(** Blobs are not given back: memory grows without bound when one file is read and
    freed again and again. *)
Definition blob_file : tfile :=
  mkF [[x73]; [x69; x6e; x74]] [mkT 0 BLOB 0; mkT 1 SIGNED 4]
      [[EStmt 1; EVar 0 0 [x61; x00; x62]; EVar 1 1 (le_bytes 4 7)]; [EStmt 2; EVar 0 0 [x7a]]].
Definition int_file : tfile :=
  mkF [[x73]; [x69; x6e; x74]] [mkT 1 SIGNED 4] [[EStmt 1; EVar 0 0 (le_bytes 4 7)]].
Lemma blob_file_wf : file_wf (fun _ => true) blob_file.
Proof.
  split; [|split; [|split]].
  - split; [|split].
    + repeat constructor; intro H; cbn in H; intuition discriminate.
    + vm_compute. reflexivity.
    + reflexivity.
  - split; [|split].
    + repeat constructor; try (vm_compute; reflexivity); discriminate.
    + vm_compute; reflexivity.
    + reflexivity.
  - repeat constructor; try (vm_compute; reflexivity);
      (eexists; split; [vm_compute; reflexivity|vm_compute; auto 10]).
  - intros pre post H. cbn in H. destruct pre; [vm_compute; lia|discriminate H].
Qed.
Theorem C72_blob_refuted : exists F, file_wf (fun _ => true) F /\ forall coins pos t n,
  exists l, read_and_free (fun _ => true) (skip_map coins pos) (repeat (whole t F) n) no_memory = (Ok tt, l) /\
    length (live l) = (2 * n)%nat.
Proof.
  exists blob_file. split; [exact blob_file_wf|]. intros coins pos t n.
  assert (W : Forall (file_wf (fun _ => true)) (repeat blob_file n)).
  { apply Forall_forall. intros F I. apply repeat_spec in I. subst F. exact blob_file_wf. }
  assert (RM : map (whole t) (repeat blob_file n) = repeat (whole t blob_file) n).
  { induction n as [|n IH]; [reflexivity|]. cbn [repeat map]. rewrite IH; [reflexivity|]. inversion W; assumption. }
  destruct (proj1 (C72_well_formed (fun _ => true) coins pos t _ W)) as (l & E & G). rewrite RM in E.
  exists l. split; [exact E|]. rewrite G. clear. induction n as [|n IH]; [reflexivity|].
  cbn [repeat flat_map]. rewrite app_length, IH. change (length (file_blobs blob_file)) with 2%nat. lia.
Qed.
Print Assumptions C72_blob_refuted.

(** Nor is the buffer of the names, if the file ends within the number of their
    characters. *)
Theorem C72_buffer_refuted : forall coins pos,
  exists l, read_and_free (fun _ => true) (skip_map coins pos) [(0, Some ([x05], TailEof))] no_memory = (Ok tt, l) /\
    live l = [BChars 5].
Proof. intros. eexists. split; vm_compute; reflexivity. Qed.
Print Assumptions C72_buffer_refuted.

(** The hypotheses of the theorems above. *)
Example C72_case : file_blobs blob_file = [BBlob 3; BBlob 1].
Proof. reflexivity. Qed.
Example C72_case_no_blob : no_blob_file (fun _ => true) (whole TailEof int_file) /\ no_blob_file (fun _ => true) (0, None).
Proof.
  split; [|exact I]. apply no_blob_header.
  - split; [|split]; [|vm_compute; reflexivity|reflexivity]. repeat constructor; intro H; cbn in H; intuition discriminate.
  - split; [|split]; [|vm_compute; reflexivity|reflexivity]. repeat constructor; try (vm_compute; reflexivity); discriminate.
  - repeat constructor. discriminate.
Qed.
(** A rejected file: an undefined tag after a variable. *)
Example C72_case_rejected : forall coins pos t,
  exists l, read_and_free (fun _ => true) (skip_map coins pos)
    [(0, Some (enc_header (f_names int_file) (f_types int_file) ++ [x09], t)); (0, None)] no_memory = (Ok tt, l) /\ live l = [].
Proof. intros coins pos [] ; eexists; split; vm_compute; reflexivity. Qed.

(** A file that ends within a blob: the blob of the point before it and its own. *)
Definition cut_blob : list byte := x02 :: le_bytes 4 0 ++ le_bytes 4 0 ++ le_bytes 4 5 ++ [x61; x62].
Definition cut_blob_file : list byte :=
  enc_header (f_names blob_file) (f_types blob_file) ++
  enc_points (f_types blob_file) [[EStmt 1; EVar 0 0 [x61; x00; x62]]] ++ enc_entries (f_types blob_file) [EStmt 2] ++ cut_blob.
Example C72_case_cut_blob : forall coins pos t,
  (exists e, read_trace (fun _ => true) (skip_map coins pos) 0 (open_stream cut_blob_file t) = Throw e) /\
  (forall e q, entry_wf (fun _ => true) (f_names blob_file) (f_types blob_file) e -> cut_blob <> enc_entry (f_types blob_file) e ++ q) /\
  exists l, read_and_free (fun _ => true) (skip_map coins pos) [(0, Some (cut_blob_file, t))] no_memory = (Ok tt, l) /\
    live l = [BBlob 3; BBlob 5].
Proof.
  intros coins pos t. split; [destruct t; eexists; vm_compute; reflexivity|]. split.
  - intros e q W E. destruct e as [id|nm ty data|a s|a]; try discriminate E. unfold cut_blob in E. cbn [enc_entry app] in E.
    apply (f_equal (@tl byte)) in E. cbn [tl] in E. rewrite <- ?app_assoc in E. destruct W as (W1 & W2 & _ & d & D & WD).
    apply word_same in E; [|vm_compute; reflexivity|exact W1]. destruct E as [<- E].
    apply word_same in E; [|vm_compute; reflexivity|exact W2]. destruct E as [<- E].
    injection D as <-. destruct WD as [[[_ L]|[Z _]] _]; [|destruct Z; reflexivity].
    change (is_var_blob (f_types blob_file) 0) with true in E. cbv iota in E.
    apply word_same in E; [|vm_compute; reflexivity|exact L]. destruct E as [L5 E].
    apply (f_equal (@lenN byte)) in E. rewrite lenN_app, <- L5 in E. change (lenN [x61; x62]) with 2 in E. lia.
  - destruct t; eexists; split; vm_compute; reflexivity.
Qed.
