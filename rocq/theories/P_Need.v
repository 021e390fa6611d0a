(** Property C103: reading a trace takes no more memory than the size of the file
    suggests.

    [delivers ok k]: the allocator delivers every block of at most [k] bytes.
    [weight tr]: the bytes that the contents of a trace take in a file.  [read] is the
    reader of P_Reader.v, with the real skip list as memory map. *)
From Verif Require Import BaseProofs Types Stream SkipList MemMapSpec Reader FormatSpec FormatUB ReaderMore ReaderProps Ledger LedgerSpec P_Reader P_Ledger Need NeedProofs.

(** Whether a file is accepted, and the trace that is read, do not depend on how much
    memory there is, provided that blocks as large as the file can be had. *)
Theorem C103_enough : forall ok coins pos t max bs tr, delivers ok (lenN bs) ->
  (read ok coins pos t max bs = Ok tr <-> read unlimited coins pos t max bs = Ok tr).
Proof.
  intros ok coins pos t max bs tr D. rewrite !C07_reader_exact. split.
  - apply accepted_need. intros n _. reflexivity.
  - apply accepted_need. exact D.
Qed.
Print Assumptions C103_enough.

(** A trace that was read holds no more than the file. *)
Theorem C103_size : forall ok coins pos t max bs tr,
  read ok coins pos t max bs = Ok tr -> weight tr <= lenN bs.
Proof. intros ok coins pos t max bs tr E. apply C07_reader_exact in E. exact (weight_lemma _ _ _ _ E). Qed.
Print Assumptions C103_size.

(** What remains after files that can be read were read and freed (C72) is not larger
    than the files. *)
Theorem C103_remains : forall ok coins pos files, Forall (accepted_file ok (skip_map coins pos)) files ->
  (exists l, read_and_free ok (skip_map coins pos) files no_memory = (Ok tt, l) /\
     bytes_of (live l) <= total (map file_size files)) /\
  (exists trs l, database_life ok (skip_map coins pos) files no_memory = (Ok trs, l) /\
     bytes_of (live l) <= total (map file_size files)).
Proof.
  intros ok coins pos files A. pose proof (accepted_defined _ _ _ A) as D. split.
  - destruct (C72_exact ok coins pos files D) as (l & leaks & E & L & G). exists l. split; [exact E|]. rewrite G. exact (leaks_bytes _ _ _ _ A L).
  - destruct (C72_database ok coins pos files D) as (l & leaks & E & L & G). eexists _, l. split; [exact E|]. rewrite G. exact (leaks_bytes _ _ _ _ A L).
Qed.
Print Assumptions C103_remains.

(** Files that are rejected can demand any amount.  Eight bytes make the reader ask for
    2^64-1 bytes, ... *)
Lemma too_large : forall k n, k < n -> up_to k n = false.
Proof. intros. apply N.leb_gt. assumption. Qed.

Ltac run_word n := match goal with |- context [read_word n 0 ?s] => let x := eval vm_compute in (read_word n 0 s) in change (read_word n 0 s) with x end.

Theorem C103_names_refuted : exists bs, lenN bs = 8 /\ forall coins pos t k, k < 2 ^ 64 - 1 ->
  read (up_to k) coins pos t 0 bs = Throw EBadAlloc /\ read unlimited coins pos t 0 bs <> Throw EBadAlloc.
Proof.
  exists (repeat xff 8). split; [reflexivity|]. intros coins pos t k L. apply too_large in L. split.
  - set (ok := up_to k) in *. clearbody ok. rewrite read_trace_transfer. vm_compute in L.
    destruct t; unfold read_trace, read_names; run_word 8%nat; unfold bind; rewrite L; reflexivity.
  - rewrite read_trace_transfer. destruct t; vm_compute; discriminate.
Qed.
Print Assumptions C103_names_refuted.

(** ... twelve bytes for 12 * (2^32-1) bytes, about 51 GB, ... *)
Theorem C103_types_refuted : exists bs, lenN bs = 12 /\ forall coins pos t k, k < 12 * (2 ^ 32 - 1) ->
  read (up_to k) coins pos t 0 bs = Throw EBadAlloc /\ read unlimited coins pos t 0 bs <> Throw EBadAlloc.
Proof.
  exists (repeat x00 8 ++ repeat xff 4). split; [reflexivity|]. intros coins pos t k L. apply too_large in L. split.
  - set (ok := up_to k) in *. clearbody ok. rewrite read_trace_transfer. vm_compute in L.
    destruct t; unfold read_trace;
      (match goal with |- context [read_names ok ?s] => let x := eval vm_compute in (read_names ok s) in change (read_names ok s) with x end);
      unfold bind at 1, read_types; run_word 4%nat; unfold bind at 2; cbv beta iota;
      (match goal with |- context [12 * ?n] => let x := eval vm_compute in (12 * n) in change (12 * n) with x end); rewrite L; reflexivity.
  - rewrite read_trace_transfer. destruct t; vm_compute; discriminate.
Qed.
Print Assumptions C103_types_refuted.

(** ... and a file of 40 bytes for a blob of 2^32-1 bytes.  The program crashes if it is
    refused; if it is not, the file is rejected and the memory is not given back. *)
Definition huge_blob : list byte :=
  enc_header [[x73]] [mkT 0 BLOB 0] ++ x02 :: le_bytes 4 0 ++ le_bytes 4 0 ++ le_bytes 4 (2 ^ 32 - 1) ++ [x61].
Theorem C103_blob_refuted : lenN huge_blob = 40 /\ forall coins pos,
  (forall t k, 40 <= k < 2 ^ 32 - 1 -> read (up_to k) coins pos t 0 huge_blob = UB UNull) /\
  exists e l, read unlimited coins pos TailEof 0 huge_blob = Throw e /\
    read_and_free unlimited (skip_map coins pos) [(0, Some (huge_blob, TailEof))] no_memory = (Ok tt, l) /\
    bytes_of (live l) = 2 ^ 32 - 1.
Proof.
  split; [reflexivity|]. intros coins pos. split.
  - intros t k [L0 L]. apply too_large in L. apply C13_undefined_exactly.
    apply (ubf_entry _ _ _ _ (mkF [[x73]] [mkT 0 BLOB 0] []) [] (x02 :: le_bytes 4 0 ++ le_bytes 4 0 ++ le_bytes 4 (2 ^ 32 - 1) ++ [x61])).
    + split; [|split; [|split]].
      * split; [|split]; [|reflexivity|intros _; apply N.leb_le; change (2 <= k); lia]. repeat constructor. intros [X|[]]. discriminate X.
      * split; [|split]; [|reflexivity|intros _; apply N.leb_le; change (12 <= k); lia]. repeat constructor; discriminate.
      * constructor.
      * intros pre post X. destruct pre; [vm_compute; lia|discriminate X].
    + constructor.
    + intros pre post X. destruct pre; [vm_compute; lia|discriminate X].
    + reflexivity.
    + left. reflexivity.
    + eapply (ub_null _ _ _ _ _ 0 0 (mkT 0 BLOB 0) _ (2 ^ 32 - 1) [x61]); try reflexivity; [|discriminate|exact L|discriminate].
      right. split; [reflexivity|]. split; [reflexivity|]. reflexivity.
  - eexists _, _. split; [rewrite read_trace_transfer; vm_compute; reflexivity|]. split; vm_compute; reflexivity.
Qed.
Print Assumptions C103_blob_refuted.

(** The hypotheses of the theorems above. *)
Example C103_case : delivers (up_to 1000) (lenN (enc_file ex_file)) /\ weight ex_trace = 183 /\ lenN (enc_file ex_file) = 226.
Proof. split; [|split; reflexivity]. intros n L. apply N.leb_le. change (n <= 226) in L. lia. Qed.
Example C103_case_blob : forall coins pos, accepted_file unlimited (skip_map coins pos) (whole TailEof blob_file) /\
  exists l, read_and_free unlimited (skip_map coins pos) [whole TailEof blob_file] no_memory = (Ok tt, l) /\ bytes_of (live l) = 4.
Proof.
  intros. split.
  - destruct (complete_lemma unlimited coins pos TailEof blob_file blob_file_wf) as (tr & E & _). exists tr. exact E.
  - destruct (proj1 (C72_well_formed unlimited coins pos TailEof [blob_file] (Forall_cons _ blob_file_wf (Forall_nil _)))) as (l & E & G).
    exists l. split; [exact E|]. rewrite G. reflexivity.
Qed.
