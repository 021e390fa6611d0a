(** Property C94: a trace file written as the manual says is read as the trace it
    describes (doc/trace-database-component.texi:34-86, Trace.hpp:51-98).
    [read]: the whole reader on the whole input, see P_Reader.v. *)
From Verif Require Import BaseProofs Types Stream SkipList Reader FormatSpec DocSpec ReaderMore P_Reader.

(** C94.  What the manual says is right but for the widths: with eight bytes for
    the count of characters and the statement id and four for the others, every
    well-formed file is read as described. *)
Theorem C94_wider : forall ok coins pos t F, file_wf ok F ->
  exists tr, read ok coins pos t 0 (doc_file (mkW 8 4 8 4 4) F) = Ok tr /\ denotes F tr.
Proof.
  intros ok coins pos t F W. destruct (C06_reader_complete ok coins pos t F W) as (tr & R & D & _). exists tr. split; [|exact D].
  rewrite <- R. f_equal. f_equal. unfold doc_file, enc_file, enc_header, enc_names, enc_types. rewrite <- !app_assoc. reflexivity.
Qed.
Print Assumptions C94_wider.

Lemma le_val_ge l b r : le_val (l ++ b :: r) >= two8 ^ lenN l * N_of_byte b.
Proof. rewrite le_val_app. cbn [le_val]. nia. Qed.

(** A file of fewer bytes than its first eight bytes say is not read. *)
Lemma read_short ok coins pos t max l b r : lenN l < 8 -> N_of_byte b <> 0 -> lenN (l ++ b :: r) <= two8 ^ lenN l ->
  forall tr, read ok coins pos t max (l ++ b :: r) <> Ok tr.
Proof.
  intros L B Hs tr E. unfold read_trace, read_names, read_word, binary_read_into, binary_read in E.
  cbn [open_stream good s_eof s_fail negb andb bind] in E. unfold s_read in E. cbn [s_rest s_tail open_stream] in E.
  change (lenN (le_bytes 8 0)) with 8 in E.
  assert (T : exists r', takeN 8 (l ++ b :: r) = l ++ b :: r').
  { clear E. exists (takeN (7 - lenN l) r). rewrite !takeN_firstn. unfold lenN in *. rewrite firstn_app, firstn_all2 by lia. f_equal.
    replace (N.to_nat 8 - length l)%nat with (S (N.to_nat (7 - N.of_nat (length l)))) by lia. reflexivity. }
  destruct T as (r' & T). 
  set (d := takeN 8 (l ++ b :: r)) in *. cbn [open_stream s_eof s_fail] in E.
  assert (V : two8 ^ lenN l <= le_val (d ++ dropN (lenN d) (le_bytes 8 0))).
  { rewrite T, <- app_assoc. cbn [app]. pose proof (le_val_ge l b (r' ++ dropN (lenN (l ++ b :: r')) (le_bytes 8 0))) as G. nia. }
  set (n := le_val (d ++ dropN (lenN d) (le_bytes 8 0))) in *.
  assert (P : 0 <? n = true) by (apply N.ltb_lt; pose proof (N.pow_nonzero two8 (lenN l)); unfold two8 in *; lia).
  destruct (lenN d <? 8) eqn:D; (cbn [bind] in E; fold n in E; try rewrite P in E); destruct (ok n); try discriminate E; unfold binary_read in E; cbn [good s_eof s_fail negb andb bind] in E.
  - destruct t; cbn in E; discriminate E.
  - unfold s_read in E. cbn [s_rest s_tail s_eof s_fail] in E.
    assert (X : lenN (takeN n (dropN 8 (l ++ b :: r))) <? n = true).
    { apply N.ltb_lt. rewrite lenN_takeN, lenN_dropN. apply N.ltb_ge in D. lia. }
    rewrite X in E. cbn [bind] in E. rewrite X in E. discriminate E.
Qed.

(** Expected: with the widths of the manual, too.  False for every such file with
    a first name that is not empty, whatever the width of an index, unless the file
    is larger than 64 kB (for a name of one character) to 64 PB (for six or more):
    the reader takes the name for a part of the count. *)
Theorem C94_manual_refuted : forall ok coins pos t max index F n ns,
  f_names F = n :: ns -> n <> [] -> nul_free n ->
  lenN (doc_file (manual index) F) <= 2 ^ (8 * (N.min 6 (lenN n) + 1)) ->
  forall tr, read ok coins pos t max (doc_file (manual index) F) <> Ok tr.
Proof.
  intros ok coins pos t max ix F n ns E Hn Nf.
  assert (K : exists l b r, doc_file (manual ix) F = l ++ b :: r /\ lenN l = N.min 6 (lenN n) + 1 /\ N_of_byte b <> 0).
  { assert (Hk : exists a b c, n = a ++ b :: c /\ lenN a = N.min 6 (lenN n) - 1).
    { destruct (skipn (N.to_nat (N.min 6 (lenN n) - 1)) n) as [|b c] eqn:Sk.
      - exfalso. apply (f_equal (@length byte)) in Sk. rewrite skipn_length in Sk. unfold lenN in Sk. destruct n; [congruence|]. cbn [length] in Sk. lia.
      - exists (firstn (N.to_nat (N.min 6 (lenN n) - 1)) n), b, c. split; [rewrite <- Sk; symmetry; apply firstn_skipn|].
        unfold lenN. rewrite firstn_length. unfold lenN. lia. }
    destruct Hk as (a & b & c & En & La). unfold doc_file. rewrite E. generalize (lenN (name_chars (n :: ns))) as c0. intros c0. unfold name_chars. cbn [map concat]. rewrite En.
    eexists (le_bytes 2 _ ++ a), b, _. split; [|split].
    - cbn [w_chars manual]. rewrite <- !app_assoc. cbn [app]. reflexivity.
    - rewrite lenN_app, La. change (lenN (le_bytes 2 c0)) with 2. rewrite <- En. destruct n; [congruence|]. rewrite lenN_cons. lia.
    - intros Z. apply Nf. rewrite En. apply in_or_app. right. left. destruct b; try discriminate Z; reflexivity. }
  destruct K as (l & b & r & -> & L & B). intros S. apply read_short; [lia|exact B|].
  rewrite L. unfold two8. replace 256 with (2 ^ 8) by reflexivity. rewrite <- N.pow_mul_r. exact S.
Qed.
Print Assumptions C94_manual_refuted.

(** The file of P_Reader.v (first name x) in both forms. *)
Example C94_hyps : f_names ex_file = [x78] :: tl (f_names ex_file) /\ nul_free [x78] /\
  lenN (doc_file (manual 4) ex_file) <= 2 ^ (8 * (N.min 6 (lenN [x78]) + 1)) /\ file_wf (fun _ => true) ex_file.
Proof. split; [reflexivity|]. split; [intros [H|[]]; discriminate H|]. split; [vm_compute; discriminate|exact ex_file_wf]. Qed.
Example C94_ex : lenN (doc_file (manual 4) ex_file) = 204 /\ lenN (doc_file (mkW 8 4 8 4 4) ex_file) = 226.
Proof. vm_compute. split; reflexivity. Qed.
