(** The blocks that a file leaves are determined by the file. *)
From Verif Require Import BaseProofs Types Stream SkipList AMap MemMapSpec MemMapProofs MemMapMore Reader FormatSpec FormatUB.
From Verif Require Import ReaderProofs ReaderProofs2 ReaderProofs3 ReaderMore ReaderProps Ledger LedgerSpec LedgerProofs LedgerProofs2 LedgerProofs3.

(** ** One way to divide bytes into entries *)
Lemma word_same n x y r r' : x < two8 ^ N.of_nat n -> y < two8 ^ N.of_nat n ->
  le_bytes n x ++ r = le_bytes n y ++ r' -> x = y /\ r = r'.
Proof.
  intros X Y E. pose proof (read_word_app n 0 x r TailEof X) as A. rewrite E, read_word_app in A by exact Y.
  injection A as -> A. auto.
Qed.
Lemma data_same (a b r r' : list byte) : lenN a = lenN b -> a ++ r = b ++ r' -> a = b /\ r = r'.
Proof.
  intros L E. split; [apply (f_equal (takeN (lenN a))) in E|apply (f_equal (dropN (lenN a))) in E].
  - rewrite takeN_app, L, takeN_app in E by reflexivity. exact E.
  - rewrite dropN_app, L, dropN_app in E by reflexivity. exact E.
Qed.
Section E.
Variables (ok : alloc) (names : list name) (types : list tdesc).
Notation ewf := (entry_wf ok names types).

Lemma entry_same e e' q q' : ewf e -> ewf e' -> enc_entry types e ++ q = enc_entry types e' ++ q' -> e = e' /\ q = q'.
Proof.
  destruct e as [id|nm ty data|a s|a], e' as [id'|nm' ty' data'|a' s'|a']; cbn [enc_entry app entry_wf]; intros W W' E;
    try discriminate E; apply (f_equal (@tl byte)) in E; cbn [tl] in E; rewrite <- ?app_assoc in E.
  - apply word_same in E; [|exact W|exact W']. destruct E as [-> ->]. auto.
  - destruct W as (W1 & W2 & _ & d & D & WD), W' as (W1' & W2' & _ & d' & D' & WD').
    apply word_same in E; [|exact W1|exact W1']. destruct E as [-> E].
    apply word_same in E; [|exact W2|exact W2']. destruct E as [-> E].
    rewrite D in D'. injection D' as <-.
    unfold is_var_blob in E. rewrite D in E. unfold data_wf in WD, WD'.
    assert (X : lenN data = lenN data' /\ data ++ q = data' ++ q').
    { destruct d as [dn [] dz]; cbn [t_fmt t_size app] in WD, WD', E; try contradiction; try (split; [destruct WD, WD'; congruence|exact E]).
      destruct WD as [[[Z L]|[Z L]] _], WD' as [[[Z' L']|[Z' L']] _]; try contradiction.
      - subst dz. apply word_same in E; [exact E|exact L|exact L'].
      - destruct dz; [contradiction|]. split; [congruence|exact E]. }
    destruct X as [L X]. apply data_same in X; [|exact L]. destruct X as [-> ->]. auto.
  - destruct W as [W1 W2], W' as [W1' W2']. apply word_same in E; [|exact W1|exact W1']. destruct E as [-> E].
    apply word_same in E; [|exact W2|exact W2']. destruct E as [-> ->]. auto.
  - apply word_same in E; [|exact W|exact W']. destruct E as [-> ->]. auto.
Qed.
Lemma entry_head e q : enc_entry types e ++ q <> [] /\ forall q', enc_entry types e ++ q <> x00 :: q'.
Proof. destruct e; split; discriminate. Qed.

Definition stops (r : list byte) : Prop := forall e q, ewf e -> r <> enc_entry types e ++ q.
Lemma entries_same es : forall es' r r', Forall ewf es -> Forall ewf es' -> stops r -> stops r' ->
  enc_entries types es ++ r = enc_entries types es' ++ r' -> es = es' /\ r = r'.
Proof.
  unfold enc_entries. induction es as [|e es IH]; intros es' r r' W W' S S' E; destruct es' as [|e' es']; cbn [map concat app] in E; rewrite <- ?app_assoc in E.
  - auto.
  - destruct (S _ _ (Forall_inv W') E).
  - destruct (S' _ _ (Forall_inv W) (eq_sym E)).
  - apply entry_same in E; [|exact (Forall_inv W)|exact (Forall_inv W')]. destruct E as [-> E].
    apply IH in E; [|exact (Forall_inv_tail W)|exact (Forall_inv_tail W')|assumption|assumption]. destruct E as [-> ->]. auto.
Qed.
Lemma stops_end q : stops (x00 :: q).
Proof. intros e q' _ E. exact (proj2 (entry_head e q') q (eq_sym E)). Qed.

Lemma points_same pts : forall pts' es es' r r', Forall (Forall ewf) pts -> Forall (Forall ewf) pts' -> Forall ewf es -> Forall ewf es' ->
  stops r -> stops r' -> (forall q, r <> x00 :: q) -> (forall q, r' <> x00 :: q) ->
  enc_points types pts ++ enc_entries types es ++ r = enc_points types pts' ++ enc_entries types es' ++ r' ->
  pts = pts' /\ es = es' /\ r = r'.
Proof.
  unfold enc_points, enc_point. induction pts as [|p pts IH]; intros pts' es es' r r' P P' W W' S S' Z Z' E; destruct pts' as [|p' pts']; cbn [map concat app] in E; rewrite <- ?app_assoc in E; cbn [app] in E.
  - apply entries_same in E; auto.
  - apply entries_same in E; [|exact W|exact (Forall_inv P')|exact S|apply stops_end]. destruct E as [_ E]. destruct (Z _ E).
  - apply entries_same in E; [|exact (Forall_inv P)|exact W'|apply stops_end|exact S']. destruct E as [_ E]. destruct (Z' _ (eq_sym E)).
  - apply entries_same in E; [|exact (Forall_inv P)|exact (Forall_inv P')|apply stops_end|apply stops_end]. destruct E as [-> E]. injection E as E.
    apply IH in E; [|exact (Forall_inv_tail P)|exact (Forall_inv_tail P')|assumption..]. destruct E as (-> & -> & ->). auto.
Qed.
End E.

(** ** One way to leave blocks *)
Section U.
Variables (ok : alloc) (coins : nat -> bool) (pos : nat).
Notation SM := (skip_map coins pos).

Lemma blobs_of_ok t max bs b e : blobs_of ok t max bs = Ok b -> read_trace ok SM max (open_stream bs t) <> Throw e.
Proof.
  unfold blobs_of, read_trace. destruct (read_names ok (open_stream bs t)) as [[names s1]|?|?| |]; cbn [bind]; try discriminate.
  destruct (read_types ok s1) as [[types s2]|?|?| |]; cbn [bind]; try discriminate.
  rewrite points_d_eq, (points_d_transfer ok coins pos _ max 0 names types (mo_new SM) (mo_new abs_map) _ (repr_new pos)).
  destruct (read_points_d _ ok abs_map max 0 names types (mo_new abs_map) s2) as [[[ps vs] s3]|?|?| |]; cbn [bind]; discriminate.
Qed.

(** A header that is cut. *)
Definition cut_header (bs : list byte) : Prop :=
  (exists names k, names_wf ok names /\ (k < 4)%nat /\ bs = enc_names names ++ repeat x00 k) \/
  (exists names types ty part missing, names_wf ok names /\ types_wf ok (types ++ [ty]) /\
     part ++ missing = le_bytes 4 (t_size ty) /\ missing <> [] /\ bs ++ missing = enc_header names (types ++ [ty])).
Lemma enc_names_len names : 8 <= lenN (enc_names names).
Proof. unfold enc_names. rewrite lenN_app, lenN_le_bytes. lia. Qed.
Lemma enc_type_len types : lenN (concat (map enc_type types)) = 12 * lenN types.
Proof. induction types as [|x l IH]; [reflexivity|]. cbn [map concat]. rewrite lenN_app, lenN_enc_type, IH, lenN_cons. lia. Qed.
Lemma enc_types_len types : lenN (enc_types types) = 4 + 12 * lenN types.
Proof. unfold enc_types. rewrite lenN_app, lenN_le_bytes, enc_type_len. lia. Qed.
Lemma cut_no_header bs names types r : cut_header bs -> names_wf ok names -> types_wf ok types -> bs <> enc_header names types ++ r.
Proof.
  intros C N T. unfold enc_header. rewrite <- app_assoc. destruct C as [(names' & k & N' & K & ->)|(names' & types' & ty & part & missing & N' & T' & P & NE & E)].
  - intros E. apply (names_same ok TailEof) in E; [|assumption|assumption]. destruct E as [_ E].
    apply (f_equal (@length byte)) in E. unfold enc_types in E. rewrite !app_length, repeat_length, le_bytes_length in E. lia.
  - intros ->. rewrite <- !app_assoc in E. unfold enc_header in E. apply (names_same ok TailEof) in E; [|assumption|assumption]. destruct E as [_ E].
    assert (Q : lenN types = lenN (types' ++ [ty])).
    { unfold enc_types in E. rewrite <- ?app_assoc in E. apply word_same in E; [apply E|apply T|apply T']. }
    apply (f_equal (@lenN byte)) in E. rewrite !lenN_app, !enc_types_len, Q in E.
    destruct missing; [congruence|]. rewrite lenN_cons in E. lia.
Qed.
Lemma cut_long bs : cut_header bs -> 8 <= lenN bs.
Proof.
  intros [(names' & k & N' & K & ->)|(names' & types' & ty & part & missing & N' & T' & P & NE & E)].
  - rewrite lenN_app. pose proof (enc_names_len names'). lia.
  - apply (f_equal (@lenN byte)) in E, P. unfold enc_header in E. rewrite !lenN_app, enc_types_len in E. rewrite lenN_app, lenN_le_bytes in P.
    pose proof (enc_names_len names'). lia.
Qed.

(** The three kinds of files *)
Lemma leak_kinds max src b : leak ok SM max src b ->
  (src = None /\ b = []) \/
  (exists bs t, src = Some (bs, t) /\
    (((exists names types r, names_wf ok names /\ types_wf ok types /\ bs = enc_header names types ++ r) /\ blobs_of ok t max bs = Ok b) \/
     (cut_header bs /\ b = []) \/
     (exists e, read_trace ok SM max (open_stream bs t) = Throw e) /\
     ((b = [] /\ (forall names types rest, names_wf ok names -> types_wf ok types -> bs <> enc_header names types ++ rest) /\
       ~ (lenN bs < 8 /\ 0 < le_val bs /\ ok (le_val bs) = true)) \/
      (lenN bs < 8 /\ 0 < le_val bs /\ ok (le_val bs) = true /\ b = [BChars (le_val bs)]) \/
      (exists names types pts es r, names_wf ok names /\ types_wf ok types /\
         Forall (Forall (entry_wf ok names types)) pts /\ Forall (entry_wf ok names types) es /\
         bs = enc_header names types ++ enc_points types pts ++ enc_entries types es ++ r /\
         r <> [] /\ (forall q, r <> x00 :: q) /\ (forall e q, entry_wf ok names types e -> r <> enc_entry types e ++ q) /\
         b = flat_map (entry_blobs types) (concat pts ++ es) ++ started_blob ok names types r)))).
Proof.
  intros L. destruct L as [|t F es W E S Lm|t F rest W M0 ML|t names k W K|t bs names types ty part missing W TW P NE BS|t bs e b ER H].
  - left. auto.
  - right. eexists _, t. split; [reflexivity|]. left. split; [|apply blobs_all; assumption].
    destruct W as (HN & HT & _). exists (f_names F), (f_types F). eexists. split; [exact HN|]. split; [exact HT|]. unfold enc_file. rewrite <- app_assoc. reflexivity.
  - right. eexists _, t. split; [reflexivity|]. left. split; [|apply blobs_max; assumption].
    destruct W as (HN & HT & _). exists (f_names F), (f_types F). eexists. split; [exact HN|]. split; [exact HT|]. unfold enc_file. rewrite <- app_assoc. reflexivity.
  - right. eexists _, t. split; [reflexivity|]. right. left. split; [|reflexivity]. left. eauto 8.
  - right. eexists _, t. split; [reflexivity|]. right. left. split; [|reflexivity]. right. exists names, types, ty, part, missing. auto.
  - right. exists bs, t. split; [reflexivity|]. right. right. split; [eauto|exact H].
Qed.

Lemma leak_unique max src b b' : leak ok SM max src b -> leak ok SM max src b' -> b = b'.
Proof.
  intros L L'. apply leak_kinds in L, L'.
  destruct L as [[-> ->]|(bs & t & -> & K)], L' as [[X ->]|(bs' & t' & X & K')]; try discriminate X; [reflexivity|].
  assert (bs' = bs /\ t' = t) as [-> ->] by (split; congruence). clear X.
  destruct K as [[(names & types & r & N & T & H) B]|[[C ->]|[(e & ER) K]]], K' as [[(names' & types' & r' & N' & T' & H') B']|[[C' ->]|[(e' & ER') K']]].
  - congruence.
  - destruct (cut_no_header _ _ _ _ C' N T H).
  - destruct (blobs_of_ok _ _ _ _ _ B ER').
  - destruct (cut_no_header _ _ _ _ C N' T' H').
  - reflexivity.
  - destruct K' as [[-> _]|[(S & _)|(names & types & pts & es & r & N & T & _ & _ & E & _)]]; [reflexivity|apply cut_long in C; lia|].
    destruct (cut_no_header _ _ _ _ C N T E).
  - destruct (blobs_of_ok _ _ _ _ _ B' ER).
  - destruct K as [[-> _]|[(S & _)|(names & types & pts & es & r & N & T & _ & _ & E & _)]]; [reflexivity|apply cut_long in C'; lia|].
    destruct (cut_no_header _ _ _ _ C' N T E).
  - assert (HL : forall names types rest, lenN (enc_header names types ++ rest) < 8 -> False).
    { intros names types rest X. unfold enc_header in X. rewrite !lenN_app in X. pose proof (enc_names_len names). lia. }
    destruct K as [(-> & NH & NS)|[(S & P & A & ->)|(names & types & pts & es & r & N & T & WP & WE & E & R0 & R1 & R2 & ->)]],
      K' as [(-> & NH' & NS')|[(S' & P' & A' & ->)|(names' & types' & pts' & es' & r' & N' & T' & WP' & WE' & E' & R0' & R1' & R2' & ->)]].
    + reflexivity.
    + destruct NS. auto.
    + destruct (NH _ _ _ N' T' E').
    + destruct NS'. auto.
    + reflexivity.
    + exfalso. rewrite E' in S. exact (HL _ _ _ S).
    + destruct (NH' _ _ _ N T E).
    + exfalso. rewrite E in S'. exact (HL _ _ _ S').
    + rewrite E in E'. apply (header_same ok t) in E'; [|assumption..]. destruct E' as (<- & <- & E').
      apply (points_same ok names types) in E'; auto. destruct E' as (<- & <- & <-). reflexivity.
Qed.
End U.
