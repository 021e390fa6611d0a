From Verif Require Import BaseProofs Types Stream SkipList MemMapSpec Reader FormatSpec ReaderProofs ReaderMore ReaderProps Ledger LedgerSpec LedgerUnique Need.

Lemma total_app : forall a b, total (a ++ b) = total a + total b.
Proof. induction a; intros; cbn [total app]; [reflexivity|]. rewrite IHa. lia. Qed.

Lemma lenN_in_concat : forall A (l : list (list A)) x, In x l -> lenN x <= lenN (concat l).
Proof. induction l as [|y l IH]; intros x I; [destruct I|]. destruct I as [->|I]; cbn [concat]; rewrite lenN_app; [lia|]. specialize (IH _ I). lia. Qed.

Lemma enc_types_len : forall types, lenN (enc_types types) = 4 + 12 * lenN types.
Proof.
  intros. unfold enc_types. rewrite lenN_app, lenN_le_bytes. f_equal. induction types as [|t l IH]; [reflexivity|].
  cbn [map concat]. rewrite lenN_app, lenN_enc_type, IH, lenN_cons. lia.
Qed.
Lemma enc_names_len : forall names, lenN (enc_names names) = 8 + lenN (name_chars names).
Proof. intros. unfold enc_names. rewrite lenN_app, lenN_le_bytes. reflexivity. Qed.
Lemma enc_header_len : forall names types, lenN (enc_header names types) = 12 + lenN (name_chars names) + 12 * lenN types.
Proof. intros. unfold enc_header. rewrite lenN_app, enc_names_len, enc_types_len. lia. Qed.

(** Well-formedness needs only the blocks that have their place in the file. *)
Lemma names_need : forall ok ok' k names, delivers ok' k -> lenN (name_chars names) <= k -> names_wf ok names -> names_wf ok' names.
Proof. intros ok ok' k names D L (A & B & _). split; [exact A|]. split; [exact B|]. intros _. apply D, L. Qed.
Lemma types_need : forall ok ok' k types, delivers ok' k -> 12 * lenN types <= k -> types_wf ok types -> types_wf ok' types.
Proof. intros ok ok' k types D L (A & B & _). split; [exact A|]. split; [exact B|]. intros _. apply D, L. Qed.
Lemma entry_data_len : forall types nm ty data, lenN data <= lenN (enc_entry types (EVar nm ty data)).
Proof. intros. cbn [enc_entry]. rewrite lenN_cons, !lenN_app. lia. Qed.
Lemma entry_need : forall ok ok' k names types e, delivers ok' k -> lenN (enc_entry types e) <= k ->
  entry_wf ok names types e -> entry_wf ok' names types e.
Proof.
  intros ok ok' k names types [id|nm ty data|a s|a] D L W; try exact W.
  pose proof (entry_data_len types nm ty data). destruct W as (A & B & C & t & E & W). split; [exact A|]. split; [exact B|]. split; [exact C|].
  exists t. split; [exact E|]. unfold data_wf in *. destruct (t_fmt t); try exact W.
  destruct W as [W _]. split; [exact W|]. intros _. apply D. lia.
Qed.
Lemma entries_need : forall ok ok' k names types es, delivers ok' k -> lenN (enc_entries types es) <= k ->
  Forall (entry_wf ok names types) es -> Forall (entry_wf ok' names types) es.
Proof.
  intros ok ok' k names types es D L W. apply Forall_forall. intros e I. apply (entry_need ok ok' k); [exact D| |].
  - etransitivity; [|exact L]. apply lenN_in_concat, in_map, I.
  - rewrite Forall_forall in W. apply W, I.
Qed.
Lemma points_need : forall ok ok' k names types pts, delivers ok' k -> lenN (enc_points types pts) <= k ->
  Forall (Forall (entry_wf ok names types)) pts -> Forall (Forall (entry_wf ok' names types)) pts.
Proof.
  intros ok ok' k names types pts D L W. apply Forall_forall. intros es I. apply (entries_need ok ok' k); [exact D| |].
  - etransitivity; [|exact L]. etransitivity; [|apply lenN_in_concat, in_map, I]. unfold enc_point. rewrite lenN_app. lia.
  - rewrite Forall_forall in W. apply W, I.
Qed.
Lemma file_need : forall ok ok' k F, delivers ok' k -> lenN (enc_file F) <= k -> file_wf ok F -> file_wf ok' F.
Proof.
  intros ok ok' k F D L (A & B & C & S). unfold enc_file in L. rewrite lenN_app, enc_header_len in L.
  split; [apply (names_need ok ok' k); [exact D|lia|exact A]|]. split; [apply (types_need ok ok' k); [exact D|lia|exact B]|].
  split; [apply (points_need ok ok' k); [exact D|lia|exact C]|]. exact S.
Qed.

Lemma missing_len : forall part missing x, part ++ missing = le_bytes 4 x -> lenN missing <= 4.
Proof. intros part missing x E. assert (lenN (part ++ missing) = 4) by (rewrite E; apply lenN_le_bytes). rewrite lenN_app in H. lia. Qed.

Lemma accepted_need : forall ok ok' max bs tr, delivers ok' (lenN bs) -> accepted ok max bs tr -> accepted ok' max bs tr.
Proof.
  intros ok ok' max bs tr D A. destruct A.
  - subst bs. rewrite lenN_app in D. eapply acc_all; try eassumption.
    + eapply file_need; [exact D|lia|eassumption].
    + eapply entries_need; [exact D|lia|eassumption].
    + reflexivity.
  - subst bs. rewrite lenN_app in D. eapply acc_max; try eassumption; [|reflexivity]. eapply file_need; [exact D|lia|eassumption].
  - subst bs. rewrite lenN_app, enc_names_len in D. eapply acc_cut_count; try eassumption; [|reflexivity]. eapply names_need; [exact D|lia|eassumption].
  - pose proof (missing_len _ _ _ H1). assert (L : lenN (bs ++ missing) = lenN (enc_header names (types ++ [t]))) by now rewrite H3.
    rewrite lenN_app, enc_header_len in L.
    eapply acc_cut_size; try eassumption; [eapply names_need|eapply types_need]; try eassumption; lia.
Qed.

(** ** The weight of a trace *)
Lemma var_weight : forall types h nm ty data v, var_of types h nm ty data v -> 9 + v_size v <= lenN (enc_entry types (EVar nm ty data)).
Proof.
  intros types h nm ty data v (_ & _ & E & _). rewrite E. cbn [enc_entry]. rewrite lenN_cons, !lenN_app, !lenN_le_bytes.
  change (N.of_nat 4) with 4. lia.
Qed.
Lemma vars_weight : forall types h es vs, vars_of types h es vs ->
  17 * lenN (records es) + 9 * lenN (aux_of es) + total (map (fun v => 9 + v_size v) vs) <= lenN (enc_entries types es).
Proof.
  intros types h es vs V. induction V as [h|h nm ty data es v vs HV _ IH|h a s es vs _ IH|h id es vs _ IH|h a es vs _ IH].
  - cbn. lia.
  - pose proof (var_weight _ _ _ _ _ _ HV). unfold enc_entries in *. cbn [records aux_of map concat total]. rewrite lenN_app. lia.
  - unfold enc_entries in *. cbn [records aux_of map concat total enc_entry]. rewrite lenN_app, !lenN_cons, lenN_app, !lenN_le_bytes. change (N.of_nat 8) with 8. lia.
  - unfold enc_entries in *. cbn [records aux_of map concat total enc_entry]. rewrite lenN_app. lia.
  - unfold enc_entries in *. cbn [records aux_of map concat total enc_entry]. rewrite lenN_app, !lenN_cons, !lenN_le_bytes. change (N.of_nat 8) with 8. lia.
Qed.
Lemma points_weight : forall types i h pts ps, points_of types i h pts ps -> total (map point_weight ps) <= lenN (enc_points types pts).
Proof.
  intros types i h pts ps P. induction P as [|i h es p pts ps (_ & _ & S & V & A) _ IH]; [cbn; lia|].
  pose proof (vars_weight _ _ _ _ V). unfold enc_points in *. cbn [map concat total]. rewrite lenN_app. unfold enc_point at 1. rewrite lenN_app.
  unfold point_weight at 1. rewrite S, A, lenN_map. change (lenN [x00]) with 1. lia.
Qed.
Lemma weight_lemma : forall ok max bs tr, accepted ok max bs tr -> weight tr <= lenN bs.
Proof.
  intros ok max bs tr A. destruct A.
  - destruct H4 as (E1 & E2 & P). apply points_weight in P. subst bs. unfold weight. rewrite E1, E2, lenN_app. unfold enc_file. rewrite lenN_app, enc_header_len. lia.
  - destruct H3 as (E1 & E2 & P). apply points_weight in P. subst bs. unfold weight. rewrite E1, E2, lenN_app. unfold enc_file. rewrite lenN_app, enc_header_len. lia.
  - subst. unfold weight. cbn [tr_names tr_types tr_points map total]. rewrite lenN_app, enc_names_len. change (lenN []) with 0. lia.
  - pose proof (missing_len _ _ _ H1). assert (L : lenN (bs ++ missing) = lenN (enc_header names (types ++ [t]))) by now rewrite H3.
    rewrite lenN_app, enc_header_len in L. subst tr. unfold weight. cbn [tr_names tr_types tr_points map total]. rewrite lenN_app in *. change (lenN [t]) with 1 in L.
    match goal with |- context [lenN [?x]] => change (lenN [x]) with 1 end. lia.
Qed.

(** ** What remains *)
Lemma bytes_app : forall a b, bytes_of (a ++ b) = bytes_of a + bytes_of b.
Proof. intros. unfold bytes_of. rewrite map_app. apply total_app. Qed.
Lemma entry_blobs_bytes : forall types e, bytes_of (entry_blobs types e) <= lenN (enc_entry types e).
Proof.
  intros types [id|nm ty data|a s|a]; try (cbn; lia). pose proof (entry_data_len types nm ty data). unfold entry_blobs.
  destruct (nthN types ty) as [t|]; [|cbn [bytes_of map total]; lia]. destruct (t_fmt t); unfold bytes_of; cbn [map total block_bytes]; lia.
Qed.
Lemma entries_blobs_bytes : forall types es, bytes_of (flat_map (entry_blobs types) es) <= lenN (enc_entries types es).
Proof.
  induction es as [|e es IH]; [cbn; lia|]. unfold enc_entries in *. cbn [flat_map map concat]. rewrite bytes_app, lenN_app.
  pose proof (entry_blobs_bytes types e). lia.
Qed.
Lemma points_blobs_bytes : forall types pts, bytes_of (flat_map (entry_blobs types) (concat pts)) <= lenN (enc_points types pts).
Proof.
  induction pts as [|es pts IH]; [cbn; lia|]. unfold enc_points in *. cbn [map concat]. rewrite flat_map_app, bytes_app, lenN_app.
  pose proof (entries_blobs_bytes types es). unfold enc_point at 1. rewrite lenN_app. lia.
Qed.
Lemma leak_bytes : forall ok M f b, accepted_file ok M f -> leak ok M (fst f) (snd f) b -> bytes_of b <= file_size f.
Proof.
  intros ok M [max src] b A L. cbn [fst snd] in *. unfold accepted_file, file_size in *. cbn [fst snd] in *. destruct L.
  - cbn. lia.
  - rewrite flat_map_app, bytes_app, lenN_app. unfold enc_file. rewrite lenN_app.
    pose proof (points_blobs_bytes (f_types F) (f_points F)). pose proof (entries_blobs_bytes (f_types F) es). lia.
  - unfold enc_file. rewrite !lenN_app. pose proof (points_blobs_bytes (f_types F) (f_points F)). lia.
  - change (bytes_of []) with 0. lia.
  - change (bytes_of []) with 0. lia.
  - destruct A as (tr & E). rewrite E in H. discriminate H.
Qed.
Lemma leaks_bytes : forall ok M files leaks, Forall (accepted_file ok M) files ->
  Forall2 (fun f b => leak ok M (fst f) (snd f) b) files leaks -> bytes_of (concat leaks) <= total (map file_size files).
Proof.
  intros ok M files leaks A L. induction L as [|f b files leaks H _ IH]; [cbn; lia|].
  cbn [concat map total]. rewrite bytes_app. pose proof (leak_bytes _ _ _ _ (Forall_inv A) H). specialize (IH (Forall_inv_tail A)). lia.
Qed.
Lemma accepted_defined : forall ok M files, Forall (accepted_file ok M) files -> Forall (defined ok M) files.
Proof.
  intros ok M files A. apply Forall_forall. intros [max [[bs t]|]] I; [|exact Logic.I]. rewrite Forall_forall in A. destruct (A _ I) as (tr & E).
  intros k X. cbn [fst] in E. rewrite E in X. discriminate X.
Qed.
