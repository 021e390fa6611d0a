(** Proofs about text at the foreign interface: strings stored and fetched. *)
From Coq Require Import Strings.String.
From Verif Require Import Base BaseProofs Types Compare Predicate Query CApi CApiSpec Lisp LispSpec LispProofs LispProofs2 Ffi FfiText FfiTextSpec FfiTextProofs.
Local Open Scope N_scope.

Lemma good_bytes : forall p, good_spoint p -> good_lpoint (bytes_point p).
Proof.
  intros p (H1 & H2 & H3). split; [exact H1|]. split; [|exact H3]. cbn [bytes_point lp_scopes].
  apply Forall_map. eapply Forall_impl; [|exact H2]. intros v (V1 & V2 & (z & V3 & V4) & V5).
  split; [now apply utf8_nul|]. split; [now apply utf8_nul|]. split; [exists z; cbn [bytes_var lv_value]; rewrite V3; split; [reflexivity|exact V4]|exact V5].
Qed.
Lemma names_text : forall ps, Forall good_spoint ps ->
  Forall c_text (flat_map (fun p => flat_map (fun v => [sv_name v; sv_type v]) (sp_scopes p)) ps).
Proof.
  intros ps H. apply Forall_forall. intros s Hs. apply in_flat_map in Hs. destruct Hs as (p & Hp & Hs).
  apply in_flat_map in Hs. destruct Hs as (v & Hv & Hs). rewrite Forall_forall in H. destruct (H p Hp) as (_ & H2 & _).
  rewrite Forall_forall in H2. destruct (H2 v Hv) as (V1 & V2 & _). destruct Hs as [<-|[<-|[]]]; assumption.
Qed.
Lemma names_bytes : forall ps, Forall good_spoint ps -> names_of (map bytes_point ps) = map utf8 (text_names ps).
Proof.
  intros ps H. unfold names_of, text_names. rewrite <- duplicates_utf8.
  - f_equal. clear H. induction ps as [|p ps IH]; [reflexivity|]. cbn [map flat_map]. rewrite map_app, IH. f_equal.
    cbn [bytes_point lp_scopes]. clear. induction (sp_scopes p) as [|v l IH]; [reflexivity|]. cbn [map flat_map app].
    now rewrite IH.
  - eapply Forall_impl; [|exact (names_text ps H)]. apply c_text_text.
Qed.
Lemma duplicates_sub : forall A (t : A -> A -> bool) l x, In x (remove_duplicates t l) -> In x l.
Proof.
  induction l as [|y l IH]; intros x H; [destruct H|]. cbn [remove_duplicates] in H.
  destruct (existsb (t y) l); [right; now apply IH|]. destruct H as [<-|H]; [now left|right; now apply IH].
Qed.
Lemma text_names_text : forall ps, Forall good_spoint ps -> Forall c_text (text_names ps).
Proof.
  intros ps H. apply Forall_forall. intros s Hs. apply duplicates_sub in Hs.
  assert (K := names_text ps H). rewrite Forall_forall in K. now apply K.
Qed.
Lemma mapO_names : forall l, Forall c_text l -> mapO text_name (map utf8 l) = Ok l.
Proof.
  induction l as [|s l IH]; intros H; [reflexivity|]. cbn [map mapO].
  replace (text_name (utf8 s)) with (@Ok lstring s).
  - cbn [bind]. rewrite IH by exact (Forall_inv_tail H). reflexivity.
  - symmetry. apply text_name_ok. split; [apply c_text_text; exact (Forall_inv H)|reflexivity].
Qed.
Lemma text_back : forall h ps, Forall good_spoint ps -> mapO (text_point h) (map bytes_point ps) = Ok ps.
Proof.
  assert (N1 : forall s, c_text s -> text_name (utf8 s) = Ok s).
  { intros s Hs. apply text_name_ok. split; [now apply c_text_text|reflexivity]. }
  intros h. induction ps as [|p ps IH]; intros H; [reflexivity|]. cbn [map mapO].
  destruct (Forall_inv H) as (_ & H2 & _).
  assert (E : mapO (text_var h) (map bytes_var (sp_scopes p)) = Ok (sp_scopes p)).
  { clear - H2 N1. induction (sp_scopes p) as [|v l IH]; [reflexivity|]. cbn [map mapO].
    destruct (Forall_inv H2) as (V1 & V2 & (z & V3 & V4) & V5). rewrite IH by exact (Forall_inv_tail H2).
    unfold text_var. cbn [bytes_var lv_value lv_name lv_type lv_size]. rewrite V3. cbn [bytes_value text_value bind].
    rewrite !N1 by assumption. cbn [bind]. rewrite <- V3. destruct v; reflexivity. }
  unfold text_point at 1. cbn [bytes_point lp_scopes lp_c lp_f lp_aux]. rewrite E. cbn [bind].
  rewrite IH by exact (Forall_inv_tail H). cbn [bind]. destruct p; reflexivity.
Qed.

Lemma strings_round : forall A ok grow (l : ldb A) ps m, Forall good_spoint ps ->
  lenN (text_names ps) < 2 ^ 32 -> (text_names ps = [] \/ ok (8 * lenN (text_names ps)) = true) ->
  exists l' tr, lisp_add_points A grow l (map bytes_point ps) m = Ok l' /\ l_meta l' = m :: l_meta l /\
    traces (l_db l') = (traces (l_db l) ++ [tr])%list /\ c_get_names ok tr = Ok (map utf8 (text_names ps)) /\
    convert_points ok tr (tr_points tr) (fun _ => true) = Ok (map bytes_point ps).
Proof.
  intros A ok grow l ps m HG HN HO.
  assert (Enb := names_bytes ps HG).
  assert (Hlen : lenN (names_of (map bytes_point ps)) = lenN (text_names ps)) by (rewrite Enb; unfold lenN; now rewrite map_length).
  destruct (add_points_round A ok grow l (map bytes_point ps) m) as (l' & tr & E & Et & Em & Ec).
  { apply Forall_map. eapply Forall_impl; [|exact HG]. apply good_bytes. }
  { now rewrite Hlen. }
  { rewrite Hlen. destruct HO as [HO|HO]; [left; rewrite Enb, HO; reflexivity|now right]. }
  exists l', tr. repeat split; try assumption.
  unfold lisp_add_points in E. cbv zeta in E. rewrite Enb in E.
  destruct (mapO (encode_point (map utf8 (text_names ps))) (map bytes_point ps)) as [ips| | | |]; try discriminate.
  cbn [bind] in E. unfold add_trace_points in E.
  destruct (import_trace (map utf8 (text_names ps)) ips) as [tr'| | | |] eqn:E2; try discriminate. cbn [bind] in E.
  injection E as <-. cbn [l_db] in Et.
  assert (Hx : traces (push_trace grow (l_db l) tr') = (traces (l_db l) ++ [tr'])%list).
  { unfold traces, push_trace. destruct (_ <? _); cbn [db_traces]; rewrite map_app; [reflexivity|]. now rewrite map_map. }
  rewrite Hx in Et. apply app_inv_head in Et. injection Et as <-.
  unfold import_trace in E2.
  destruct (import_points (types_of_formats (type_formats ips)) 0 ips) as [pts| | | |]; try discriminate. cbn [bind] in E2.
  injection E2 as <-. unfold c_get_names. cbn [tr_names].
  assert (Hid : map c_string (map utf8 (text_names ps)) = map utf8 (text_names ps)).
  { rewrite map_map. apply map_ext_in. intros s Hs. apply c_string_id. apply utf8_nul.
    assert (K := text_names_text ps HG). rewrite Forall_forall in K. now apply K. }
  rewrite Hid. rewrite Enb in Hlen. rewrite Hlen.
  destruct (N.leb_spec two32 (lenN (text_names ps))) as [Hb|_]; [unfold two32 in Hb; lia|].
  assert (K : ok (8 * lenN (text_names ps)) || (lenN (text_names ps) =? 0) = true).
  { destruct HO as [HO|HO]; [rewrite HO; apply orb_true_r|now rewrite HO]. }
  rewrite K, Hid. reflexivity.
Qed.
