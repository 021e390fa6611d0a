(** Property C77: names, strings and points pass between Lisp and the library. *)
From Coq Require Import Strings.String.
From Verif Require Import Base BaseProofs Types Compare Predicate Query CApi CApiSpec Lisp LispSpec Ffi FfiSpec FfiProofs FfiProofs2
  FfiText FfiTextSpec FfiTextProofs FfiTextProofs2 FfiTextProofs3.
Local Open Scope N_scope.

(** Every Lisp string of encodable characters is decoded to itself. *)
Theorem C77_round_trip : forall s, text s -> utf8_decode (utf8 s) = Some s.
Proof. exact utf8_round. Qed.
Print Assumptions C77_round_trip.

(** Bytes are decoded to a string exactly if they are its encoding: nothing else is
    accepted, and different names never become the same string. *)
Theorem C77_decodes : forall bs s, utf8_decode bs = Some s <-> text s /\ utf8 s = bs.
Proof. exact utf8_inv. Qed.
Print Assumptions C77_decodes.

(** A string without NUL is for the library the whole of its encoding, and the string
    comes back when Lisp reads the library's name. *)
Theorem C77_names : forall s, c_text s ->
  c_string (utf8 s) = utf8 s /\ text_name (c_string (utf8 s)) = Ok s.
Proof.
  intros s H. assert (E := c_string_id _ (utf8_nul s H)). split; [exact E|]. rewrite E. apply text_name_ok.
  split; [now apply c_text_text|reflexivity].
Qed.
Print Assumptions C77_names.

(** Looking up names and removing duplicates gives the same result on strings as on
    their encodings, so that what is proved about names as bytes holds for strings. *)
Theorem C77_lookup : forall n l, text n -> Forall text l ->
  position (utf8 n) (map utf8 l) = text_position n l /\
  remove_duplicates bytes_eqb (map utf8 l) = map utf8 (remove_duplicates codes_eqb l).
Proof. intros n l Hn Hl. split; [now apply position_utf8|now apply duplicates_utf8]. Qed.
Print Assumptions C77_lookup.

(** Points and names that Lisp passes to add_trace_points are the points and names the
    library finds, wherever the allocator places them. *)
Theorem C77_addition : forall room names ps xs p a b p',
  Forall c_text names -> lenN names < two32 -> Forall (fun q => lenN (lp_scopes q) < two32) ps ->
  mapO (encode_point (map utf8 names)) ps = Ok xs ->
  l_put_addition room names xs p = (a, b, p') -> pr_brk p' < two64 ->
  c_points_at (pr_mem p') a xs /\ c_strings_at (pr_mem p') b (map utf8 names).
Proof.
  intros room names ps xs p a b p' Hn Hl Hs Hx H Hb. apply (addition_ok room names xs p a b p' H Hn); [|exact Hb].
  apply mapO_each in Hx. revert Hs. clear - Hx Hl. induction Hx as [|q x ps xs E Hx IH]; intros Hs; constructor.
  - apply (encode_point_fits (map utf8 names) q); [|exact (Forall_inv Hs)|exact E]. unfold lenN in *. now rewrite map_length.
  - apply IH. exact (Forall_inv_tail Hs).
Qed.
Print Assumptions C77_addition.

(** Points with string names in any script that are added from Lisp are fetched with the
    same names, whatever the restarts of the handler. *)
Theorem C77_come_back : forall A ok grow (l : ldb A) ps m handler, Forall good_spoint ps ->
  lenN (text_names ps) < 2 ^ 32 -> (text_names ps = [] \/ ok (8 * lenN (text_names ps)) = true) ->
  exists l' tr names qs,
    lisp_add_points A grow l (map bytes_point ps) m = Ok l' /\ traces (l_db l') = (traces (l_db l) ++ [tr])%list /\
    c_get_names ok tr = Ok names /\ convert_points ok tr (tr_points tr) (fun _ => true) = Ok qs /\
    text_points handler names qs = Ok ps.
Proof.
  intros A ok grow l ps m handler HG HN HO.
  destruct (strings_round A ok grow l ps m HG HN HO) as (l' & tr & E & _ & Et & En & Ec).
  exists l', tr, (map utf8 (text_names ps)), (map bytes_point ps). repeat split; try assumption.
  unfold text_points. rewrite mapO_names by now apply text_names_text. cbn [bind]. now apply text_back.
Qed.
Print Assumptions C77_come_back.

(** The library cannot find two different strings at one place. *)
Theorem C77_one_string : forall m a x y, c_string_at m a x -> c_string_at m a y -> x = y.
Proof.
  intros m a x. revert a. induction x as [|b x IH]; intros a [|c y] (X1 & X2 & X3) (Y1 & Y2 & Y3).
  - reflexivity.
  - exfalso. cbn [length] in Y1. rewrite load_cons in Y1. injection Y1 as Y1 _.
    unfold lenN in X2. cbn [length] in X2. rewrite N.add_0_r in X2. apply (Forall_inv Y3). now rewrite <- Y1.
  - exfalso. cbn [length] in X1. rewrite load_cons in X1. injection X1 as X1 _.
    unfold lenN in Y2. cbn [length] in Y2. rewrite N.add_0_r in Y2. apply (Forall_inv X3). now rewrite <- X1.
  - cbn [length] in X1, Y1. rewrite load_cons in X1, Y1. injection X1 as X1 X1'. injection Y1 as Y1 Y1'.
    rewrite lenN_cons in X2, Y2. f_equal; [congruence|]. apply (IH (a + 1)).
    + split; [exact X1'|]. split; [|exact (Forall_inv_tail X3)]. rewrite <- X2. do 2 f_equal. lia.
    + split; [exact Y1'|]. split; [|exact (Forall_inv_tail Y3)]. rewrite <- Y2. do 2 f_equal. lia.
Qed.
Print Assumptions C77_one_string.

(** A blob is always available: as the string it encodes, or, if the restart
    store-as-byte-array is chosen, as chars that determine its bytes. *)
Theorem C77_blobs : forall bs, exists x, text_value true (LBlob bs) = Ok x /\
  match x with
  | TText s => utf8 s = bs
  | TChars l => map char_byte l = map N_of_byte bs /\ ~ is_text bs
  | _ => False
  end.
Proof.
  intros bs. cbn [text_value]. destruct (utf8_decode bs) as [s|] eqn:E.
  - exists (TText s). split; [reflexivity|]. now apply utf8_inv in E.
  - exists (TChars (map schar bs)). split; [reflexivity|]. split.
    + rewrite map_map. apply map_ext. apply schar_byte.
    + intros (s & Hs). apply utf8_inv in Hs. congruence.
Qed.
Print Assumptions C77_blobs.

(** A trace is delivered to Lisp exactly if all its names are text and (without a
    handler) so are all its blobs. *)
Theorem C77_delivered : forall handler names ps,
  Forall (fun p => Forall (fun v => In (lv_name v) names /\ In (lv_type v) names) (lp_scopes p)) ps ->
  (exists r, text_points handler names ps = Ok r) <->
  Forall is_text names /\
  (handler = true \/ Forall (fun p => Forall (fun v => forall bs, lv_value v = LBlob bs -> is_text bs) (lp_scopes p)) ps).
Proof.
  assert (Ht : forall n, is_text n <-> exists s, text_name n = Ok s).
  { intros n. split; [intros (s & Hs); exists s; now apply text_name_ok|intros (s & Hs); exists s; now apply text_name_ok]. }
  assert (M : forall A B (f : A -> outcome B) l, (exists r, mapO f l = Ok r) <-> Forall (fun x => exists y, f x = Ok y) l).
  { intros A B f. induction l as [|x l IH]; split.
    - constructor.
    - intros _. exists []. reflexivity.
    - intros [r H]. cbn [mapO] in H. destruct (f x) eqn:E; try discriminate. cbn [bind] in H.
      destruct (mapO f l) eqn:E2; try discriminate. constructor; [now exists a|]. apply IH. now eexists.
    - intros H. destruct (Forall_inv H) as [y Hy]. destruct (proj2 IH (Forall_inv_tail H)) as [r Hr].
      exists (y :: r). cbn [mapO]. rewrite Hy. cbn [bind]. now rewrite Hr. }
  intros handler names ps Hin. unfold text_points.
  assert (N1 : Forall is_text names <-> exists r, mapO text_name names = Ok r).
  { rewrite M. split; intros H; (eapply Forall_impl; [|exact H]); intros n Hn; now apply Ht. }
  rewrite N1. split.
  - intros [r H]. destruct (mapO text_name names) as [ss| | | |] eqn:E; try discriminate. cbn [bind] in H.
    split; [now exists ss|]. destruct handler; [now left|right].
    assert (H1 : exists r, mapO (text_point false) ps = Ok r) by now exists r. apply M in H1.
    eapply Forall_impl; [|exact H1]. intros p [q Hq]. unfold text_point in Hq.
    destruct (mapO (text_var false) (lp_scopes p)) as [vs| | | |] eqn:E2; try discriminate.
    assert (H2 : exists r, mapO (text_var false) (lp_scopes p) = Ok r) by now exists vs. apply M in H2.
    eapply Forall_impl; [|exact H2]. intros v [w Hw] bs Hbs. unfold text_var in Hw. rewrite Hbs in Hw. cbn [text_value] in Hw.
    destruct (utf8_decode bs) as [s|] eqn:E3; [|discriminate]. exists s. now apply utf8_inv.
  - intros [[ss Hs] Hv]. rewrite Hs. cbn [bind]. apply M.
    assert (Hn : Forall is_text names) by (apply N1; now exists ss). rewrite Forall_forall in Hn.
    apply Forall_forall. intros p Hp. rewrite Forall_forall in Hin.
    assert (H1 : exists r, mapO (text_var handler) (lp_scopes p) = Ok r).
    { apply M. apply Forall_forall. intros v Hvv. specialize (Hin p Hp). rewrite Forall_forall in Hin.
      destruct (Hin v Hvv) as [I1 I2]. apply Hn in I1. apply Hn in I2. apply Ht in I1. apply Ht in I2.
      destruct I1 as [n I1]. destruct I2 as [t I2].
      assert (H2 : exists x, text_value handler (lv_value v) = Ok x).
      { destruct (lv_value v) as [z|sz b|bs] eqn:Ev; try (eexists; reflexivity). cbn [text_value].
        destruct (utf8_decode bs) as [s|] eqn:E; [eexists; reflexivity|].
        destruct Hv as [->|Hv]; [eexists; reflexivity|]. rewrite Forall_forall in Hv. specialize (Hv p Hp).
        rewrite Forall_forall in Hv. destruct (Hv v Hvv bs Ev) as (s & H2). apply utf8_inv in H2. congruence. }
      destruct H2 as [x H2]. unfold text_var. rewrite H2, I1, I2. eexists. reflexivity. }
    destruct H1 as [vs H1]. unfold text_point. rewrite H1. eexists. reflexivity.
Qed.
Print Assumptions C77_delivered.

(** Expected: every trace that was read can be fetched.  A trace with one name that is
    not UTF-8 cannot, even if no point uses the name. *)
Theorem C77_bad_name_refuted : forall handler names ps,
  Exists (fun n => ~ is_text n) names -> text_points handler names ps = Throw ELisp.
Proof.
  intros handler names ps H. unfold text_points.
  assert (E : mapO text_name names = Throw ELisp).
  { induction H as [n names Hn|n names Hn IH]; cbn [mapO].
    - destruct (text_name n) as [s| | | |] eqn:E; cbn [bind].
      + elim Hn. exists s. now apply text_name_ok.
      + unfold text_name in E. destruct (utf8_decode n); [discriminate|]. now injection E as <-.
      + unfold text_name in E. destruct (utf8_decode n); discriminate.
      + unfold text_name in E. destruct (utf8_decode n); discriminate.
      + unfold text_name in E. destruct (utf8_decode n); discriminate.
    - unfold text_name at 1. destruct (utf8_decode n); cbn [bind]; [|reflexivity]. now rewrite IH. }
  now rewrite E.
Qed.
Print Assumptions C77_bad_name_refuted.

(** Expected: different names stay different.  With a NUL character inside they do
    not: the library sees the part before it. *)
Theorem C77_nul_refuted : forall s t u, c_text s ->
  c_string (utf8 (s ++ 0 :: t)) = c_string (utf8 (s ++ 0 :: u)).
Proof.
  assert (K : forall s t, c_text s -> c_string (utf8 (s ++ 0 :: t)) = utf8 s).
  { assert (P : forall l r, Forall (fun b => N_of_byte b <> 0) l -> c_string (l ++ r) = (l ++ c_string r)%list).
    { induction l as [|b l IH]; intros r H; [reflexivity|]. cbn [app c_string].
      destruct (N.eqb_spec (N_of_byte b) 0) as [E|_]; [now elim (Forall_inv H)|]. f_equal. apply IH. exact (Forall_inv_tail H). }
    assert (U : forall a b, utf8 (a ++ b) = (utf8 a ++ utf8 b)%list).
    { induction a as [|x a IH]; intros b; cbn [app utf8]; [reflexivity|]. now rewrite IH, app_assoc. }
    intros s t Hs. rewrite U, P by now apply utf8_nul. cbn [utf8]. change (utf8_char 0) with [byte_of_N 0].
    cbn [app c_string]. change (N_of_byte (byte_of_N 0) =? 0) with true. cbn iota. apply app_nil_r. }
  intros s t u Hs. now rewrite !K.
Qed.
Print Assumptions C77_nul_refuted.

(** ** Examples *)

(** "größe" and U+1F600 *)
Definition ex_groesse : lstring := [103; 114; 246; 223; 101].
Definition ex_smile : lstring := [128512].
Example C77_ex_utf8 : c_text ex_groesse /\ c_text ex_smile /\
  utf8 ex_smile = [xf0; x9f; x98; x80]%byte /\ utf8_decode (utf8 ex_groesse) = Some ex_groesse /\
  utf8_decode [xff]%byte = None /\ utf8_decode [xc0; x80]%byte = None /\ utf8_decode [xed; xa0; x80]%byte = None /\
  ~ is_text [xff]%byte.
Proof.
  repeat split; try reflexivity; try (repeat constructor; discriminate).
  intros (s & Hs). apply utf8_inv in Hs. discriminate.
Qed.

Definition ex_names : list lstring := [ex_groesse; [105; 110; 116]; ex_smile].
Definition ex_ps : list lpoint :=
  [mkLP 3 (Some 2) [mkLV (utf8 ex_groesse) (utf8 [105; 110; 116]) (LInt (-5)) None;
                    mkLV (utf8 ex_smile) (utf8 [105; 110; 116]) (LInt 18446744073709551615) (Some 16)] [];
   mkLP 4 None [] []].
Example C77_ex_addition : exists xs a b p',
  mapO (encode_point (map utf8 ex_names)) ex_ps = Ok xs /\
  l_put_addition (fun n => 100 + n mod 5) ex_names xs (mkProc (fun _ => xaa%byte) 999) = (a, b, p') /\
  pr_brk p' < two64 /\ length xs = 2%nat /\
  l_read_points (map utf8 ex_names) (pr_mem p') a 2 =
    Ok [mkLP 3 (Some 2) (lp_scopes (nth 0 ex_ps (mkLP 0 None [] []))) []; mkLP 4 None [] []].
Proof. do 4 eexists. split; [vm_compute; reflexivity|]. split; [reflexivity|]. split; [vm_compute; reflexivity|]. split; vm_compute; reflexivity. Qed.

Example C77_ex_blob :
  text_value true (LBlob [x61; xff]%byte) = Ok (TChars [97; -1]%Z) /\
  text_value false (LBlob [x61; xff]%byte) = Throw ELisp /\
  text_value false (LBlob [x61; x00; x62]%byte) = Ok (TText [97; 0; 98]).
Proof. repeat split. Qed.
Example C77_ex_bad_name : text_points true [utf8 [105]; [xe9]%byte] [] = Throw ELisp.
Proof. reflexivity. Qed.

Definition ex_sps : list spoint :=
  [mkSP 3 (Some 2) [mkSV ex_groesse [105; 110; 116] (TInt (-5)) None; mkSV ex_smile [105; 110; 116] (TInt 7) (Some 16)] [];
   mkSP 4 None [] []].
Example C77_ex_come_back : Forall good_spoint ex_sps /\ text_names ex_sps = [ex_groesse; ex_smile; [105; 110; 116]] /\
  exists l' ps, lisp_add_points N (fun n => 2 * n + 1) create_ldb (map bytes_point ex_sps) 7 = Ok l' /\
  lisp_get_trace N (fun _ => true) l' 0 None = Ok (ps, 7) /\
  text_points false (map utf8 (text_names ex_sps)) ps = Ok ex_sps.
Proof.
  split; [|split; [reflexivity|eexists; eexists; repeat split; vm_compute; reflexivity]].
  repeat constructor; cbn; try (repeat constructor; discriminate); try lia;
    try (eexists; split; [reflexivity|lia]); try (intros s Hs; discriminate Hs || (injection Hs as <-; lia)).
Qed.
