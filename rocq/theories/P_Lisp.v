(** Properties C42 - C44 and C51 - C55: the Lisp clients.
    Specification in LispSpec.v. *)
From Verif Require Import BaseProofs Types Stream Reader SkipList AMap FormatSpec ReaderProps ReaderMore Predicate FloatQ PredSpec PredProofs Query QuerySpec QueryProofs
  CHeap CApi CApiSpec CApiProofs4 Lisp LispSpec LispProofs LispProofs2 P_Reader P_Pred P_Query P_CApi.

(** C42. *)
Theorem C42_pack : forall f c, f < 2 ^ 23 -> c < 2 ^ 40 ->
  pack (Some f) c < 2 ^ 64 /\ unpack_f (pack (Some f) c) = Some f /\ unpack_c (pack (Some f) c) = c.
Proof. exact pack_ok. Qed.
Print Assumptions C42_pack.
Theorem C42_no_file : forall c, c < 2 ^ 63 -> unpack_f (pack None c) = None /\ unpack_c (pack None c) = c.
Proof.
  intros c Hc. assert (c < 2 ^ 64) by (change (2 ^ 64) with (2 * 2 ^ 63); lia). cbn [pack]. rewrite unpack_f_val, unpack_c_val by assumption.
  destruct (N.leb_spec (2 ^ 63) c); [lia|]. auto.
Qed.
Print Assumptions C42_no_file.
Theorem C42_injective : forall p q, good_id p -> good_id q -> pack (lp_f p) (lp_c p) = pack (lp_f q) (lp_c q) -> lp_f p = lp_f q /\ lp_c p = lp_c q.
Proof.
  intros p q Hp Hq E. destruct (good_pack p Hp) as (_ & F1 & C1). destruct (good_pack q Hq) as (_ & F2 & C2). rewrite E in F1, C1. split; congruence.
Qed.
Print Assumptions C42_injective.
(** What is unpacked from any 64-bit word. *)
Theorem C42_unpack : forall s, s < 2 ^ 64 ->
  (s < 2 ^ 63 -> unpack_f s = None /\ unpack_c s = s) /\
  (2 ^ 63 <= s -> unpack_f s = Some ((s / 2 ^ 40) mod 2 ^ 23) /\ unpack_c s = s mod 2 ^ 40).
Proof.
  intros s Hs. rewrite unpack_f_val, unpack_c_val by assumption. destruct (N.leb_spec (2 ^ 63) s); split; intro; try lia; auto.
Qed.
Print Assumptions C42_unpack.
(** The bounds are sharp: ids outside are mixed up. *)
Theorem C42_bounds_refuted : unpack_f (pack (Some (2 ^ 23)) 7) = Some 0 /\ pack (Some 0) (2 ^ 40) = pack (Some 1) 0 /\
  pack None (2 ^ 63) = pack (Some 0) 0.
Proof. conj_split; vm_compute; reflexivity. Qed.
Print Assumptions C42_bounds_refuted.
Example C42_ex : pack (Some 5) 1000 = 9223377534412915688 /\ unpack_f 9223377534412915688 = Some 5 /\ unpack_c 9223377534412915688 = 1000.
Proof. conj_split; vm_compute; reflexivity. Qed.

(** A database to play with. *)
Definition ex_x : name := [x78].
Definition ex_y : name := [x79].
Definition ex_int : name := [x69; x6e; x74].
Definition ex_lp (f : option N) (a b : Z) : lpoint := mkLP 5 f [mkLV ex_x ex_int (LInt a) None; mkLV ex_y ex_int (LInt b) (Some 16)] [].
Definition ex_lpoints : list lpoint := [ex_lp None 1 (-2); ex_lp (Some 0) 3 4; ex_lp (Some 1) 5 6; ex_lp (Some 1) 7 8].
Definition ex_ltr : trace N :=
  match mapO (encode_point (names_of ex_lpoints)) ex_lpoints with
  | Ok ips => match import_trace (names_of ex_lpoints) ips with Ok tr => tr | _ => mkTr [] [] [] end
  | _ => mkTr [] [] []
  end.
Definition ex_ldb : ldb N := single ex_ltr 77.
Definition ex_lq (pick file : option N) (flt : option (lpoint -> bool)) : lquery := mkLQ [0] [[ex_int]] pick file None [] flt.
Definition ex_res (f : option N) (n : name) (z : Z) (s : option N) : lpoint := mkLP 5 f [mkLV n ex_int (LInt z) s] [].

(** C43.  Expected: only points of the file.  False for file 0 when a trace has
    points without file id; get-trace does not return these. *)
Theorem C43_file_refuted : exists (l : ldb N) q r rs, lq_file q = Some 0 /\ lp_f r = None /\ In r rs /\
  lresults (lisp_query N unit (direct qops) all_ok ex_pick ex_hash l tt 0 q) = Ok (rs, Some 77, tt) /\
  exists ps, lisp_get_trace N all_ok l 0 (Some 0) = Ok (ps, 77) /\ Forall (fun p => lp_f p = Some 0) ps.
Proof.
  exists ex_ldb, (ex_lq None (Some 0) None), (ex_res None ex_x 1 None). eexists. split; [reflexivity|]. split; [reflexivity|].
  split; [|split; [vm_compute; reflexivity|]]; [left; reflexivity|]. eexists. split; [vm_compute; reflexivity|]. repeat constructor.
Qed.
Print Assumptions C43_file_refuted.
(** True if every point of the trace has a file id (as in traces of
    instrumented projects): the query returns what it returns on the trace
    without the points of other files. *)
Theorem C43_query_file : forall A St sat ok pick hash (l : ldb A) i tr c st q f m,
  nthN (db_traces (l_db l)) i = Some (tr, c) -> coherent (tr_points tr) c -> nthN (l_meta l) i = Some m ->
  lq_file q = Some f -> f < 2 ^ 23 -> Forall (fun p => 2 ^ 63 <= p_stmt p < 2 ^ 64) (tr_points tr) ->
  lresults (lisp_query A St sat ok pick hash l st i q) =
  lresults (lisp_query A St sat ok pick hash (single (only_file f tr) m) st 0 (no_file q)).
Proof. exact query_only_file. Qed.
Print Assumptions C43_query_file.
(** In general the file bits of the statement id decide, whether or not the id
    has a file. *)
Theorem C43_selected : forall s f, f < 2 ^ 23 ->
  (N.land s (file_mask (Some f)) = file_statement (Some f) <-> (s / 2 ^ 40) mod 2 ^ 23 = f) /\
  (s < 2 ^ 64 -> unpack_f s = Some f <-> has_file f s).
Proof. intros s f Hf. split; [apply mask_iff; exact Hf|]. intro Hs. apply unpack_f_has. exact Hs. Qed.
Print Assumptions C43_selected.
(** get-trace with :file-id is exact. *)
Theorem C43_get_trace : forall A ok (l : ldb A) i f ps m, lisp_get_trace A ok l i (Some f) = Ok (ps, m) ->
  exists all, lisp_get_trace A ok l i None = Ok (all, m) /\ forall p, In p ps <-> In p all /\ lp_f p = Some f.
Proof.
  intros A ok l i f ps m H. unfold lisp_get_trace in *. destruct (aref (db_traces (l_db l)) i) as [tr| | | |]; try discriminate. cbn [bind] in *.
  destruct (convert_points ok (fst tr) (tr_points (fst tr)) (fun _ => true)) as [all| | | |]; try discriminate. cbn [bind] in *.
  destruct (aref (l_meta l) i) as [m'| | | |]; try discriminate. cbn [bind] in *. inversion H; subst. exists all. split; [reflexivity|].
  intro p. rewrite filter_In. assert (HE : optN_eqb (Some f) (lp_f p) = true <-> lp_f p = Some f); [|tauto].
  cbn. destruct (lp_f p) as [g|]; [rewrite N.eqb_eq|]; split; congruence.
Qed.
Print Assumptions C43_get_trace.
Example C43_ex : exists tr, tr_points tr <> [] /\ nthN (db_traces (l_db (single tr 77))) 0 = Some (tr, []) /\
  Forall (fun p => 2 ^ 63 <= p_stmt p < 2 ^ 64) (tr_points tr) /\
  lresults (lisp_query N unit (direct qops) all_ok ex_pick ex_hash (single tr 77) tt 0 (ex_lq None (Some 1) (Some (fun _ => true)))) =
    Ok ([ex_res (Some 1) ex_x 7 None; ex_res (Some 1) ex_y 8 (Some 16)], Some 77, tt).
Proof.
  exists (mkTr (tr_names ex_ltr) (tr_types ex_ltr) (tl (tr_points ex_ltr))). split; [vm_compute; discriminate|]. split; [vm_compute; reflexivity|]. split; [|vm_compute; reflexivity].
  apply Forall_forall. intros p Hp. cbv [tr_points tl ex_ltr] in Hp. vm_compute in Hp. destruct Hp as [<-|[<-|[<-|[]]]]; split; vm_compute; congruence.
Qed.

(** C44.  Expected: the metadata of trace i is what was given with trace i.
    False for add-trace-points, which puts the metadata to the front. *)
Theorem C44_points_refuted : forall ok coins pos grow, exists (hs : list (ladd N)) l,
  do_ladds ok (skip_map coins pos) grow create_ldb hs = Ok ([true; true], l) /\ map meta_of hs = [1; 2] /\ l_meta l = [2; 1].
Proof. intros. exists [LPoints [] 1; LPoints [] 2]. eexists. split; [reflexivity|]. split; reflexivity. Qed.
Print Assumptions C44_points_refuted.
(** True for all histories of add-trace (successful or not). *)
Theorem C44_files : forall A ok coins pos grow (hs : list (ladd A)) bs l,
  do_ladds ok (skip_map coins pos) grow create_ldb hs = Ok (bs, l) -> Forall (fun a => is_file a = true) hs ->
  Forall2 (stores ok) (successful hs bs) (traces (l_db l)) /\ l_meta l = map meta_of (successful hs bs).
Proof.
  intros A ok coins pos grow hs bs l H HF. apply do_ladds_traces in H. destruct H as (trs & F & Et & Em). cbn in Et, Em. rewrite Et, Em. split; [exact F|].
  assert (HS : Forall (fun a => is_file a = true) (successful hs bs)).
  { clear - HF. revert bs. induction HF as [|a hs Ha _ IH]; intros [|[] bs]; cbn; try constructor; auto. }
  assert (E1 : filter (fun a => negb (is_file a)) (successful hs bs) = []) by (clear - HS; induction HS as [|a l Ha _ IH]; [reflexivity|]; cbn; rewrite Ha; exact IH).
  assert (E2 : filter is_file (successful hs bs) = successful hs bs) by (clear - HS; induction HS as [|a l Ha _ IH]; [reflexivity|]; cbn; rewrite Ha; f_equal; exact IH).
  rewrite E1, E2. reflexivity.
Qed.
Print Assumptions C44_files.
(** In general: traces in order of addition; metadata of add-trace-points in
    reverse order before those of add-trace. *)
Theorem C44_exact : forall A ok coins pos grow (hs : list (ladd A)) bs l,
  do_ladds ok (skip_map coins pos) grow create_ldb hs = Ok (bs, l) ->
  Forall2 (stores ok) (successful hs bs) (traces (l_db l)) /\
  l_meta l = rev (map meta_of (filter (fun a => negb (is_file a)) (successful hs bs))) ++ map meta_of (filter is_file (successful hs bs)).
Proof. intros A ok coins pos grow hs bs l H. apply do_ladds_traces in H. destruct H as (trs & F & Et & Em). cbn in Et, Em. rewrite Et, Em. split; [exact F|reflexivity]. Qed.
Print Assumptions C44_exact.
(** Adding through the wrapper of restrict-to-file: the database has the trace,
    but its metadata does not get into the database object. *)
Theorem C44_wrapper_refuted : forall coins pos, exists (l' : ldb N) w' file,
  wrapper_add_trace N all_ok (skip_map coins pos) ex_garbage ex_grow create_ldb (restrict_to_file 1) file 0 7 = Ok (true, l', w') /\
  lenN (traces (l_db l')) = 1 /\ l_meta l' = [] /\ lisp_get_trace N all_ok l' 0 None = Throw ELisp /\
  exists ps, wrapper_get_trace N all_ok l' w' 0 None = Ok (ps, 7).
Proof.
  intros. eexists _, _, (Ok (enc_file (mkF [] [] []), TailEof)). split.
  - unfold wrapper_add_trace, lisp_add_trace, add_trace. cbn [bind]. rewrite read_trace_transfer. vm_compute. reflexivity.
  - split; [reflexivity|]. split; [reflexivity|]. split; [vm_compute; reflexivity|]. eexists. vm_compute. reflexivity.
Qed.
Print Assumptions C44_wrapper_refuted.
Example C44_ex : forall coins pos, exists l,
  do_ladds all_ok (skip_map coins pos) ex_grow create_ldb
    [LFile (Throw ECannotOpen) 0 ex_garbage 1; LFile (Ok (enc_file ex_file, TailEof)) 0 ex_garbage 2; LFile (Ok ([x01], TailEof)) 0 ex_garbage 3;
     LFile (Ok (enc_file ex_file, TailEof)) 1 ex_garbage 4] = Ok ([false; true; false; true], l) /\ l_meta l = [2; 4] /\ lenN (traces (l_db l)) = 2.
Proof.
  intros. eexists. split; [|split].
  - cbn [do_ladds do_ladd]. unfold lisp_add_trace, add_trace. cbn [bind]. rewrite !read_trace_transfer. vm_compute. reflexivity.
  - reflexivity.
  - reflexivity.
Qed.

(** C51.  A filter is applied to every candidate, before duplicates are
    removed: a binding is in the answer iff one of its candidates passes. *)
Theorem C51_filter : forall A St sat ok pick hash (l : ldb A) st i q g ls m l' st',
  lisp_query A St sat ok pick hash l st i q = Ok (ls, m, l', st') -> lq_filter q = Some g ->
  exists tr c tys cq rs d cands,
    nthN (db_traces (l_db l)) i = Some (tr, c) /\ c_get_types ok tr = Ok tys /\ to_cquery tys q = Ok cq /\ cq_keep cq = 1 /\
    query_trace St sat ok pick hash (l_db l) st i cq = Ok (rs, d, st') /\ convert_points ok tr rs (fun _ => true) = Ok cands /\
    lasts same_binding (filter g cands) ls /\
    (forall r, In r ls -> In r cands /\ g r = true) /\
    (forall r, In r cands -> g r = true -> Exists (same_binding r) ls) /\
    ForallOrdPairs (fun x y => ~ same_binding x y) ls.
Proof.
  intros A St sat ok pick hash l st i q g ls m l' st' H Hg. unfold lisp_query, lisp_types, aref in H. destruct (nthN (db_traces (l_db l)) i) as [[tr c]|] eqn:Hn; [|discriminate].
  cbn [bind fst] in H. apply bind_ok in H. destruct H as (tys & Ht & H). apply bind_ok in H. destruct H as (cq & Hc & H).
  apply bind_ok in H. destruct H as ([[rs d] s1] & Hq & H). rewrite Hg in H. apply bind_ok in H. destruct H as (x & H & E). inversion E; subst. clear E.
  apply bind_ok in H. destruct H as (ps & Hp & E). inversion E; subst. clear E.
  unfold convert_points in Hp. apply bind_ok in Hp. destruct Hp as (ips & Hi & Hp). apply bind_ok in Hp. destruct Hp as (names & Hnm & Hp). apply bind_ok in Hp. destruct Hp as (cands & Hcd & Hp). inversion Hp; subst ps.
  exists tr, c, tys, cq, rs, d, cands. assert (HL := remove_duplicates_lasts _ _ _ key_equalp_iff (filter g cands)).
  destruct (lasts_facts _ _ _ _ same_binding_refl same_binding_trans HL) as (F1 & F2 & F3).
  split; [reflexivity|]. split; [exact Ht|]. split; [exact Hc|]. split.
  { unfold to_cquery in Hc. destruct (match lq_pred q with Some _ => _ | None => _ end); [|discriminate]. apply bind_ok in Hc. destruct Hc as (fvs & _ & Hc).
    apply bind_ok in Hc. destruct Hc as (hard & _ & Hc). apply bind_ok in Hc. destruct Hc as (soft & _ & Hc). destruct (_ <? _); [|discriminate]. inversion Hc; subst. cbn. rewrite Hg. reflexivity. }
  split; [exact Hq|]. split.
  { unfold convert_points. rewrite Hi. cbn [bind]. rewrite Hnm. cbn [bind]. rewrite Hcd. cbn [bind]. f_equal. clear. induction cands; cbn; congruence. }
  split; [exact HL|]. split; [intros r Hr; apply F1 in Hr; apply filter_In in Hr; exact Hr|]. split; [|exact F3].
  intros r Hr Hgr. apply F2. apply filter_In. auto.
Qed.
Print Assumptions C51_filter.
(** Expected: a filter that accepts everything changes nothing.  False: without
    a filter the first of several results with the same binding is returned,
    with a filter the last. *)
Theorem C51_trivial_filter_refuted : exists (l : ldb N) rs rs',
  lresults (lisp_query N unit (direct qops) all_ok ex_pick ex_hash l tt 0 (ex_lq None (Some 1) None)) = Ok (rs, Some 77, tt) /\
  lresults (lisp_query N unit (direct qops) all_ok ex_pick ex_hash l tt 0 (ex_lq None (Some 1) (Some (fun _ => true)))) = Ok (rs', Some 77, tt) /\
  rs = [ex_res (Some 1) ex_x 5 None; ex_res (Some 1) ex_y 6 (Some 16)] /\ rs' = [ex_res (Some 1) ex_x 7 None; ex_res (Some 1) ex_y 8 (Some 16)].
Proof. exists ex_ldb. eexists _, _. split; [vm_compute; reflexivity|]. split; [vm_compute; reflexivity|]. split; reflexivity. Qed.
Print Assumptions C51_trivial_filter_refuted.
(** With a filter, variables whose names differ only in case are merged. *)
Theorem C51_case_refuted : exists (l : ldb N) rs rs',
  lresults (lisp_query N unit (direct qops) all_ok ex_pick ex_hash l tt 0 (ex_lq None None None)) = Ok (rs, Some 77, tt) /\
  lresults (lisp_query N unit (direct qops) all_ok ex_pick ex_hash l tt 0 (ex_lq None None (Some (fun _ => true)))) = Ok (rs', Some 77, tt) /\
  lenN rs = 2 /\ lenN rs' = 1.
Proof.
  exists (single (mkTr [[x78]; [x58]; ex_int] [mkT 2 UNSIGNED 8] [mkP 0 5 [] [mkV (VBits 1) 0 0 UNSIGNED 8 0 0; mkV (VBits 2) 1 0 UNSIGNED 8 0 0] []]) 77).
  eexists _, _. split; [vm_compute; reflexivity|]. split; [vm_compute; reflexivity|]. split; reflexivity.
Qed.
Print Assumptions C51_case_refuted.
Example C51_ex : lresults (lisp_query N unit (direct qops) all_ok ex_pick ex_hash ex_ldb tt 0
    (ex_lq None (Some 1) (Some (fun p => match lp_scopes p with [v] => match lv_value v with LInt z => (z <? 6)%Z | _ => false end | _ => false end)))) =
  Ok ([ex_res (Some 1) ex_x 5 None], Some 77, tt).
Proof. vm_compute. reflexivity. Qed.

(** C52.  With :pick, unless the drawn number is 0, the answer is that for a
    trace with a single one of the points (or no point is selected). *)
Theorem C52_single_point : forall A St sat ok pick hash (l : ldb A) i tr c st q n m,
  nthN (db_traces (l_db l)) i = Some (tr, c) -> coherent (tr_points tr) c -> nthN (l_meta l) i = Some m ->
  lq_pick q = Some n -> n <> 0 -> (forall s n, n <> 0 -> pick s n < n) ->
  (forall p, In p (tr_points tr) -> N.land (p_stmt p) (file_mask (lq_file q)) <> file_statement (lq_file q)) \/
  exists p, In p (tr_points tr) /\
    lresults (lisp_query A St sat ok pick hash l st i q) = lresults (lisp_query A St sat ok pick hash (single (only_point p tr) m) st 0 (no_pick q)).
Proof. exact lisp_query_one. Qed.
Print Assumptions C52_single_point.
(** Expected: the results come from a single point.  False when 0 is drawn. *)
Theorem C52_zero_refuted : exists (l : ldb N) q rs, lq_pick q = Some 0 /\
  lresults (lisp_query N unit (direct qops) all_ok ex_pick ex_hash l tt 0 q) = Ok (rs, Some 77, tt) /\
  exists r r', In r rs /\ In r' rs /\ lp_f r = Some 0 /\ lp_f r' = Some 1.
Proof.
  exists ex_ldb, (ex_lq (Some 0) None None). eexists. split; [reflexivity|]. split; [vm_compute; reflexivity|].
  exists (ex_res (Some 0) ex_x 3 None), (ex_res (Some 1) ex_x 5 None). conj_split; auto; cbn; tauto.
Qed.
Print Assumptions C52_zero_refuted.
Example C52_ex : lresults (lisp_query N unit (direct qops) all_ok ex_pick ex_hash ex_ldb tt 0 (ex_lq (Some 6) None None)) =
  Ok ([ex_res (Some 1) ex_x 5 None; ex_res (Some 1) ex_y 6 (Some 16)], Some 77, tt).
Proof. vm_compute. reflexivity. Qed.

(** C53. *)
Theorem C53_translated : forall names e x, says names e x ->
  exists c p, build names e = Ok c /\ create_predicate c = Ok p /\ repr_b x p.
Proof.
  intros names e x H. apply says_good in H. destruct H as (p & (c & E & D & _ & M) & R). exists c, p. split; [exact E|]. split; [|exact R].
  apply CApiProofs2.create_iff; assumption.
Qed.
Print Assumptions C53_translated.
Theorem C53_meaning : forall O names e x vars, says names e x -> Forall var_ok vars -> closed_b vars x ->
  exists c p, build names e = Ok c /\ create_predicate c = Ok p /\
    (satisfied O vars p = Ok true <-> means vars x) /\ (satisfied O vars p = Ok false <-> ~ means vars x).
Proof.
  intros O names e x vars H HV HC. destruct (C53_translated names e x H) as (c & p & E & P & R). exists c, p. split; [exact E|]. split; [exact P|].
  apply C22_integer_predicates; assumption.
Qed.
Print Assumptions C53_meaning.
(** Unknown variables and operators are errors. *)
Theorem C53_known : forall names e c, build names e = Ok c -> all_known names e.
Proof. exact build_known. Qed.
Print Assumptions C53_known.
(** (and (< (v/value a) (+ (v/size b) -5)) (not (distinct-vars a b)) (>= 7 (v/value b))) *)
Definition ex_sexp : sexp :=
  SList OAnd [SList OLt [SList OValue [SSym 10]; SList OAdd [SList OSize [SSym 20]; SInt (-5)]];
              SList ONot [SList ODistinct [SSym 10; SSym 20]]; SList OGe [SInt 7; SList OValue [SSym 20]]].
Example C53_ex : exists x, says [10; 20] ex_sexp x /\
  x = BAnd [BCmp CLt (IValue 0) (IAdd (ISize 1) (IConst (-5))); BNot (BDistinct 0 1); BCmp CGe (IConst 7) (IValue 1)].
Proof.
  assert (H0 : first_at [10; 20] 10 0) by (split; [reflexivity|intros j Hj; lia]).
  assert (H1 : first_at [10; 20] 20 1) by (split; [reflexivity|]; intros j Hj; replace j with 0 by lia; cbn; discriminate).
  eexists. split; [|reflexivity]. unfold ex_sexp. apply sy_and; [reflexivity|]. repeat (constructor; try eassumption; try lia).
Qed.
Example C53_ex_unknown : build [10] (SList OValue [SSym 20]) = Throw ELisp /\ build [10] (SList OOther [SInt 1]) = Throw ELisp.
Proof. split; reflexivity. Qed.

(** C54.  Expected: points added with add-trace-points are returned by get-trace.
    False for values of 2^63 and more, which become negative ... *)
Theorem C54_large_refuted : exists ps qs, Forall2 (fun p q => lp_c p = lp_c q) ps qs /\
  (exists v, ps = [mkLP 5 None [v] []] /\ lv_value v = LInt (2 ^ 63)) /\
  (exists v, qs = [mkLP 5 None [v] []] /\ lv_value v = LInt (- 2 ^ 63)) /\
  exists l m, lisp_add_points N ex_grow create_ldb ps 7 = Ok l /\ lisp_get_trace N all_ok l 0 None = Ok (qs, m).
Proof.
  exists [mkLP 5 None [mkLV ex_x ex_int (LInt (2 ^ 63)) None] []], [mkLP 5 None [mkLV ex_x ex_int (LInt (- 2 ^ 63)) None] []].
  split; [repeat constructor|]. split; [eexists; split; reflexivity|]. split; [eexists; split; reflexivity|].
  eexists _, _. split; [vm_compute; reflexivity|vm_compute; reflexivity].
Qed.
Print Assumptions C54_large_refuted.
(** ... and for aux values, which are lost. *)
Theorem C54_aux_refuted : exists p q l m, lp_aux p = [9] /\ lp_aux q = [] /\
  lisp_add_points N ex_grow create_ldb [p] 7 = Ok l /\ lisp_get_trace N all_ok l 0 None = Ok ([q], m).
Proof. exists (mkLP 5 None [] [9]), (mkLP 5 None [] []). eexists _, _. split; [reflexivity|]. split; [reflexivity|]. split; [vm_compute; reflexivity|vm_compute; reflexivity]. Qed.
Print Assumptions C54_aux_refuted.
Theorem C54_round_trip : forall A ok grow (l : ldb A) ps m, Forall good_lpoint ps ->
  lenN (names_of ps) < 2 ^ 32 -> (names_of ps = [] \/ ok (8 * lenN (names_of ps)) = true) ->
  exists l', lisp_add_points A grow l ps m = Ok l' /\
    forall m', nthN (l_meta l') (lenN (traces (l_db l))) = Some m' -> lisp_get_trace A ok l' (lenN (traces (l_db l))) None = Ok (ps, m').
Proof.
  intros A ok grow l ps m HG HN HO. destruct (add_points_round A ok grow l ps m HG HN HO) as (l' & tr & E & Et & _ & Ec). exists l'. split; [exact E|].
  intros m' Hm. unfold lisp_get_trace, aref.
  assert (HT : nthN (traces (l_db l')) (lenN (traces (l_db l))) = Some tr) by (rewrite Et, nthN_app2 by lia; rewrite N.sub_diag; reflexivity).
  unfold traces in HT at 1. rewrite nthN_map in HT. destruct (nthN (db_traces (l_db l')) (lenN (traces (l_db l)))) as [[tr' c]|]; [|discriminate]. cbn in HT. inversion HT; subst tr'.
  cbn [bind fst]. rewrite Ec. cbn [bind]. rewrite Hm. reflexivity.
Qed.
Print Assumptions C54_round_trip.
(** The Lisp data is made from what the C interface shows (C37). *)
Theorem C54_presented : forall types p q, export_point types p = Ok q <-> exported types p q.
Proof. exact export_exported. Qed.
Print Assumptions C54_presented.
Example C54_ex : Forall good_lpoint ex_lpoints /\ names_of ex_lpoints = [ex_x; ex_y; ex_int] /\
  exists l m, lisp_add_points N ex_grow create_ldb ex_lpoints 7 = Ok l /\ lisp_get_trace N all_ok l 0 None = Ok (ex_lpoints, m).
Proof.
  assert (HG : forall f a b, match f with Some g => g < 2 ^ 23 | None => True end -> (- 2 ^ 63 <= a < 2 ^ 63)%Z -> (- 2 ^ 63 <= b < 2 ^ 63)%Z -> good_lpoint (ex_lp f a b)).
  { intros f a b Hf Ha Hb. split; [destruct f; cbn; [split; [exact Hf|reflexivity]|reflexivity]|]. split; [|reflexivity].
    assert (HV : forall n z s, Forall (fun b => N_of_byte b <> 0) n -> (- 2 ^ 63 <= z < 2 ^ 63)%Z -> (forall k, s = Some k -> k < 2 ^ 64) -> good_lvar (mkLV n ex_int (LInt z) s)).
    { intros n z s Hn Hz Hs. split; [exact Hn|]. split; [repeat constructor; cbn; discriminate|]. split; [exists z; auto|exact Hs]. }
    assert (HX : forall b, N_of_byte b <> 0 -> Forall (fun b => N_of_byte b <> 0) [b]) by (intros; repeat constructor; assumption).
    cbn [ex_lp lp_scopes]. constructor; [|constructor; [|constructor]]; apply HV; try assumption.
    - apply HX. discriminate.
    - discriminate.
    - apply HX. discriminate.
    - intros k Hk. inversion Hk; subst. reflexivity. }
  split; [|split; [reflexivity|eexists _, _; split; [vm_compute; reflexivity|vm_compute; reflexivity]]].
  repeat (apply Forall_cons; [apply HG; [exact I || reflexivity|lia|lia]|]). apply Forall_nil.
Qed.

(** C55.  sexp-trace-db: traces and metadata stay aligned for all histories;
    the most recent trace has index 0. *)
Theorem C55_aligned : forall A (hs : list (sadd A)),
  s_traces (fold_left do_sadd hs (mkS [] [])) = rev (map fst (flat_map sadded hs)) /\
  s_meta (fold_left do_sadd hs (mkS [] [])) = rev (map snd (flat_map sadded hs)).
Proof. intros A hs. destruct (do_sadds_ok A hs (mkS [] [])) as [-> ->]. cbn. rewrite !app_nil_r. split; reflexivity. Qed.
Print Assumptions C55_aligned.
(** Expected (and true for binary-trace-db, C17): trace i is the i-th added. *)
Theorem C55_order_refuted : exists (hs : list (sadd N)) s p q, s = fold_left do_sadd hs (mkS [] []) /\
  hs = [SPoints [p] 1; SPoints [q] 2] /\ p <> q /\ sexp_get_trace N s 0 None = ([q], Some 2).
Proof.
  exists [SPoints [ex_lp None 1 2] 1; SPoints [ex_lp None 3 4] 2]. eexists _, _, _. split; [reflexivity|]. split; [reflexivity|]. split; [discriminate|reflexivity].
Qed.
Print Assumptions C55_order_refuted.
(** Expected: :file-id and :predicate restrict the results.  False: they are
    ignored. *)
Theorem C55_ignored : forall A cart (s : sdb A) i tys f f' p p' g, sexp_query A cart s i tys f p g = sexp_query A cart s i tys f' p' g.
Proof. reflexivity. Qed.
Print Assumptions C55_ignored.
Theorem C55_file_refuted : forall cart, (forall v, cart [[v]] = [[v]]) -> exists (s : sdb N) tys r,
  In r (sexp_query N cart s 0 tys (Some 0) (Some (SList OLt [SInt 1; SInt 0])) (fun _ => true)) /\ lp_f r = Some 1.
Proof.
  intros cart HC. exists (mkS [[ex_res (Some 1) ex_x 5 None]] [1]), [[ex_int]], (ex_res (Some 1) ex_x 5 None). split; [|reflexivity].
  unfold sexp_query. cbn -[remove_duplicates]. rewrite HC. cbn. left. reflexivity.
Qed.
Print Assumptions C55_file_refuted.
(** A limit of 0 points means no points (for binary-trace-db: no limit), and
    then the trace is not added at all. *)
Theorem C55_limit : forall A (s : sdb A) objs m x, sexp_add_trace A s objs (Some m) x =
  match takeN m (before_nil objs) with [] => s | t => mkS (t :: s_traces s) (x :: s_meta s) end.
Proof. intros. unfold sexp_add_trace. rewrite read_objects_ok. reflexivity. Qed.
Print Assumptions C55_limit.
Example C55_ex : sexp_add_trace N (mkS [] []) [Some (ex_lp None 1 2); Some (ex_lp None 3 4); None; Some (ex_lp None 5 6)] (Some 0) 1 = mkS [] [] /\
  sexp_add_trace N (mkS [] []) [Some (ex_lp None 1 2); Some (ex_lp None 3 4); None; Some (ex_lp None 5 6)] (Some 9) 1 = mkS [[ex_lp None 1 2; ex_lp None 3 4]] [1].
Proof. split; reflexivity. Qed.
