(** Property C53, from the call of query-trace to its answer.
    Specification in LispSpec.v and LispQuerySpec.v. *)
From Verif Require Import BaseProofs Types Stream Reader FormatSpec Predicate FloatQ PredSpec PredProofs Query QuerySpec QueryProofs
  CHeap CApi CApiSpec CApiProofs4 Lisp LispSpec LispProofs LispProofs2 LispQuerySpec LispQueryProofs P_Pred P_Query P_CApi P_Lisp.

(** C53.  With :predicate, :soft-predicates, :file-id and :filter (but without
    :pick) an answer shows, for the points with the file bits in the order of
    the trace, the wanted choices of variables in ascending order: without a
    filter the first of those with the same names and types at the same
    statement, with a filter the last of those that pass. *)
Theorem C53_query : forall A O ok pick hash (l : ldb A) i tr c tys q fvs x xs ls m l',
  nthN (db_traces (l_db l)) i = Some (tr, c) -> coherent (tr_points tr) c -> c_get_types ok tr = Ok tys ->
  lenN (lq_names q) = lenN (lq_types q) -> lq_types q <> [] -> Forall2 (numbers tys) (lq_types q) fvs ->
  lq_pick q = None -> asks (lq_names q) (lq_pred q) x -> Forall2 (asks (lq_names q)) (lq_soft q) xs -> lenN xs < 2 ^ 32 ->
  good_points ok fvs (tr_points tr) ->
  (forall p bs, In p (tr_points tr) -> assignment p fvs bs -> closed_b (bound p bs) x /\ Forall (closed_b (bound p bs)) xs) ->
  lisp_query A unit (direct O) ok pick hash l tt i q = Ok (ls, m, l', tt) ->
  exists B rs, rs = flat_map (fun p => map (result p) (B p))
                      (filter (fun p => N.land (p_stmt p) (file_mask (lq_file q)) =? file_statement (lq_file q)) (tr_points tr)) /\
    (forall p, In p (tr_points tr) -> ascending (B p) /\ forall bs, In bs (B p) <-> wanted fvs x xs p bs) /\
    match lq_filter q with
    | None => exists fs, firsts [] rs fs /\ Forall2 (shows (map c_string (tr_names tr)) (tr_types tr)) fs ls
    | Some g => exists cands, Forall2 (shows (map c_string (tr_names tr)) (tr_types tr)) rs cands /\ lasts same_binding (filter g cands) ls
    end.
Proof.
  intros A O ok pick hash l i tr c tys q fvs x xs ls m l' Hn HC Ht HL Hne HF Hp Hx Hxs Hlen HG CL H.
  unfold lisp_query, lisp_types, aref in H. rewrite Hn in H. cbn [bind fst] in H. rewrite Ht in H. cbn [bind] in H. apply bind_ok in H. destruct H as (cq & Hc & H).
  apply bind_ok in H. destruct H as ([[rs d] s1] & Hq & H). apply bind_ok in H. destruct H as (ls' & Hls & E). inversion E; subst. clear E.
  destruct (asks_made _ _ _ Hx) as (ch & ph & M1 & M2 & M3 & M4). destruct (all_asks_made _ _ _ Hxs) as (cs & ps & S1 & S2 & S3 & S4).
  assert (Ef : mapO (type_indices tys) (lq_types q) = Ok fvs).
  { apply mapO_Forall2. eapply Forall2_impl; [|exact HF]. intros ts fv. apply type_indices_iff. }
  unfold to_cquery in Hc. destruct (match lq_pred q with Some _ => _ | None => _ end); [|discriminate]. rewrite Ef, M1, S1, Hp in Hc. cbn [bind] in Hc.
  destruct (_ <? _); [|discriminate]. inversion Hc; subst cq. clear Hc.
  assert (Hlf : lenN (lq_names q) = lenN fvs) by (rewrite HL; eapply CApiProofs.Forall2_lenN; exact HF).
  rewrite Hlf in M4, S4.
  assert (Hnf : fvs <> []) by (intros ->; inversion HF; congruence).
  assert (Hsl : lenN ps < 2 ^ 32) by (replace (lenN ps) with (lenN xs); [exact Hlen|eapply CApiProofs.Forall2_lenN; exact S3]).
  destruct (query_wanted O ok pick (tr_points tr) c fvs x xs ph ps (file_mask (lq_file q)) (file_statement (lq_file q)) HC Hnf HG M4 S4 Hsl M3 S3 CL) as (B & c' & EQ & HB).
  unfold query_trace in Hq. rewrite Hn in Hq. cbn [cq_hard cq_soft cq_fvs cq_seed cq_mask cq_stmt cq_keep] in Hq. rewrite M2 in Hq. cbn [bind] in Hq. rewrite S2 in Hq. cbn [bind] in Hq.
  rewrite EQ in Hq. cbn [bind] in Hq. inversion Hq as [[Er Ed]]. clear Hq Ed.
  eexists B, _. split; [reflexivity|]. split; [intros p Hin; destruct (HB p Hin) as (H1 & _ & H2); auto|].
  set (all := flat_map _ _) in *. destruct (lq_filter q) as [g|] eqn:Eg.
  - cbn in Er. subst rs. apply bind_ok in Hls. destruct Hls as (cands & Hcv & E). inversion E; subst ls. clear E.
    destruct (convert_shows _ _ _ _ _ Hcv) as (all' & _ & -> & SH). exists all'. split; [exact SH|]. apply (remove_duplicates_lasts _ _ _ key_equalp_iff).
  - cbn in Er. subst rs. exists (dedup hash [] all). split; [apply (C29_keeps_firsts hash)|].
    destruct (convert_shows _ _ _ _ _ Hls) as (all' & _ & -> & SH). replace (filter (fun _ => true) all') with all' by (clear; induction all'; cbn; congruence). exact SH.
Qed.
Print Assumptions C53_query.

(** (query-trace db 0 '((a "int")) :file-id 1 :predicate '(> (v/value a) 5)
      :soft-predicates '((= (v/size a) 16) (> (v/value a) 7)) :filter ...) *)
Definition ex_pq (soft : list (option sexp)) (flt : option (lpoint -> bool)) : lquery :=
  mkLQ [10] [[ex_int]] None (Some 1) (Some (SList OGt [SList OValue [SSym 10]; SInt 5])) soft flt.
Definition ex_softs : list (option sexp) :=
  [Some (SList OEq [SList OSize [SSym 10]; SInt 16]); Some (SList OGt [SList OValue [SSym 10]; SInt 7])].
Example C53_ex_query : exists c tys fvs x xs,
  nthN (db_traces (l_db ex_ldb)) 0 = Some (ex_ltr, c) /\ coherent (tr_points ex_ltr) c /\ c_get_types all_ok ex_ltr = Ok tys /\
  Forall2 (numbers tys) (lq_types (ex_pq ex_softs None)) fvs /\ asks [10] (lq_pred (ex_pq ex_softs None)) x /\ Forall2 (asks [10]) ex_softs xs /\
  good_points all_ok fvs (tr_points ex_ltr) /\
  (forall p bs, In p (tr_points ex_ltr) -> assignment p fvs bs -> closed_b (bound p bs) x /\ Forall (closed_b (bound p bs)) xs) /\
  lresults (lisp_query N unit (direct qops) all_ok ex_pick ex_hash ex_ldb tt 0 (ex_pq [] None)) =
    Ok ([ex_res (Some 1) ex_y 6 (Some 16); ex_res (Some 1) ex_x 7 None], Some 77, tt) /\
  lresults (lisp_query N unit (direct qops) all_ok ex_pick ex_hash ex_ldb tt 0 (ex_pq ex_softs None)) =
    Ok ([ex_res (Some 1) ex_y 6 (Some 16)], Some 77, tt) /\
  lresults (lisp_query N unit (direct qops) all_ok ex_pick ex_hash ex_ldb tt 0 (ex_pq ex_softs (Some (fun _ => true)))) =
    Ok ([ex_res (Some 1) ex_y 8 (Some 16)], Some 77, tt).
Proof.
  assert (H0 : first_at [10] 10 0) by (split; [reflexivity|intros j Hj; lia]).
  eexists _, _, [[0]], (BCmp CGt (IValue 0) (IConst 5)), [BCmp CEq (ISize 0) (IConst 16); BCmp CGt (IValue 0) (IConst 7)].
  split; [reflexivity|]. split; [constructor|]. split; [vm_compute; reflexivity|].
  split; [repeat constructor; intros j Hj; lia|]. split; [cbn; repeat (constructor; try assumption; try lia)|].
  split; [repeat (constructor; try assumption; try lia)|].
  assert (V : Forall (fun p : point N => Forall (fun v => var_ok v /\ v_fmt v <> FLOAT) (p_vars p)) (tr_points ex_ltr)).
  { apply Forall_forall. intros p Hp. apply Forall_forall. intros v Hv. vm_compute in Hp.
    destruct Hp as [<-|[<-|[<-|[<-|[]]]]]; cbn [p_vars] in Hv; destruct Hv as [<-|[<-|[]]]; (split; [|discriminate]); cbn; (split; [tauto|]);
      eexists; (split; [reflexivity|]); (split; [reflexivity|]); vm_compute; split; congruence. }
  rewrite Forall_forall in V.
  split; [|split; [|split; [|split]]; try (vm_compute; reflexivity)].
  - apply Forall_forall. intros p Hp. split.
    + eapply Forall_impl; [|apply V; exact Hp]. intros v [H _]. exact H.
    + vm_compute in Hp. destruct Hp as [<-|[<-|[<-|[<-|[]]]]]; split; reflexivity.
  - intros p bs Hp Hb. inversion Hb as [|? b ? bs' (v & Hv & _) Hb']; subst. inversion Hb'; subst.
    assert (F : v_fmt v <> FLOAT) by (specialize (V p Hp); rewrite Forall_forall in V; apply V; eapply nthN_In; exact Hv).
    unfold bound. cbn [flat_map]. rewrite Hv. cbn [app closed_b closed_i]. split; [split; [exists v; auto|exact I]|].
    repeat constructor; cbn; auto. exists v. auto.
Qed.
