(** C85, C86: the s-expression database. *)
From Verif Require Import BaseProofs Types CApi Lisp LispSpec LispProofs LispProofs2 SexpDb SexpDbSpec SexpDbProofs.

(** ** C85: databases and views *)

(** A database has exactly the traces added to it with their metadata, newest
    first, whatever else is done. *)
Theorem C85_database : forall A (os : list (sop A)) i l, nth_error (ref_run os) i = Some (RBase l) ->
  n_traces A (run_sops A os) i = lenN l /\
  forall index, get_trace A (run_sops A os) i index None = seen l index /\
    (forall f, get_trace A (run_sops A os) i index (Some f) = (in_file f (fst (seen l index)), snd (seen l index))).
Proof.
  intros A os i l H. destruct (base_model A _ _ _ _ _ (winv_all A os) H) as (T & M & E).
  split; [unfold n_traces; rewrite T; apply lenN_map|]. intros k.
  assert (S : get_trace A (run_sops A os) i k None = seen l k).
  { unfold get_trace, meta. rewrite E, T, M by lia. apply seen_model. }
  split; [exact S|]. intros f. rewrite <- S. unfold get_trace. rewrite E. cbn [fst snd]. rewrite of_file_spec. reflexivity.
Qed.
Print Assumptions C85_database.

(** If nothing is added to a view, and nothing to a database with views, then a
    view shows the points of its file in the traces of its parent, with their
    metadata (the same if a file is given to get-trace).  (Every object shows something: [shows] is total.) *)
Theorem C85_view : forall A (os : list (sop A)), quiet [] os ->
  (forall i, (i < length (run_sops A os))%nat -> exists l, shows (ref_run os) i l) /\
  forall i l, shows (ref_run os) i l ->
    n_traces A (run_sops A os) i = lenN l /\
    forall index, get_trace A (run_sops A os) i index None = seen l index /\
      trace_size A (run_sops A os) i index = lenN (fst (seen l index)) /\
      (forall f g p, nth_error (ref_run os) i = Some (RView g p) -> get_trace A (run_sops A os) i index (Some f) = seen l index).
Proof.
  intros A os Q. pose proof (winv_quiet A os Q) as W. split.
  - intros i L. rewrite (winv_len _ _ _ _ W) in L. eapply shows_total; eauto.
  - intros i l H. destruct (shows_model A _ _ W i l H) as [T M].
    split; [unfold n_traces; rewrite T; apply lenN_map|]. intros k.
    assert (S : forall file, (file = None -> get_trace A (run_sops A os) i k file = seen l k)).
    { intros file ->. unfold get_trace, meta. rewrite T, M by lia.
      destruct (nth_error (run_sops A os) i) as [[|]|]; apply seen_model. }
    split; [apply S; reflexivity|]. split.
    + unfold trace_size. rewrite T. unfold seen. rewrite nthN_map. destruct (nthN l k) as [[t m]|]; reflexivity.
    + intros f g p HV. rewrite <- (S None eq_refl). unfold get_trace.
      pose proof (view_model A _ _ _ _ _ _ W HV) as (ts & ms & ->). reflexivity.
Qed.
Print Assumptions C85_view.

(** After a trace is added to a database, every view made before shows the old
    traces, with the metadata of the new one for the first, of the first for
    the second, and so on. *)
Theorem C85_stale_refuted : forall A (os : list (sop A)) b l t0 m0 f t m, nth_error (ref_run os) b = Some (RBase ((t0, m0) :: l)) ->
  let w := run_sops A (os ++ [ORestrict b f; OAdd b t m]) in
  let v := length (run_sops A os) in
  get_trace A w v 0 None = (in_file f t0, Some m) /\ get_trace A w v 1 None = (fst (seen (map (fun e => (in_file f (fst e), snd e)) l) 0), Some m0) /\
  n_traces A w v = lenN l + 1.
Proof.
  intros A os b l t0 m0 f t m H w v. destruct (stale_lemma A os b _ f t m H) as [T M]. fold w in T, M. fold v in T, M.
  assert (G : forall k, get_trace A w v k None = (match nthN (traces A w v) k with Some t => t | None => [] end, nthN (meta A w v) k)).
  { intros k. unfold get_trace. destruct (nth_error w v) as [[|]|]; reflexivity. }
  rewrite !G, T, M. cbn [map fst snd nthN]. split; [reflexivity|]. split.
  - change (1 =? 0) with false. cbn [N.pred]. change (N.pred 1) with 0. destruct l as [|[t1 m1] l]; reflexivity.
  - unfold n_traces. rewrite T. rewrite lenN_map, lenN_cons. lia.
Qed.
Print Assumptions C85_stale_refuted.

(** A trace added to a view is shown with all its points and with the metadata
    of another trace. *)
Theorem C85_through_refuted : forall A (os : list (sop A)) b l f t m, nth_error (ref_run os) b = Some (RBase l) ->
  let v := length (run_sops A os) in
  get_trace A (run_sops A (os ++ [ORestrict b f; OAdd v t m])) v 0 None = (t, snd (seen l 0)).
Proof.
  intros A os b l f t m H v. destruct (through_lemma A os b _ f t m H) as [T M].
  unfold get_trace. fold v in T, M. rewrite T, M. cbn [nthN].
  destruct (nth_error _ v) as [[|]|]; change (0 =? 0) with true; cbn; f_equal; unfold seen; destruct l as [|[t0 m0] l]; reflexivity.
Qed.
Print Assumptions C85_through_refuted.

Definition sx_p (c f : N) : lpoint := mkLP c (Some f) [] [].
Definition sx_ops : list (sop N) :=
  [ONew; OAdd 0 [sx_p 1 0; sx_p 2 1] 70; OAdd 0 [sx_p 3 1; sx_p 4 0] 80; ORestrict 0 1; ONew; OAdd 2 [sx_p 9 5] 90; ORestrict 1 0].
Example C85_ex : quiet [] sx_ops /\ shows (ref_run sx_ops) 1 [([sx_p 3 1], 80); ([sx_p 2 1], 70)] /\
  get_trace N (run_sops N sx_ops) 1 1 None = ([sx_p 2 1], Some 70) /\ get_trace N (run_sops N sx_ops) 3 1 None = ([], Some 70).
Proof.
  split; [|split].
  - cbn. repeat match goal with |- _ /\ _ => split end; try exact I; try (eexists; reflexivity);
      intros v V; apply view_of_cases in V; destruct V as (f & p & H & V); destruct v as [|[|[|v]]]; cbn in H; try discriminate H;
      try (destruct v; discriminate H).
    injection H as <- <-. destruct V as [V|V]; [discriminate V|]. apply view_of_cases in V. destruct V as (f & p & H & _). discriminate H.
  - replace [([sx_p 3 1], 80); ([sx_p 2 1], 70)] with
      (map (fun e : list lpoint * N => (in_file 1 (fst e), snd e)) [([sx_p 3 1; sx_p 4 0], 80); ([sx_p 1 0; sx_p 2 1], 70)]) by reflexivity.
    eapply show_view; [reflexivity|]. apply show_base. reflexivity.
  - vm_compute. auto.
Qed.

(** ** C86: reading, types, queries *)

(** The points of a stream up to a limit are returned if the stream has another
    object; without one they are all there is. *)
Theorem C86_limit : forall skip ps p rest m, m <= lenN ps ->
  read_stream skip (Some m) 0 (map SPoint ps ++ SPoint p :: rest) = Ok (takeN m ps).
Proof.
  intros skip ps p rest m H. rewrite <- (takeN_dropN _ m ps) at 1. rewrite map_app, <- app_assoc.
  rewrite read_points; [|rewrite lenN_takeN; lia]. rewrite lenN_takeN. rewrite N.min_l by lia.
  destruct (dropN m ps) as [|q r]; cbn [map app read_stream]; rewrite (proj2 (N.ltb_ge _ _)) by lia; cbn; rewrite app_nil_r; reflexivity.
Qed.
Print Assumptions C86_limit.
Theorem C86_short : forall skip max ps, match max with None => True | Some m => lenN ps <= m end ->
  read_stream skip max 0 (map SPoint ps) = Ok ps.
Proof.
  intros skip max ps H. rewrite <- (app_nil_r (map SPoint ps)). rewrite read_points; [|destruct max; [lia|exact I]].
  cbn. rewrite app_nil_r. reflexivity.
Qed.
Print Assumptions C86_short.

(** Points up to the first thing that is no point: NIL and the end of the
    stream end the trace, as an error does if the rest is to be skipped;
    otherwise it is signalled.  Nothing after that matters. *)
Theorem C86_stops : forall skip max ps x rest, match max with None => True | Some m => lenN ps <= m end ->
  (forall p, x <> SPoint p) ->
  read_stream skip max 0 (map SPoint ps ++ x :: rest) =
    match x with
    | SNil | SPoint _ => Ok ps
    | SBad => if skip then Ok ps else Throw ELisp
    | SWait => Diverge
    end.
Proof.
  intros skip max ps x rest H NX. rewrite read_points; [|destruct max; [lia|exact I]].
  destruct x as [p| | |]; [destruct (NX p eq_refl)| | |reflexivity]; cbn [read_stream bind]; [|destruct skip]; cbn [bind]; rewrite ?app_nil_r; reflexivity.
Qed.
Print Assumptions C86_stops.

(** add-trace adds what was read, and nothing if there are no points. *)
Theorem C86_add : forall A (w : sworld A) i max s m l, read_stream false max 0 s = Ok l ->
  add_stream A w i max s m = Ok (if lenN l =? 0 then w else do_sop A w (OAdd i l m)).
Proof. intros A w i max s m [|p l] H; unfold add_stream; rewrite H; reflexivity. Qed.
Print Assumptions C86_add.

(** Expected: once as many points as allowed are read, the rest of the stream
    does not matter.  False: an error after the last point that is wanted loses
    all of them, and a writer that pauses there blocks the reader. *)
Theorem C86_limit_refuted : forall A (w : sworld A) i ps mt rest,
  add_stream A w i (Some (lenN ps)) (map SPoint ps ++ SBad :: rest) mt = Throw ELisp /\
  add_stream A w i (Some (lenN ps)) (map SPoint ps ++ SWait :: rest) mt = Diverge.
Proof.
  intros. unfold add_stream. rewrite !read_points by lia. split; reflexivity.
Qed.
Print Assumptions C86_limit_refuted.

(** trace-types: the types of the variables in the trace, each once. *)
Theorem C86_types : forall A (w : sworld A) i index t, nthN (traces A w i) index = Some t ->
  NoDup (trace_types A w i index) /\
  forall n, In n (trace_types A w i index) <-> exists p v, In p t /\ In v (lp_scopes p) /\ lv_type v = n.
Proof.
  intros A w i k t H. unfold trace_types. rewrite H. set (l := map lv_type (flat_map lp_scopes t)). split.
  - pose proof (remove_duplicates_lasts _ bytes_eqb eq bytes_eqb_eq l) as HL. apply lasts_facts in HL; [|reflexivity|congruence].
    destruct HL as (_ & _ & HN). clear -HN. induction HN as [|x r HF _ IH]; constructor; auto.
    intros HI. rewrite Forall_forall in HF. apply (HF x HI). reflexivity.
  - intros n. rewrite remove_duplicates_In. unfold l. rewrite in_map_iff. split.
    + intros (v & <- & Hv). apply in_flat_map in Hv. destruct Hv as (p & Hp & Hv). eauto.
    + intros (p & v & Hp & Hv & <-). exists v. split; [reflexivity|]. apply in_flat_map. eauto.
Qed.
Print Assumptions C86_types.

(** query-trace: the results that pass the filter are the assignments at the
    points of the trace (with :pick of one point), of those with the same
    binding one. *)
Theorem C86_query : forall A cart (w : sworld A) i index tys drawn g rs mt,
  cartesian_spec cart -> query_sexp A cart w i index tys drawn g = Some (rs, mt) ->
  exists t ps, nthN (traces A w i) index = Some t /\ mt = nthN (meta A w i) index /\
    match drawn with None => ps = t | Some k => exists p, nthN t k = Some p /\ ps = [p] end /\
    (forall r, In r rs -> g r = true /\ exists p, In p ps /\ assignment tys p (lp_scopes r) /\
       lp_c r = lp_c p /\ lp_f r = lp_f p /\ lp_aux r = lp_aux p) /\
    (forall p vs, In p ps -> assignment tys p vs -> g (mkLP (lp_c p) (lp_f p) vs (lp_aux p)) = true ->
       Exists (same_binding (mkLP (lp_c p) (lp_f p) vs (lp_aux p))) rs) /\
    ForallOrdPairs (fun x y => ~ same_binding x y) rs.
Proof.
  intros A cart w i k tys drawn g rs mt CS H. unfold query_sexp in H.
  destruct (nthN (traces A w i) k) as [t|] eqn:Ht; [|discriminate].
  assert (X : exists ps, match drawn with None => ps = t | Some k => exists p, nthN t k = Some p /\ ps = [p] end /\
    rs = no_duplicates (filter g (flat_map (at_point cart tys) ps)) /\ mt = nthN (meta A w i) k).
  { destruct t as [|p0 t]; [discriminate|]. destruct drawn as [d|].
    - destruct (nthN (p0 :: t) d) as [p|]; [|discriminate]. injection H as <- <-. exists [p]. split; [eauto|]. cbn [flat_map]. rewrite app_nil_r. auto.
    - injection H as <- <-. exists (p0 :: t). auto. }
  destruct X as (ps & Hps & -> & ->). exists t, ps. split; [reflexivity|]. split; [reflexivity|]. split; [exact Hps|].
  assert (AP : forall p r, In r (at_point cart tys p) <-> exists vs, r = mkLP (lp_c p) (lp_f p) vs (lp_aux p) /\ assignment tys p vs).
  { intros p r. unfold at_point. rewrite in_map_iff.
    assert (AS : forall vs, In vs (cart (map (fun ts => filter (fun v => existsb (bytes_eqb (lv_type v)) ts) (lp_scopes p)) tys)) <-> assignment tys p vs).
    { intros vs. rewrite (CS _ vs). unfold assignment.
      assert (F : forall tys vs, Forall2 (fun v l => In v l) vs (map (fun ts => filter (fun v => existsb (bytes_eqb (lv_type v)) ts) (lp_scopes p)) tys) <->
        Forall2 (fun v ts => In v (lp_scopes p) /\ In (lv_type v) ts) vs tys).
      { clear. induction tys as [|ts tys IH]; intros vs; cbn [map]; split; intros H; inversion H as [|v l vs' ls' H1 H2]; subst; constructor.
        - apply filter_In in H1. destruct H1 as [H1 H3]. split; [exact H1|]. apply existsb_exists in H3. destruct H3 as (n & Hn & E). apply bytes_eqb_eq in E. rewrite E. exact Hn.
        - apply IH. exact H2.
        - apply filter_In. destruct H1 as [H1 H3]. split; [exact H1|]. apply existsb_exists. eexists. split; [exact H3|]. apply bytes_eqb_eq. reflexivity.
        - apply IH. exact H2. }
      rewrite F. reflexivity. }
    split.
    - intros (vs & <- & Hv). exists vs. split; [reflexivity|]. apply AS. exact Hv.
    - intros (vs & -> & Hv). exists vs. split; [reflexivity|]. apply AS. exact Hv. }
  pose proof (remove_duplicates_lasts _ _ _ key_equalp_iff (filter g (flat_map (at_point cart tys) ps))) as HL.
  destruct (lasts_facts _ _ _ _ same_binding_refl same_binding_trans HL) as (F1 & F2 & F3).
  split; [|split; [|exact F3]].
  - intros r Hr. apply F1 in Hr. apply filter_In in Hr. destruct Hr as [Hr Hg]. split; [exact Hg|].
    apply in_flat_map in Hr. destruct Hr as (p & Hp & Hr). apply AP in Hr. destruct Hr as (vs & -> & Ha). exists p. cbn. auto.
  - intros p vs Hp Ha Hg. apply F2. apply filter_In. split; [|exact Hg]. apply in_flat_map. exists p. split; [exact Hp|]. apply AP. eauto.
Qed.
Print Assumptions C86_query.

(** A function as the library documents it. *)
Definition lvar_dec : forall a b : lvar, {a = b} + {a <> b}.
Proof.
  assert (B : forall a b : list byte, {a = b} + {a <> b}) by (apply list_eq_dec; apply Byte.byte_eq_dec).
  assert (V : forall a b : lval, {a = b} + {a <> b}) by (decide equality; try apply N.eq_dec; apply Z.eq_dec).
  assert (S : forall a b : option N, {a = b} + {a <> b}) by (decide equality; apply N.eq_dec).
  decide equality.
Defined.
Fixpoint distinct (vs : list lvar) : bool :=
  match vs with [] => true | v :: r => negb (if in_dec lvar_dec v r then true else false) && distinct r end.
Definition ex_cart (ls : list (list lvar)) : list (list lvar) :=
  filter distinct
    (fold_right (fun l acc => flat_map (fun v => map (cons v) acc) l) [[]] ls).
Example C86_ex_cart : cartesian_spec ex_cart.
Proof.
  intros ls vs. unfold ex_cart. rewrite filter_In.
  assert (P : forall ls vs, In vs (fold_right (fun l acc => flat_map (fun v => map (cons v) acc) l) [[]] ls) <-> Forall2 (fun v (l : list lvar) => In v l) vs ls).
  { clear. induction ls as [|l ls IH]; intros vs; cbn [fold_right].
    - split; [intros [<-|[]]; constructor|]. intros H. inversion H. left. reflexivity.
    - rewrite in_flat_map. split.
      + intros (v & Hv & H). apply in_map_iff in H. destruct H as (r & <- & Hr). constructor; [exact Hv|]. apply IH. exact Hr.
      + intros H. inversion H as [|v l' r ls' Hv Hr]; subst. exists v. split; [exact Hv|]. apply in_map. apply IH. exact Hr. }
  assert (D : distinct vs = true <-> NoDup vs).
  { clear. induction vs as [|v vs IH]; cbn [distinct]; [split; [constructor|reflexivity]|].
    rewrite Bool.andb_true_iff, IH. destruct (in_dec lvar_dec v vs) as [H|H]; cbn; split.
    - intros [X _]. discriminate.
    - intros X. inversion X. contradiction.
    - intros [_ X]. constructor; assumption.
    - intros X. inversion X. auto. }
  rewrite P, D. reflexivity.
Qed.
Definition ex_sx_point : lpoint := mkLP 5 None [mkLV [x61] [x69] (LInt 3) None; mkLV [x62] [x6a] (LInt 4) None] [].
Example C86_ex : exists rs, query_sexp N ex_cart [SBase [[ex_sx_point]] [70]] 0 0 [[[x6a]]; [[x69]; [x6a]]] None (fun _ => true) = Some (rs, Some 70) /\
  map (fun r => map lv_name (lp_scopes r)) rs = [[[x62]; [x61]]] /\
  trace_types N [SBase [[ex_sx_point]] [70]] 0 0 = [[x69]; [x6a]].
Proof. eexists. vm_compute. auto. Qed.
Example C86_ex_limit : forall p q, read_stream false (Some 2) 0 [SPoint p; SPoint q; SPoint p; SBad] = Ok [p; q] /\
  read_stream false (Some 2) 0 [SPoint p; SPoint q; SBad] = Throw ELisp /\ read_stream true (Some 2) 0 [SPoint p; SPoint q; SBad] = Ok [p; q].
Proof. intros. vm_compute. auto. Qed.
