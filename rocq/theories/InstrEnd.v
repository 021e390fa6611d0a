(** Running an instrumented program and reading its log: proofs. *)
From Coq Require Import Strings.String Permutation.
From Verif Require Import BaseProofs Types Stream SkipList AMap MemMapSpec Reader Writer Compare PrintPred FormatSpec FormatUB CanonSpec ReaderMore ReaderProps.
From Verif Require Import Instr InstrRun InstrSpec InstrText InstrFloat InstrTable InstrConc InstrProofs.

(** ** Header *)
Lemma c_string_free : forall n, nul_free n -> c_string n = n.
Proof.
  induction n as [|b n IH]; intros H; auto. cbn [c_string].
  assert (E : c_string n = n) by (apply IH; intros X; apply H; right; auto).
  rewrite E. destruct b; auto. exfalso. apply H. now left.
Qed.

Lemma total_size_eq : forall names, Forall nul_free names -> lenN (name_chars names) < 2 ^ 64 ->
  total_size names = lenN (name_chars names).
Proof.
  assert (G : forall names acc, Forall nul_free names -> acc + lenN (name_chars names) < 2 ^ 64 ->
    fold_left (fun s n => add64 s (lenN (c_string n) + 1)) names acc = acc + lenN (name_chars names)).
  { induction names as [|n names IH]; intros acc F L.
    - cbn. unfold name_chars. cbn. lia.
    - inversion F; subst. cbn [fold_left]. rewrite c_string_free by auto.
      assert (E : lenN (name_chars (n :: names)) = lenN n + 1 + lenN (name_chars names)).
      { unfold name_chars. cbn [map concat]. rewrite !lenN_app. reflexivity. }
      rewrite E in *. rewrite IH; auto.
      + unfold add64. change two64 with (2 ^ 64). rewrite N.mod_small; lia.
      + unfold add64. change two64 with (2 ^ 64). rewrite N.mod_small; lia. }
  intros names F L. unfold total_size. rewrite G; auto.
Qed.

Lemma header_bytes : forall names types, Forall nul_free names -> lenN (name_chars names) < 2 ^ 64 ->
  written (write_trace_header names types) = enc_header names types.
Proof.
  intros names types F L. unfold write_trace_header, enc_header, enc_names, enc_types.
  rewrite !written_app. rewrite total_size_eq by auto.
  assert (E : written (concat (map (fun n => [AWrite (c_string n); AWrite [x00]]) names)) = name_chars names).
  { clear L. induction F as [|n names H F IH]; auto. cbn [map concat]. rewrite written_app, IH. unfold name_chars. cbn [map concat].
    rewrite c_string_free by auto. unfold written. cbn [map concat]. now rewrite <- !app_assoc. }
  rewrite E. unfold written. cbn [map concat app]. rewrite ?app_nil_r, <- ?app_assoc. reflexivity.
Qed.

(** ** Allocation *)
Lemma enc_entry_len : forall types ni ti data, lenN data <= lenN (enc_entry types (EVar ni ti data)).
Proof. intros. cbn [enc_entry]. destruct (is_var_blob types ti); rewrite ?lenN_cons, ?lenN_app; cbn [app]; rewrite ?lenN_cons, ?lenN_app; lia. Qed.

Lemma In_concat_len : forall A (l : list (list A)) x, In x l -> lenN x <= lenN (concat l).
Proof. induction l as [|y l IH]; intros x I; [destruct I|]. cbn. rewrite lenN_app. destruct I as [<-|I]; [lia|]. apply IH in I. lia. Qed.

Lemma enc_types_len : forall types, lenN (concat (map enc_type types)) = 12 * lenN types.
Proof.
  induction types as [|t types IH]; [reflexivity|]. cbn [map concat]. rewrite lenN_app, IH.
  unfold enc_type. rewrite !lenN_app, !lenN_le_bytes. rewrite lenN_cons. lia.
Qed.

Lemma file_wf_ok : forall ok F, file_wf yes F -> (forall n, n <= lenN (enc_file F) -> ok n = true) -> file_wf ok F.
Proof.
  intros ok F ((A1 & A2 & _) & (B1 & B2 & _) & C & D) H.
  unfold enc_file, enc_header, enc_names, enc_types in H. rewrite !lenN_app, enc_types_len in H.
  split; [split; [auto|split; [auto|intros _; apply H; lia]]|].
  split; [split; [auto|split; [auto|intros _; apply H; lia]]|]. split; auto.
  apply Forall_forall. intros es Ies. apply Forall_forall. intros e Ie.
  rewrite Forall_forall in C. pose proof (C _ Ies) as C'. rewrite Forall_forall in C'. specialize (C' _ Ie).
  destruct e as [id|ni ti data|a s|a]; auto. cbn in *. destruct C' as (X1 & X2 & X3 & t & X4 & X5). repeat split; auto.
  exists t. split; auto. unfold data_wf in *. destruct (t_fmt t); auto. destruct X5 as [X5 _]. split; auto. intros _. apply H.
  assert (L1 : lenN (enc_entry (f_types F) (EVar ni ti data)) <= lenN (enc_entries (f_types F) es)).
  { apply In_concat_len. apply in_map. auto. }
  assert (L2 : lenN (enc_point (f_types F) es) <= lenN (enc_points (f_types F) (f_points F))).
  { apply In_concat_len. apply in_map. auto. }
  unfold enc_point in L2. rewrite lenN_app in L2. pose proof (enc_entry_len (f_types F) ni ti data). lia.
Qed.

Lemma takeN_app2 : forall A (l m : list A) n, lenN l <= n -> takeN n (l ++ m) = l ++ takeN (n - lenN l) m.
Proof.
  intros A l m n H. rewrite !takeN_firstn, firstn_app. unfold lenN in *. f_equal.
  - apply firstn_all2. lia.
  - f_equal. lia.
Qed.

(** ** Sites *)
Section All.
Variable test : name -> name -> bool.
Variable kf : name -> skind.
Variable sites : list site.
Hypothesis SOK : Forall (site_ok kf) sites.
Hypothesis TA : tells_apart test (all_texts sites).

Definition txt (n : name) : Prop := In n (all_texts sites).

Lemma AGT : forall a b, txt a -> txt b -> (test a b = true <-> a = b).
Proof. exact TA. Qed.

Lemma site_pre : forall s, In s sites -> Forall (fun g => Forall (var_pre txt kf (fst g)) (snd g)) (snd s).
Proof.
  intros s I. rewrite Forall_forall in SOK. destruct (SOK _ I) as (_ & _ & HT & HC).
  apply Forall_forall. intros g Ig. apply Forall_forall. intros x Ix.
  assert (T1 : In (fst x) (site_names s)).
  { apply in_concat. exists (map fst (snd g)). split; [apply in_map_iff; eauto|apply in_map; auto]. }
  assert (T2 : In (snd x) (site_types s)).
  { apply in_concat. exists (map snd (snd g)). split; [apply in_map_iff; eauto|apply in_map; auto]. }
  assert (X : forall n, In n (site_names s ++ map type_text (site_types s)) -> txt n).
  { intros n H. apply in_concat. eexists. split; [|exact H]. apply in_map_iff. eauto. }
  unfold var_pre. split; [apply X; apply in_or_app; auto|]. split; [apply X; apply in_or_app; right; apply in_map; auto|].
  split; [rewrite Forall_forall in HT; auto|]. rewrite Forall_forall in HC. intros P D.
  specialize (HC _ Ig P). rewrite Forall_forall in HC. auto.
Qed.

Lemma txt_nul_free : forall n, txt n -> nul_free n.
Proof.
  intros n H. apply in_concat in H. destruct H as (l & Il & In_). apply in_map_iff in Il. destruct Il as (s & <- & Is).
  rewrite Forall_forall in SOK. destruct (SOK _ Is) as (_ & HN & HT & _). rewrite Forall_forall in HN, HT.
  apply in_app_or in In_. destruct In_ as [I|I]; [apply HN; auto|].
  apply in_map_iff in I. destruct I as (t & <- & It). intros X. destruct (text_chars _ _ _ (HT _ It) X). congruence.
Qed.

Lemma all_spec : forall l st code st', (forall s, In s l -> In s sites) -> sinv txt kf st ->
  instrument_all test l st = (code, st') ->
  sinv txt kf st' /\ ext st st' /\
  Forall2 (fun s c => exists s0 s1, sinv txt kf s0 /\ instrument_ast test (fst s) (snd s) s0 = (c, s1) /\ ext s1 st') l code.
Proof.
  induction l as [|[id gs] l IH]; intros st code st' SUB I E; cbn [instrument_all] in E.
  - injection E as <- <-. split; auto. split; [apply ext_refl|constructor].
  - destruct (instrument_ast test id gs st) as [c st1] eqn:E1. destruct (instrument_all test l st1) as [cs st2] eqn:E2. injection E as <- <-.
    assert (S1 : sinv txt kf st1 /\ ext st st1).
    { unfold instrument_ast in E1. destruct (extra_stmts test gs st) as [ex s3] eqn:E3. injection E1 as _ <-.
      refine (extra_spec test txt AGT kf gs st ex s3 I _ E3). apply (site_pre (id, gs)). apply SUB. now left. }
    destruct S1 as [I1 X1]. destruct (IH st1 cs st2) as (I2 & X2 & F); auto; [intros; apply SUB; now right|].
    split; auto. split; [eapply ext_trans; eauto|]. constructor; auto. exists st, st1. auto.
Qed.

Variable names : list name.
Variable types : list tdesc.
Variable code : list (list istmt).
Hypothesis PROG : instrumented test sites names types code.

Lemma prog_state : exists fin, sinv txt kf fin /\ names = names_of fin /\ types = types_of fin /\
  Forall2 (fun s c => exists s0 s1, sinv txt kf s0 /\ instrument_ast test (fst s) (snd s) s0 = (c, s1) /\ ext s1 fin) sites code.
Proof.
  destruct PROG as (st & nal & tal & E & P1 & P2 & -> & ->).
  destruct (all_spec sites istate0 code st) as (I & X & F); auto using sinv0. exists st. split; auto.
  rewrite (emit_names_eq _ _ _ _ I P1), (emit_types_eq _ _ AGT _ _ _ I P2). auto.
Qed.

Lemma names_free : Forall nul_free names.
Proof.
  destruct prog_state as (fin & I & -> & _). eapply Forall_impl; [|apply (si_ndom _ _ _ I)]. exact txt_nul_free.
Qed.

Hypothesis FIT : fits names types.

(** A pass is well-defined and writes a point that shows the site. *)
Definition good_point (e : event) (acts : list action) (es : list entry) : Prop :=
  event_run code e = Ok acts /\ point_shape acts /\ written acts = enc_point types es /\
  Forall (entry_wf yes names types) es /\ records es = [] /\
  forall tr i h p, tr_names tr = names -> tr_types tr = types -> point_of types i h es p -> event_shows sites tr e p.

Lemma Forall2_nth : forall A B (R : A -> B -> Prop) l m, Forall2 R l m -> forall i x, nth_error l i = Some x -> exists y, nth_error m i = Some y /\ R x y.
Proof.
  intros A B R l m F. induction F; intros [|i] z H0; cbn in *; try discriminate; eauto. injection H0 as <-. eauto.
Qed.

Lemma written_ws : forall ws, written (map AWrite ws) = concat ws.
Proof. unfold written. intros. rewrite map_map. now rewrite map_id. Qed.

Lemma event_good : forall e, event_ok sites e -> exists acts es, good_point e acts es.
Proof.
  intros [k env] (s & Hs & EO). cbn [fst snd] in *. destruct prog_state as (fin & I & EN & ET & F).
  destruct (Forall2_nth _ _ _ _ _ F _ _ Hs) as (c & Hc & s0 & s1 & I0 & E & X).
  destruct FIT as (L1 & L2 & _). rewrite EN in L1. rewrite ET in L2.
  pose proof (nth_error_In _ _ Hs) as Is.
  assert (GP : Forall (group_pre txt kf env) (snd s)).
  { pose proof (site_pre s Is) as SP. unfold env_ok in EO. rewrite Forall_forall in *. intros g Ig. split; auto. }
  assert (HI : fst s < 2 ^ 64) by (rewrite Forall_forall in SOK; apply (SOK _ Is)).
  destruct (run_site test txt AGT kf fin L1 L2 env (fst s) (snd s) s0 c s1 I0 GP E X HI) as (ws & es & l & R1 & R2 & R3 & R4).
  destruct (logs_plain fin env l es R4) as (P1 & P2 & P3 & P4).
  exists (ALock :: map AWrite ws ++ [AFlush; AUnlock]), (EStmt (fst s) :: es). unfold good_point. rewrite EN, ET.
  split; [|split; [|split; [|split; [|split]]]].
  - unfold event_run. cbn [fst snd]. rewrite Hc. exact R1.
  - exists ws. reflexivity.
  - rewrite <- R2. change (ALock :: map AWrite ws ++ [AFlush; AUnlock]) with ([ALock] ++ map AWrite ws ++ [AFlush; AUnlock]).
    rewrite !written_app, written_ws. unfold written. cbn. now rewrite app_nil_r.
  - constructor; auto.
  - exact P2.
  - intros tr i h p E1 E2 (Q1 & Q2 & Q3 & Q4 & Q5). exists s. cbn [fst snd]. split; auto.
    cbn [stmt_of records aux_of] in *. rewrite P1 in Q2. rewrite P2 in Q3. rewrite P3 in Q5. split; auto. split; auto. split; auto.
    exists l. split; auto. inversion Q4; subst. eapply logs_vars; eauto.
Qed.

Lemma events_good : forall l, Forall (event_ok sites) l -> exists acts, Forall2 (fun e a => exists es, good_point e a es) l acts.
Proof.
  induction 1 as [|e l H _ (acts & IH)]; [exists []; constructor|].
  destruct (event_good e H) as (a & es & G). exists (a :: acts). constructor; eauto.
Qed.
Lemma threads_good : forall ths, Forall (Forall (event_ok sites)) ths ->
  exists acts, Forall2 (Forall2 (fun e a => exists es, good_point e a es)) ths acts.
Proof.
  induction 1 as [|l ths H _ (acts & IH)]; [exists []; constructor|].
  destruct (events_good l H) as (a & G). exists (a :: acts). constructor; auto.
Qed.

Lemma merge_rel : forall A B (R : A -> B -> Prop) m o, merge m o -> forall l, Forall2 (Forall2 R) l m ->
  exists o', merge l o' /\ Forall2 R o' o.
Proof.
  intros A B R m o M. induction M as [ll H|ll i x r o H M IH]; intros l F.
  - exists []. split; [|constructor]. constructor. clear -F H. induction F as [|a b l m X F IH]; [constructor|].
    inversion H; subst. inversion X; subst. constructor; auto.
  - assert (E : exists y q, nth_error l i = Some (y :: q) /\ R y x /\ Forall2 R q r).
    { clear -F H. revert i H. induction F as [|a b l m X F IH]; intros [|i] H; cbn in *; try discriminate.
      - injection H as ->. inversion X; subst. eauto 6.
      - eauto. }
    destruct E as (y & q & E1 & E2 & E3).
    assert (U : Forall2 (Forall2 R) (update l i q) (update ll i r)).
    { clear -F E3. revert i. induction F as [|a b l m X F IH]; intros i; [destruct i; constructor|].
      destruct i; cbn; constructor; auto. }
    destruct (IH _ U) as (o' & M' & F'). exists (y :: o'). split; [econstructor; eauto|constructor; auto].
Qed.

(** The file made of these points. *)
Lemma points_read : forall order o, Forall2 (fun e a => exists es, good_point e a es) order o ->
  exists pts, wr o = enc_points types pts /\ lenN pts = lenN o /\
    Forall (Forall (entry_wf yes names types)) pts /\ records (concat pts) = [] /\
    forall tr i h ps, tr_names tr = names -> tr_types tr = types -> points_of types i h pts ps ->
      Forall2 (event_shows sites tr) order ps.
Proof.
  intros order o F. induction F as [|e a order o (es & G) _ (pts & E1 & E2 & E3 & E4 & E5)].
  - exists []. repeat split; auto. intros tr i h ps _ _ P. inversion P; subst. constructor.
  - destruct G as (G1 & G2 & G3 & G4 & G5 & G6). exists (es :: pts). split; [|split; [|split; [|split]]].
    + unfold wr, enc_points in *. cbn [map concat]. now rewrite G3, E1.
    + rewrite !lenN_cons. lia.
    + constructor; auto.
    + cbn [concat]. clear -G5 E4. induction es as [|[] es IH]; cbn in *; auto; discriminate.
    + intros tr i h ps N1 N2 P. inversion P; subst. constructor; eauto.
Qed.

Lemma types_fine : Forall type_wf types.
Proof.
  destruct prog_state as (fin & I & EN & ET & _). destruct FIT as (L1 & _). apply Forall_forall. intros d Hd. rewrite ET in Hd.
  unfold types_of in Hd. apply in_map_iff in Hd. destruct Hd as ((k & d') & E & Hd). cbn in E. subst d'.
  pose proof (si_desc _ _ _ I) as D. rewrite Forall_forall in D. destruct (D _ Hd) as [D1 D2]. cbn [fst snd] in D1, D2.
  destruct D2 as (t & ps & OK & C & _ & _ & FS).
  split; [|split].
  - apply nthN_Some_lt in D1. rewrite EN in L1. unfold names_of in L1. lia.
  - rewrite (fmt_kind _ _ _ OK C) in FS. destruct (kind_fn t) as [k0|] eqn:K; [|discriminate].
    unfold fmt_of_kind in FS. destruct (as_string ps k0); [injection FS as _ <-; reflexivity|].
    destruct k0 as [[] m| | | | |]; try discriminate; injection FS as _ <-; try reflexivity;
      apply has_kind_fn in K; apply kind_int_size in K; cbn [In] in K; lia.
  - rewrite (fmt_kind _ _ _ OK C) in FS. destruct (kind_fn t) as [k0|] eqn:K; [|discriminate].
    unfold fmt_of_kind in FS. destruct (as_string ps k0); [injection FS as <- _; discriminate|].
    destruct k0 as [[] m| | | | |]; try discriminate; injection FS as <- _; discriminate.
Qed.

Lemma file_fine : forall pts, Forall (Forall (entry_wf yes names types)) pts -> records (concat pts) = [] ->
  file_wf yes (mkF names types pts).
Proof.
  intros pts W R. destruct FIT as (L1 & L2 & L3). split; [|split; [|split]]; cbn [f_names f_types f_points]; auto.
  - split; [exact names_free|]. auto.
  - split; [exact types_fine|]. auto.
  - rewrite R. intros pre post X. symmetry in X. apply app_eq_nil in X. destruct X as [-> _]. cbn. lia.
Qed.

Definition reads ok coins pos t max bs := read_trace ok (skip_map coins pos) max (open_stream bs t).

Lemma end_lemma : forall ths, Forall (Forall (event_ok sites)) ths ->
  exists acts, Forall2 (Forall2 (fun e a => event_run code e = Ok a)) ths acts /\
    forall s, rsteps (rstart names types (map (@concat action) acts)) s -> Forall (eq []) (r_threads s) ->
    forall ok coins pos t, (forall n, n <= lenN (r_out s) -> ok n = true) ->
    exists order tr, merge ths order /\ reads ok coins pos t 0 (r_out s) = Ok tr /\
      tr_names tr = names /\ tr_types tr = types /\ Forall2 (event_shows sites tr) order (tr_points tr) /\
      (order <> [] -> r_disk s = lenN (r_out s)).
Proof.
  intros ths HO. destruct (threads_good _ HO) as (acts & G). exists acts. split.
  { clear -G. induction G as [|a b l m X F IH]; constructor; auto. clear -X. induction X as [|e x l m (es & X) F IH]; constructor; auto. apply X. }
  assert (SH : Forall (Forall point_shape) acts).
  { clear -G. induction G as [|a b l m X F IH]; constructor; auto. clear -X. induction X as [|e x l m (es & X) F IH]; constructor; auto. apply X. }
  intros s R F ok coins pos t OK. destruct (finished_lemma _ _ _ _ SH R F) as (o & M & OUT & LK & DK).
  destruct (merge_rel _ _ _ _ _ M _ G) as (order & M' & F'). destruct (points_read _ _ F') as (pts & E1 & E2 & E3 & E4 & E5).
  destruct FIT as (L1 & L2 & L3).
  assert (OE : r_out s = enc_file (mkF names types pts)).
  { rewrite OUT, header_bytes, E1 by auto using names_free. reflexivity. }
  assert (WF : file_wf ok (mkF names types pts)).
  { apply file_wf_ok; [apply file_fine; auto|]. rewrite <- OE. exact OK. }
  destruct (complete_lemma ok coins pos t _ WF) as (tr & RD & (D1 & D2 & D3) & _). cbn [f_names f_types f_points] in *.
  exists order, tr. rewrite OE. repeat split; auto; try (eapply E5; eauto; fail).
  intros NE. rewrite <- OE. apply DK. intros ->. inversion F'; subst. congruence.
Qed.

(** At any time, what has reached the file holds the header and at least the points that were finished;
    limiting the number of points to these, it can be read. *)
Lemma crash_lemma : forall ths, Forall (Forall (event_ok sites)) ths ->
  exists acts, Forall2 (Forall2 (fun e a => event_run code e = Ok a)) ths acts /\
    forall s, rsteps (rstart names types (map (@concat action) acts)) s ->
    exists order rest done part, merge ths (order ++ rest) /\
      Forall2 (fun e a => event_run code e = Ok a) order done /\
      r_out s = enc_header names types ++ concat (map written done) ++ part /\
      (r_lock s = None -> part = []) /\
      (part <> [] -> exists e rest' a more, rest = e :: rest' /\ event_run code e = Ok a /\ written a = part ++ more) /\
      (order <> [] ->
       forall ok coins pos t, (forall n, n <= lenN (r_out s) -> ok n = true) ->
       exists tr, reads ok coins pos t (lenN order) (takeN (r_disk s) (r_out s)) = Ok tr /\
         tr_names tr = names /\ tr_types tr = types /\ Forall2 (event_shows sites tr) order (tr_points tr)).
Proof.
  intros ths HO. destruct (threads_good _ HO) as (acts & G). exists acts. split.
  { clear -G. induction G as [|a b l m X F IH]; constructor; auto. clear -X. induction X as [|e x l m (es & X) F IH]; constructor; auto. apply X. }
  assert (SH : Forall (Forall point_shape) acts).
  { clear -G. induction G as [|a b l m X F IH]; constructor; auto. clear -X. induction X as [|e x l m (es & X) F IH]; constructor; auto. apply X. }
  intros s R. destruct (anytime_lemma _ _ _ _ SH R) as (o & rest & part & M & OUT & PART & LK & DL & DK).
  destruct (merge_rel _ _ _ _ _ M _ G) as (order' & M' & F'). apply Forall2_app_inv_r in F'.
  destruct F' as (order & rest' & F1 & F2 & ->). destruct (points_read _ _ F1) as (pts & E1 & E2 & E3 & E4 & E5).
  pose proof FIT as (L1 & L2 & L3). rewrite header_bytes in * by auto using names_free.
  assert (LO : lenN order = lenN o). { clear -F1. unfold lenN. induction F1; cbn in *; lia. }
  exists order, rest', o, part. split; auto. split; [|split; [exact OUT|split; [exact LK|split]]].
  - clear -F1. induction F1 as [|e x l m (es & X) F IH]; constructor; auto. apply X.
  - intros NE. destruct (PART NE) as (p & r' & more & -> & HP). inversion F2 as [|e ? ? ? (es & GP) F3]; subst.
    exists e, l, p, more. repeat split; auto. apply GP.
  - intros NE ok coins pos t OK.
    assert (NO : o <> []). { intros ->. inversion F1; subst. congruence. }
    specialize (DK NO).
    assert (OE : enc_header names types ++ wr o = enc_file (mkF names types pts)) by (rewrite E1; reflexivity).
    assert (TK : exists more, takeN (r_disk s) (r_out s) = enc_file (mkF names types pts) ++ more).
    { rewrite OUT, app_assoc, OE. rewrite OE in DK. eexists. apply takeN_app2. auto. }
    destruct TK as (more & TK). rewrite TK.
    assert (WF : file_wf ok (mkF names types pts)).
    { apply file_wf_ok; [apply file_fine; auto|]. intros n Hn. apply OK. rewrite OUT, app_assoc, OE, lenN_app. lia. }
    destruct (complete_lemma ok coins pos t _ WF) as (tr & _ & D & _). exists tr.
    assert (X : reads ok coins pos t (lenN order) (enc_file (mkF names types pts) ++ more) = Ok tr).
    { apply rest_ignored_lemma; auto.
      - cbn [f_points]. lia.
      - rewrite LO. intros Z. apply NO. destruct o; auto. rewrite lenN_cons in Z. lia. }
    destruct D as (D1 & D2 & D3). cbn [f_names f_types f_points] in *. repeat split; auto. eapply E5; eauto.
Qed.

(** No deadlock: as long as a thread has something to do, some thread can do it. *)
Lemma live_lemma : forall ths acts, Forall (Forall (event_ok sites)) ths ->
  Forall2 (Forall2 (fun e a => event_run code e = Ok a)) ths acts ->
  forall s, rsteps (rstart names types (map (@concat action) acts)) s -> ~ Forall (eq []) (r_threads s) ->
  exists s', rstep s s' /\ length (concat (r_threads s)) = S (length (concat (r_threads s'))).
Proof.
  intros ths acts HO G s. apply progress_lemma. clear s.
  induction G as [|l m ths acts X G IH]; [constructor|]. inversion HO as [|? ? HL HO']; subst. constructor; auto.
  clear -X HL SOK TA PROG FIT. induction X as [|e a l m E X IH]; [constructor|]. inversion HL as [|? ? HE HL']; subst. constructor; auto.
  destruct (event_good e HE) as (a' & es & G1 & G2 & _). rewrite E in G1. injection G1 as ->. auto.
Qed.

Lemma finish_lemma : forall ths acts, Forall (Forall (event_ok sites)) ths ->
  Forall2 (Forall2 (fun e a => event_run code e = Ok a)) ths acts ->
  forall s, rsteps (rstart names types (map (@concat action) acts)) s ->
  exists s', rsteps s s' /\ Forall (eq []) (r_threads s').
Proof.
  intros ths acts HO G s. remember (length (concat (r_threads s))) as n eqn:EN. revert s EN.
  induction n as [|n IH]; intros s EN R.
  - exists s. split; [constructor|]. symmetry in EN. apply length_zero_iff_nil in EN.
    apply Forall_forall. intros x Hx. destruct x as [|y x]; auto. exfalso.
    assert (X : In y (concat (r_threads s))) by (apply in_concat; exists (y :: x); split; [auto|now left]). rewrite EN in X. destruct X.
  - destruct (live_lemma ths acts HO G s R) as (s1 & ST & L).
    { intros F. assert (Z : concat (r_threads s) = []).
      { clear -F. induction F as [|x l <- F IH]; auto. }
      rewrite Z in EN. discriminate. }
    destruct (IH s1) as (s' & R' & F); [lia|econstructor; eauto|]. exists s'. split; auto.
    clear -R' ST. induction R' as [s1|s1 s2 s3 R' IH X]; [econstructor; [constructor|auto]|]. econstructor; eauto.
Qed.
End All.
