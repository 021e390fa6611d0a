(** Logs with buffer sizes: proofs. *)
From Coq Require Import Permutation.
From Verif Require Import BaseProofs Types Stream SkipList AMap MemMapSpec Reader Writer Compare PrintPred FormatSpec FormatUB CanonSpec ReaderMore ReaderProps.
From Verif Require Import Instr InstrRun InstrSpec InstrText InstrFloat InstrTable InstrConc InstrProofs InstrEnd InstrSize InstrSizeSpec.

(** ** Any threads that log points *)
Section Generic.
Variable names : list name.
Variable types : list tdesc.
Hypothesis NF : Forall nul_free names.
Hypothesis TF : Forall type_wf types.
Hypothesis FIT : fits names types.
Variable E : Type.
Variable good : E -> list action -> list entry -> Prop.
Hypothesis GOOD : forall e a es, good e a es -> point_shape a /\ written a = enc_point types es /\
  Forall (entry_wf yes names types) es /\ Forall (fun r => fst r <> 2 ^ 64 - 1) (records es).

Lemma records_app : forall a b, records (a ++ b) = records a ++ records b.
Proof. induction a as [|[] a IH]; intros b; cbn; auto. now rewrite IH. Qed.

Lemma no_sentinel : forall h, Forall (fun r : N * N => fst r <> 2 ^ 64 - 1) h -> sentinel_safe h.
Proof.
  intros h F pre post ->. apply Forall_app in F. destruct F as [F _]. unfold sentinel_frees, sentinel_allocs.
  assert (Z : filter (fun r : N * N => (fst r =? 2 ^ 64 - 1) && (snd r =? 0)) pre = []).
  { induction F as [|r pre H F IH]; [reflexivity|]. cbn [filter]. destruct (N.eqb_spec (fst r) (2 ^ 64 - 1)); [contradiction|]. exact IH. }
  rewrite Z. cbn. lia.
Qed.

Lemma gen_points : forall order o, Forall2 (fun e a => exists es, good e a es) order o ->
  exists pts, wr o = enc_points types pts /\ Forall2 (fun e es => exists a, good e a es) order pts /\
    Forall (Forall (entry_wf yes names types)) pts /\ Forall (fun r => fst r <> 2 ^ 64 - 1) (records (concat pts)).
Proof.
  intros order o F. induction F as [|e a order o (es & G) _ (pts & E1 & E2 & E3 & E4)].
  - exists []. repeat split; constructor.
  - destruct (GOOD _ _ _ G) as (G2 & G3 & G4 & G5). exists (es :: pts). split; [|split; [|split]].
    + unfold wr, enc_points in *. cbn [map concat]. now rewrite G3, E1.
    + constructor; eauto.
    + constructor; auto.
    + cbn [concat]. rewrite records_app. apply Forall_app. auto.
Qed.

Lemma gen_end : forall ths acts, Forall2 (Forall2 (fun e a => exists es, good e a es)) ths acts ->
  forall s, rsteps (rstart names types (map (@concat action) acts)) s -> Forall (eq []) (r_threads s) ->
  forall ok coins pos t, (forall n, n <= lenN (r_out s) -> ok n = true) ->
  exists order pts tr, merge ths order /\ Forall2 (fun e es => exists a, good e a es) order pts /\
    reads ok coins pos t 0 (r_out s) = Ok tr /\ tr_names tr = names /\ tr_types tr = types /\
    points_of types 0 [] pts (tr_points tr) /\ (order <> [] -> r_disk s = lenN (r_out s)).
Proof.
  intros ths acts G s R F ok coins pos t OK.
  assert (SH : Forall (Forall point_shape) acts).
  { clear -G GOOD. induction G as [|a b l m X F IH]; constructor; auto. clear -X GOOD. induction X as [|e x l m (es & X) F IH]; constructor; auto.
    apply (GOOD _ _ _ X). }
  destruct (finished_lemma _ _ _ _ SH R F) as (o & M & OUT & LK & DK).
  destruct (merge_rel _ _ _ _ _ M _ G) as (order & M' & F'). destruct (gen_points _ _ F') as (pts & E1 & E2 & E3 & E4).
  pose proof FIT as (L1 & L2 & L3).
  assert (OE : r_out s = enc_file (mkF names types pts)).
  { rewrite OUT, header_bytes, E1 by auto. reflexivity. }
  assert (WF : file_wf ok (mkF names types pts)).
  { apply file_wf_ok; [|rewrite <- OE; exact OK]. unfold file_wf. cbn [f_names f_types f_points].
    split; [split; auto|]. split; [split; auto|]. split; auto using no_sentinel. }
  destruct (complete_lemma ok coins pos t _ WF) as (tr & RD & (D1 & D2 & D3) & _). cbn [f_names f_types f_points] in *.
  exists order, pts, tr. rewrite OE. repeat match goal with |- _ /\ _ => split end; auto.
  intros NE. rewrite <- OE. apply DK. intros ->. inversion F'; subst. congruence.
Qed.
End Generic.

(** ** The program without the buffer sizes *)
Definition std (s : xstmt) : list istmt := match s with XStd s => [s] | XSize _ _ => [] end.

Lemma flat_std : forall l, flat_map std (map XStd l) = l.
Proof. induction l; cbn; congruence. Qed.

Lemma x_extra_plain : forall test gs st c st', x_extra test gs st = (c, st') ->
  extra_stmts test (flat_map (fun g => match g with XVars g => [g] | XBuf _ _ => [] end) gs) st = (flat_map std c, st').
Proof.
  induction gs as [|[[ps l]|a n] gs IH]; intros st c st' E; cbn [x_extra flat_map] in *.
  - injection E as <- <-. reflexivity.
  - destruct (instrument_c_exprs test l ps st) as [s1 st1] eqn:E1. destruct (x_extra test gs st1) as [s2 st2] eqn:E2.
    injection E as <- <-. cbn [app extra_stmts]. rewrite E1, (IH _ _ _ E2). now rewrite flat_map_app, flat_std.
  - destruct (x_extra test gs st) as [s2 st2] eqn:E2. injection E as <- <-. cbn [app flat_map std]. now apply IH.
Qed.

Lemma x_all_plain : forall test sites st code st', x_all test sites st = (code, st') ->
  instrument_all test (map plain sites) st = (map (flat_map std) code, st').
Proof.
  induction sites as [|[id gs] sites IH]; intros st code st' E; cbn [x_all map] in *.
  - injection E as <- <-. reflexivity.
  - destruct (x_ast test id gs st) as [s1 st1] eqn:E1. destruct (x_all test sites st1) as [s2 st2] eqn:E2.
    injection E as <- <-. unfold x_ast in E1. destruct (x_extra test gs st) as [ex st3] eqn:E3. injection E1 as <- <-.
    unfold plain at 1. cbn [fst snd instrument_all]. unfold instrument_ast. rewrite (x_extra_plain _ _ _ _ _ E3).
    rewrite (IH _ _ _ E2). cbn [map]. do 2 f_equal. cbn [flat_map std app]. now rewrite flat_map_app.
Qed.

Lemma x_plain : forall test sites names types code, xinstrumented test sites names types code ->
  instrumented test (map plain sites) names types (map (flat_map std) code).
Proof.
  intros test sites names types code (st & nal & tal & E & R). exists st, nal, tal. split; auto. now apply x_all_plain.
Qed.

(** ** A pass *)
Lemma pointer_shows : forall ps k v f n x, shows ps k v f n x -> f = POINTER -> exists a s, v = RPtr a s /\ x = VBits a.
Proof. intros ps k v f n x H. destruct H; intros X; try discriminate; eauto. Qed.

Section Pass.
Variable test : name -> name -> bool.
Variable texts : name -> Prop.
Hypothesis AG : forall a b, texts a -> texts b -> (test a b = true <-> a = b).
Variable kf : name -> skind.
Variable fin : istate.
Hypothesis L1 : lenN (names_of fin) < 2 ^ 32.
Hypothesis L2 : lenN (types_of fin) < 2 ^ 32.
Let NN := names_of fin.
Let TT := types_of fin.

Definition xgroup_pre (env : name -> rvalue) (g : xgroup) : Prop :=
  match g with
  | XVars g => group_pre texts kf env g
  | XBuf a n => exists p t z, env a = RPtr p t /\ env n = RInt z /\ p < 2 ^ 64 - 1 /\ (0 <= z < 2 ^ 64)%Z
  end.

(** Entries of the groups. *)
Inductive xlogs (env : name -> rvalue) : list xgroup -> list entry -> Prop :=
| xl_nil : xlogs env [] []
| xl_vars : forall g gs l es fs, site_vars [g] l -> Forall2 (logs fin env) l es -> xlogs env gs fs -> xlogs env (XVars g :: gs) (es ++ fs)
| xl_buf : forall a n p t z gs fs, env a = RPtr p t -> env n = RInt z -> p < 2 ^ 64 - 1 -> (0 <= z < 2 ^ 64)%Z ->
    xlogs env gs fs -> xlogs env (XBuf a n :: gs) (EBuf p (Z.to_N z) :: fs).

Lemma x_sinv : forall env gs st c st', sinv texts kf st -> Forall (xgroup_pre env) gs -> x_extra test gs st = (c, st') ->
  sinv texts kf st' /\ ext st st'.
Proof.
  intros env gs st c st' I F E. apply x_extra_plain in E. eapply extra_spec; [exact AG|exact I| |exact E].
  clear -F. induction F as [|[g|a n] gs H F IH]; cbn [flat_map app]; auto. constructor; auto. apply H.
Qed.

Lemma x_run_extra : forall env gs st c st', sinv texts kf st -> Forall (xgroup_pre env) gs ->
  x_extra test gs st = (c, st') -> ext st' fin ->
  exists ws es, run_xstmts env c = Ok (map AWrite ws) /\ concat ws = enc_entries TT es /\ xlogs env gs es.
Proof.
  intros env gs. induction gs as [|[[ps l]|a n] gs IH]; intros st c st' I F E XF; cbn [x_extra] in E.
  - injection E as <- <-. exists [], []. repeat split; constructor.
  - inversion F as [|? ? FG F']; subst. destruct FG as [F1 F2]. cbn [fst snd] in *.
    destruct (instrument_c_exprs test l ps st) as [s1 st1] eqn:E1. destruct (x_extra test gs st1) as [s2 st2] eqn:E2.
    injection E as <- ->.
    assert (I1 : sinv texts kf st1).
    { unfold instrument_c_exprs in E1. destruct (instrument_vars test l ps st) as [[vs bs] st3] eqn:EI. injection E1 as _ <-.
      destruct (instrument_vars_spec _ _ AG _ _ _ _ _ _ _ I F1 EI) as (X & _). auto. }
    destruct (x_sinv env gs st1 s2 st' I1 F' E2) as [_ X1].
    destruct (run_group test texts AG kf fin L1 L2 env ps l st s1 st1 I F1 F2 E1) as (_ & _ & va & vb & La & Lb & w1 & e1 & R1 & R2 & R3);
      [eapply ext_trans; eauto|].
    destruct (IH _ _ _ I1 F' E2 XF) as (w2 & e2 & S1 & S2 & S3).
    exists (w1 ++ w2), (e1 ++ e2). split; [|split].
    + unfold run_xstmts. rewrite map_app. apply mapC_app; [|exact S1].
      clear -R1. revert w1 R1. unfold run_stmts. generalize (map AWrite). intros f w1. generalize (f w1). clear f w1.
      induction s1 as [|x s1 IH]; intros w R; cbn [map mapC] in *; [exact R|].
      change (run_xstmt env (XStd x)) with (run_stmt env x).
      destruct (run_stmt env x) as [ax| | | |]; cbn [bind] in *; try discriminate.
      destruct (mapC (run_stmt env) s1) as [al| | | |]; cbn [bind] in *; try discriminate. rewrite (IH _ eq_refl). exact R.
    + rewrite concat_app, R2, S2. unfold enc_entries. now rewrite map_app, concat_app.
    + eapply xl_vars; [|exact R3|exact S3].
      replace (map (fun x : name * ctype => (ps, fst x, snd x)) (va ++ vb)) with (map (fun x : name * ctype => (ps, fst x, snd x)) (va ++ vb) ++ []) by apply app_nil_r.
      constructor; auto. constructor.
  - inversion F as [|? ? FG F']; subst. destruct FG as (p & t & z & Ea & En & Hp & Hz).
    destruct (x_extra test gs st) as [s2 st2] eqn:E2. injection E as <- ->.
    destruct (IH _ _ _ I F' E2 XF) as (w2 & e2 & S1 & S2 & S3).
    exists ([x03] :: (le_bytes 8 p ++ le_bytes 8 (Z.to_N z)) :: w2), (EBuf p (Z.to_N z) :: e2). split; [|split].
    + unfold run_xstmts in *. cbn [mapC run_xstmt]. rewrite Ea, En. cbn [bind]. rewrite S1. cbn [bind].
      rewrite Z.mod_small by exact Hz. reflexivity.
    + cbn [concat]. rewrite S2. unfold enc_entries. cbn [map concat enc_entry]. cbn [app]. reflexivity.
    + econstructor; eauto.
Qed.

Lemma logs_xvars : forall env l es, Forall2 (logs fin env) l es -> forall tr h xs, tr_names tr = NN -> tr_types tr = TT ->
  vars_of TT h es xs -> Forall2 (xvar_shows tr env h) l xs.
Proof.
  clear L1 L2 AG test texts kf. intros env l es F. induction F as [|y e l es (ni & ti & data & -> & _ & SH) _ IH]; intros tr h xs E1 E2 V.
  - inversion V; subst. constructor.
  - inversion V as [|? ? ? ? ? v vs VO V'| | |]; subst. constructor; [|eauto].
    pose proof (SH tr h v E1 E2 VO) as S0. split; [exact S0|].
    destruct VO as (_ & _ & _ & d & _ & FM & VV & P1 & P2). rewrite FM. split.
    + intros EP. destruct S0 as (_ & _ & k & _ & SW). destruct (pointer_shows _ _ _ _ _ _ SW) as (a & s & E3 & E4); [congruence|].
      exists a, s. split; auto. rewrite EP in VV. cbn [value_of] in VV. rewrite VV in E4. injection E4 as <-. auto.
    + exact P2.
Qed.

Lemma vars_of_app : forall types a h b xs, vars_of types h (a ++ b) xs ->
  exists x1 x2, xs = x1 ++ x2 /\ vars_of types h a x1 /\ vars_of types (h ++ records a) b x2.
Proof.
  intros types a. induction a as [|e a IH]; intros h b xs V; cbn [app records] in *.
  - exists [], xs. split; auto. rewrite app_nil_r. split; [constructor|auto].
  - inversion V as [|? ? ? ? ? v vs VO V'|? ? ? ? ? V'|? ? ? ? V'|? ? ? ? V']; subst; destruct (IH _ _ _ V') as (x1 & x2 & -> & A & B).
    + exists (v :: x1), x2. repeat split; auto. constructor; auto.
    + exists x1, x2. repeat split; auto; [constructor; auto|]. now rewrite <- app_assoc in B.
    + exists x1, x2. repeat split; auto. constructor; auto.
    + exists x1, x2. repeat split; auto. constructor; auto.
Qed.

Lemma xlogs_shows : forall env gs es, xlogs env gs es ->
  stmt_of es = None /\ records es = sizes_at gs env /\ aux_of es = [] /\ Forall (entry_wf yes NN TT) es /\
  Forall (fun r => fst r <> 2 ^ 64 - 1) (records es) /\
  forall tr h xs, tr_names tr = NN -> tr_types tr = TT -> vars_of TT h es xs -> xvars_show tr env h gs xs.
Proof.
  clear L1 L2 AG test texts kf. intros env gs es X. induction X as [|g gs l es fs SV F X (I1 & I2 & I3 & I4 & I5 & I6)|a n p t z gs fs Ea En Hp Hz X (I1 & I2 & I3 & I4 & I5 & I6)].
  - cbn. repeat match goal with |- _ /\ _ => split end; auto. intros tr h xs _ _ V. inversion V; subst. constructor.
  - destruct (logs_plain fin env l es F) as (P1 & P2 & P3 & P4).
    assert (R : records (es ++ fs) = records fs) by (rewrite records_app, P2; reflexivity).
    repeat match goal with |- _ /\ _ => split end.
    + clear -P1 I1. induction es as [|e es IH]; cbn [app stmt_of] in *; auto.
      destruct (stmt_of es) eqn:E; [discriminate|]. rewrite IH by auto. exact P1.
    + rewrite R. cbn [sizes_at flat_map app]. exact I2.
    + rewrite aux_of_app, P3. exact I3.
    + apply Forall_app. auto.
    + rewrite R. exact I5.
    + intros tr h xs E1 E2 V. apply vars_of_app in V. destruct V as (x1 & x2 & -> & V1 & V2). rewrite P2, app_nil_r in V2.
      econstructor; eauto. eapply logs_xvars; eauto.
  - repeat match goal with |- _ /\ _ => split end.
    + cbn [stmt_of]. now rewrite I1.
    + cbn [records sizes_at flat_map]. rewrite Ea, En. cbn [app]. now rewrite I2.
    + exact I3.
    + constructor; auto. split; [lia|]. change (2 ^ 64) with (Z.to_N (2 ^ 64)). apply Z2N.inj_lt; lia.
    + cbn [records]. constructor; auto. cbn. lia.
    + intros tr h xs E1 E2 V. inversion V; subst. constructor. cbn [sizes_at flat_map]. rewrite Ea, En. cbn [app]. auto.
Qed.

Lemma x_run_site : forall env id gs st c st', sinv texts kf st -> Forall (xgroup_pre env) gs ->
  x_ast test id gs st = (c, st') -> ext st' fin ->
  exists ws es, run_xstmts env c = Ok (ALock :: map AWrite ws ++ [AFlush; AUnlock]) /\
    concat ws = enc_point TT (EStmt id :: es) /\ xlogs env gs es.
Proof.
  intros env id gs st c st' I F E XF. unfold x_ast in E.
  destruct (x_extra test gs st) as [extra st1] eqn:EE. injection E as <- <-.
  destruct (x_run_extra env gs st extra st1 I F EE XF) as (ws & es & R1 & R2 & R3).
  exists ([x01] :: le_bytes 8 id :: ws ++ [[x00]]), es. split; [|split]; auto.
  - cbn [map]. unfold run_xstmts. cbn [mapC run_xstmt run_stmt bind].
    rewrite (mapC_app _ (run_xstmt env) extra [XStd IEnd] (map AWrite ws) (write_end_entry ++ []) R1 eq_refl). cbn [bind].
    unfold write_trace_id, write_end_entry. cbn. rewrite map_app, <- app_assoc. reflexivity.
  - cbn [concat]. rewrite concat_app, R2. unfold enc_point, enc_entries. cbn [map concat enc_entry app]. rewrite ?app_nil_r, <- ?app_assoc. reflexivity.
Qed.
End Pass.

(** ** The program *)
Section All.
Variable test : name -> name -> bool.
Variable kf : name -> skind.
Variable sites : list xsite.
Hypothesis SOK : Forall (site_ok kf) (map plain sites).
Hypothesis TA : tells_apart test (all_texts (map plain sites)).
Variable names : list name.
Variable types : list tdesc.
Variable code : list (list xstmt).
Hypothesis PROG : xinstrumented test sites names types code.
Hypothesis FIT : fits names types.

Let tx := txt (map plain sites).
Let AGx : forall a b, tx a -> tx b -> (test a b = true <-> a = b) := TA.

Lemma x_all_spec : forall l st c st', (forall s, In s l -> In s sites) -> sinv tx kf st -> x_all test l st = (c, st') ->
  sinv tx kf st' /\ ext st st' /\
  Forall2 (fun s c => exists s0 s1, sinv tx kf s0 /\ x_ast test (fst s) (snd s) s0 = (c, s1) /\ ext s1 st') l c.
Proof.
  induction l as [|[id gs] l IH]; intros st c st' SUB I E; cbn [x_all] in E.
  - injection E as <- <-. split; auto. split; [apply ext_refl|constructor].
  - destruct (x_ast test id gs st) as [c1 st1] eqn:E1. destruct (x_all test l st1) as [cs st2] eqn:E2. injection E as <- <-.
    assert (S1 : sinv tx kf st1 /\ ext st st1).
    { unfold x_ast in E1. destruct (x_extra test gs st) as [ex s3] eqn:E3. injection E1 as _ <-.
      apply x_extra_plain in E3. eapply extra_spec; [exact AGx|exact I| |exact E3].
      apply (site_pre kf (map plain sites) SOK (plain (id, gs))). apply in_map. apply SUB. now left. }
    destruct S1 as [I1 X1]. destruct (IH st1 cs st2) as (I2 & X2 & F); auto; [intros; apply SUB; now right|].
    split; auto. split; [eapply ext_trans; eauto|]. constructor; auto. exists st, st1. auto.
Qed.

Lemma x_state : exists fin, sinv tx kf fin /\ names = names_of fin /\ types = types_of fin /\
  Forall2 (fun s c => exists s0 s1, sinv tx kf s0 /\ x_ast test (fst s) (snd s) s0 = (c, s1) /\ ext s1 fin) sites code.
Proof.
  destruct PROG as (st & nal & tal & E & P1 & P2 & -> & ->).
  destruct (x_all_spec sites istate0 code st) as (I & X & F); auto using sinv0. exists st. split; auto.
  rewrite (emit_names_eq _ _ _ _ I P1), (emit_types_eq _ _ AGx _ _ _ I P2). auto.
Qed.

Definition xgood (e : event) (a : list action) (es : list entry) : Prop :=
  xevent_run code e = Ok a /\ point_shape a /\ written a = enc_point types es /\
  Forall (entry_wf yes names types) es /\ Forall (fun r => fst r <> 2 ^ 64 - 1) (records es) /\
  exists s, nth_error sites (fst e) = Some s /\ records es = sizes_at (snd s) (snd e) /\
    forall tr i h p, tr_names tr = names -> tr_types tr = types -> point_of types i h es p -> xpoint_shows tr h s (snd e) p.

Lemma xevent_good : forall e, xevent_ok sites e -> exists a es, xgood e a es.
Proof.
  intros [k env] (s & Hs & EO & SO). cbn [fst snd] in *. destruct x_state as (fin & I & EN & ET & F).
  destruct (Forall2_nth _ _ _ _ _ F _ _ Hs) as (c & Hc & s0 & s1 & I0 & E & X).
  pose proof FIT as (L1 & L2 & _). rewrite EN in L1. rewrite ET in L2.
  pose proof (nth_error_In _ _ Hs) as Is. assert (Ip : In (plain s) (map plain sites)) by (apply in_map; auto).
  assert (GP : Forall (xgroup_pre tx kf env) (snd s)).
  { pose proof (site_pre kf (map plain sites) SOK (plain s) Ip) as SP. unfold env_ok in EO. unfold plain in SP, EO. cbn [fst snd] in SP, EO.
    clear -SP EO SO. induction (snd s) as [|[g|a n] gs IH]; [constructor| |]; cbn [flat_map app] in *; inversion SO; subst.
    - inversion SP; subst. inversion EO; subst. constructor; auto. split; auto.
    - constructor; auto. }
  assert (HI : fst s < 2 ^ 64) by (rewrite Forall_forall in SOK; apply (SOK _ Ip)).
  destruct (x_run_site test tx AGx kf fin L1 L2 env (fst s) (snd s) s0 c s1 I0 GP E X) as (ws & es & R1 & R2 & R3).
  destruct (xlogs_shows fin env (snd s) es R3) as (P1 & P2 & P3 & P4 & P5 & P6).
  exists (ALock :: map AWrite ws ++ [AFlush; AUnlock]), (EStmt (fst s) :: es). unfold xgood. rewrite EN, ET. cbn [fst snd].
  split; [|split; [|split; [|split; [|split]]]].
  - unfold xevent_run. cbn [fst snd]. rewrite Hc. exact R1.
  - exists ws. reflexivity.
  - rewrite <- R2. change (ALock :: map AWrite ws ++ [AFlush; AUnlock]) with ([ALock] ++ map AWrite ws ++ [AFlush; AUnlock]).
    rewrite !written_app, written_ws. unfold written. cbn. now rewrite app_nil_r.
  - constructor; auto.
  - exact P5.
  - exists s. split; auto. split; [exact P2|].
    intros tr i h p E1 E2 (Q1 & Q2 & Q3 & Q4 & Q5). cbn [stmt_of records aux_of] in *. rewrite P1 in Q2. rewrite P2 in Q3. rewrite P3 in Q5.
    split; auto. split; auto. split; auto. inversion Q4; subst. eauto.
Qed.

Lemma xthreads_good : forall ths, Forall (Forall (xevent_ok sites)) ths ->
  exists acts, Forall2 (Forall2 (fun e a => exists es, xgood e a es)) ths acts.
Proof.
  induction 1 as [|l ths H _ (acts & IH)]; [exists []; constructor|].
  assert (G : exists a, Forall2 (fun e a => exists es, xgood e a es) l a).
  { clear IH. induction H as [|e l H _ (a & IH)]; [exists []; constructor|].
    destruct (xevent_good e H) as (b & es & G). exists (b :: a). constructor; eauto. }
  destruct G as (a & G). exists (a :: acts). constructor; auto.
Qed.

Lemma xpoints : forall order pts, Forall2 (fun e es => exists a, xgood e a es) order pts ->
  forall tr i h ps, tr_names tr = names -> tr_types tr = types -> points_of types i h pts ps ->
  xpoints_show sites tr h order ps.
Proof.
  intros order pts F. induction F as [|[k env] es order pts (a & _ & _ & _ & _ & _ & s & Hs & R & SH) _ IH]; intros tr i h ps E1 E2 P.
  - inversion P; subst. constructor.
  - inversion P as [|? ? ? p ? ps' P1 P2]; subst. cbn [fst snd] in *. econstructor; [exact Hs| |].
    + eapply SH; eauto.
    + rewrite <- R. eapply IH; eauto.
Qed.

Lemma x_end : forall ths, Forall (Forall (xevent_ok sites)) ths ->
  exists acts, Forall2 (Forall2 (fun e a => xevent_run code e = Ok a)) ths acts /\
    forall s, rsteps (rstart names types (map (@concat action) acts)) s -> Forall (eq []) (r_threads s) ->
    forall ok coins pos t, (forall n, n <= lenN (r_out s) -> ok n = true) ->
    exists order tr, merge ths order /\ reads ok coins pos t 0 (r_out s) = Ok tr /\
      tr_names tr = names /\ tr_types tr = types /\ xpoints_show sites tr [] order (tr_points tr) /\
      (order <> [] -> r_disk s = lenN (r_out s)).
Proof.
  intros ths HO. destruct (xthreads_good _ HO) as (acts & G). exists acts. split.
  { clear -G. induction G as [|a b l m X F IH]; constructor; auto. clear -X. induction X as [|e x l m (es & X) F IH]; constructor; auto. apply X. }
  intros s R F ok coins pos t OK.
  assert (PP := x_plain _ _ _ _ _ PROG).
  assert (NFr := names_free test kf (map plain sites) SOK TA names types _ PP).
  assert (TFr := types_fine test kf (map plain sites) SOK TA names types _ PP FIT).
  assert (GG : forall e a es, xgood e a es -> point_shape a /\ written a = enc_point types es /\
    Forall (entry_wf yes names types) es /\ Forall (fun r => fst r <> 2 ^ 64 - 1) (records es)).
  { intros e a es (_ & H1 & H2 & H3 & H4 & _). auto. }
  destruct (gen_end names types NFr TFr FIT event xgood GG ths acts G s R F ok coins pos t OK) as (order & pts & tr & M & F2 & RD & N1 & N2 & P & D).
  exists order, tr. repeat match goal with |- _ /\ _ => split end; auto. eapply xpoints; eauto.
Qed.
End All.

(** ** Buffers of the program *)
Lemma kept_sizes : forall h b a r s, kept h b -> pointer_size h a r s -> a < 2 ^ 64 - 1 ->
  (forall k v, In (k, v) b -> k <= a < k + v -> s = 1 /\ r = k + v - a) /\
  (forall k v, In (k, v) b -> a = k + v -> (forall k' v', In (k', v') b -> ~ (k' <= a < k' + v')) -> s = 1 /\ r = 0) /\
  ((forall k v, In (k, v) b -> ~ (k <= a <= k + v)) -> s = 0 /\ r = 0).
Proof.
  intros h b a r s (K1 & K2 & K3) P La.
  assert (NEAR : forall k v, In (k, v) b -> k <= a < k + v -> forall k' v', nearest h a k' v' -> k' = k /\ v' = v).
  { intros k v Ib Ha k' v' (LV & Hk' & MX). assert (k <= k') by (apply (MX k v); [apply K1; auto|lia]).
    assert (Ib' : In (k', v') b) by (apply K1; auto).
    assert (k' = k). { destruct (N.lt_trichotomy k k') as [Y|[Y|Y]]; [|auto|lia]. specialize (K3 _ _ _ _ Ib Ib' Y). lia. }
    subst k'. split; auto. apply K1 in Ib. destruct Ib as [X1 _]. destruct LV as [X2 _]. congruence. }
  split; [|split].
  - intros k v Ib Ha. specialize (NEAR k v Ib Ha). assert (S := K2 _ _ Ib).
    destruct P as [r0 _ AN Lr|[->|(_ & AN)]]; [| lia |].
    + split; auto. inversion AN as [k' v' Hn Hle|k' v' Hn Hlt|Hn]; subst.
      * destruct (NEAR _ _ Hn) as [-> ->]. rewrite N.mod_small by lia. reflexivity.
      * lia.
      * exfalso. apply (Hn k v); [apply K1; auto|lia].
    + exfalso. inversion AN as [k' v' Hn Hle Hx|k' v' Hn Hlt|Hn]; subst.
      * destruct (NEAR _ _ Hn) as [-> ->]. rewrite N.mod_small in * by lia. lia.
      * destruct (NEAR _ _ Hn) as [-> ->]. rewrite N.mod_small in * by lia. lia.
      * apply (Hn k v); [apply K1; auto|lia].
  - intros k v Ib -> NO. assert (S := K2 _ _ Ib).
    assert (NR : forall k' v', nearest h (k + v) k' v' -> k' = k /\ v' = v).
    { intros k' v' (LV & Hk' & MX). assert (k <= k') by (apply (MX k v); [apply K1; auto|lia]).
      assert (Ib' : In (k', v') b) by (apply K1; auto). assert (v' <> 0) by (apply LV). specialize (NO _ _ Ib').
      assert (k' = k). { destruct (N.lt_trichotomy k k') as [Y|[Y|Y]]; [|auto|lia]. specialize (K3 _ _ _ _ Ib Ib' Y). lia. }
      subst k'. split; auto. apply K1 in Ib. destruct Ib as [X1 _]. destruct LV as [X2 _]. congruence. }
    destruct P as [r0 _ AN Lr|[E|(_ & AN)]]; [| lia |].
    + split; auto. inversion AN as [k' v' Hn Hle|k' v' Hn Hlt|Hn]; subst.
      * destruct (NR _ _ Hn) as [-> ->]. rewrite N.mod_small by lia. lia.
      * lia.
      * exfalso. apply (Hn k v); [apply K1; auto|lia].
    + exfalso. inversion AN as [k' v' Hn Hle Hx|k' v' Hn Hlt|Hn]; subst.
      * destruct (NR _ _ Hn) as [-> ->]. rewrite N.mod_small in * by lia. lia.
      * destruct (NR _ _ Hn) as [-> ->]. rewrite N.mod_small in * by lia. lia.
      * apply (Hn k v); [apply K1; auto|lia].
  - intros NO. destruct P as [r0 _ AN Lr|_]; [|auto]. exfalso.
    inversion AN as [k v (LV & Hk & _) Hle|k v Hn Hlt|Hn]; subst; try lia.
    apply K1 in LV. apply (NO k v LV). rewrite N.mod_small in Hle by (apply K2; auto). lia.
Qed.

Lemma xpoints_at : forall sites tr h order ps, xpoints_show sites tr h order ps ->
  forall i e p, nth_error order i = Some e -> nth_error ps i = Some p ->
  exists s, nth_error sites (fst e) = Some s /\ xpoint_shows tr (h ++ sizes_of sites (firstn i order)) s (snd e) p.
Proof.
  intros sites tr h order ps X. induction X as [|h i env s es p ps Hs P X IH]; intros [|j] e q He Hq; cbn in He, Hq; try discriminate.
  - injection He as <-. injection Hq as <-. exists s. cbn. rewrite app_nil_r. auto.
  - destruct (IH _ _ _ He Hq) as (s' & H1 & H2). exists s'. split; auto.
    cbn [firstn sizes_of flat_map fst snd]. rewrite Hs. now rewrite <- app_assoc in H2.
Qed.

Lemma sizes_lemma : forall sites tr order, xpoints_show sites tr [] order (tr_points tr) ->
  forall i k env id g p b, nth_error order i = Some (k, env) -> nth_error (tr_points tr) i = Some p ->
  nth_error sites k = Some (id, [XVars g]) -> kept (sizes_of sites (firstn i order)) b ->
  forall x a, In x (p_vars p) -> v_fmt x = POINTER -> v_val x = VBits a -> a < 2 ^ 64 - 1 ->
  (forall y v, In (y, v) b -> y <= a < y + v -> v_has x = 1 /\ v_bsz x = y + v - a) /\
  (forall y v, In (y, v) b -> a = y + v -> (forall y' v', In (y', v') b -> ~ (y' <= a < y' + v')) -> v_has x = 1 /\ v_bsz x = 0) /\
  ((forall y v, In (y, v) b -> ~ (y <= a <= y + v)) -> v_has x = 0 /\ v_bsz x = 0).
Proof.
  intros sites tr order X i k env id g p b He Hp Hk K x a Ix Fx Vx La.
  destruct (xpoints_at _ _ _ _ _ X _ _ _ He Hp) as (s & Hs & _ & _ & _ & V). cbn [fst snd app] in *. rewrite Hk in Hs. injection Hs as <-.
  cbn [snd] in V. inversion V as [|? ? ? l xs ys SV F V'|]; subst. inversion V'; subst. rewrite app_nil_r in *.
  assert (exists y, xvar_shows tr env (sizes_of sites (firstn i order)) y x) as (y & (_ & _ & kk & _ & SW) & PX & _).
  { match goal with E : _ = p_vars p |- _ => rewrite <- E in Ix end. clear -F Ix. induction F as [|y z l xs H F IH]; [contradiction|]. destruct Ix as [->|Ix]; eauto. }
  destruct (PX Fx) as (a' & s' & E1 & P). destruct (pointer_shows _ _ _ _ _ _ SW Fx) as (a2 & s2 & E2 & E3).
  rewrite E3 in Vx. injection Vx as ->. rewrite E1 in E2. injection E2 as <- <-. eapply kept_sizes; eauto.
Qed.
