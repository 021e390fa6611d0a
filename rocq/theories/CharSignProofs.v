From Coq Require Import Strings.String Permutation.
From Verif Require Import BaseProofs Types Stream SkipList MemMapSpec Reader Compare PrintPred FormatSpec ReaderMore ReaderProps.
From Verif Require OrderProofs.
From Verif Require Import Instr InstrRun InstrSpec InstrText InstrFloat InstrTable InstrConc InstrProofs InstrEnd VaProofs CharSign.

Section Machine.
Variables cu wu : bool.
Notation mistaken := (mistaken cu wu).
Notation shown := (shown cu wu).
Notation value_on := (value_on cu wu).

Lemma mistaken_kind : forall t n, mistaken t = Some n -> kind_fn t = Some (CInt true n) /\ (n = 1 \/ n = 4) /\ c_decl t = [].
Proof.
  intros t n M. unfold CharSign.mistaken in M. destruct (c_decl t) eqn:D; [|discriminate]. destruct (words t) as [|w [|]] eqn:W; try discriminate.
  destruct (cu && bytes_eqb w (text "char")) eqn:E1.
  - injection M as <-. apply andb_true_iff in E1. destruct E1 as [_ E1]. apply OrderProofs.bytes_eqb_iff in E1. subst w. split; [|auto]. apply has_kind_fn. eapply hk_int; [exact D| |exact W]. now left.
  - destruct (wu && bytes_eqb w (text "wchar_t")) eqn:E2; [|discriminate]. injection M as <-. apply andb_true_iff in E2. destruct E2 as [_ E2]. apply OrderProofs.bytes_eqb_iff in E2. subst w.
    split; [|auto]. apply has_kind_fn. eapply hk_int; [exact D| |exact W]. right; right; now left.
Qed.

Lemma shown_same : forall t v, mistaken t = None -> shown t v = v.
Proof. intros t v M. unfold CharSign.shown. rewrite M. reflexivity. Qed.

Lemma shown_loggable : forall t v k, value_on t v -> has_kind t k -> loggable k (shown t v).
Proof.
  intros t v k V K. unfold CharSign.value_on in V. destruct (mistaken t) as [n|] eqn:M.
  - destruct (mistaken_kind _ _ M) as (F & N4 & _). apply has_kind_fn in K. rewrite F in K. injection K as <-. destruct V as (z & -> & R).
    unfold CharSign.shown. rewrite M. split; [|exact I]. cbn [inhabits]. destruct N4 as [-> | ->]; cbn in *; match goal with |- context [Z.ltb ?a ?b] => destruct (Z.ltb_spec a b) end; lia.
  - rewrite (shown_same _ _ M). exact (V _ K).
Qed.

Lemma same_low : forall k z w, In k [1; 2; 4; 8]%nat -> (z mod 2 ^ (8 * Z.of_nat k) = w mod 2 ^ (8 * Z.of_nat k))%Z -> le_bytes k (zbits z) = le_bytes k (zbits w).
Proof. intros k z w I E. apply le_bytes_cong. apply N2Z.inj. rewrite !zbits_mod by exact I. exact E. Qed.

(** The bytes written do not tell signed from unsigned. *)
Lemma var_same : forall kf test n t ps st va ba st' env env', type_ok kf t -> compiles ps t -> value_on t (env n) -> env' n = shown t (env n) ->
  instrument_var test n t ps st = (va, ba, st') ->
  Forall (fun a => write_trace_variable env a = write_trace_variable env' a) va /\ Forall (fun b => write_trace_blob env b = write_trace_blob env' b) ba.
Proof.
  intros kf test n t ps st va ba st' env env' OK C V E IV. unfold instrument_var in IV. unfold CharSign.value_on in V.
  destruct (mistaken t) as [k|] eqn:M.
  - destruct (mistaken_kind _ _ M) as (F & N4 & D). destruct V as (z & EZ & R). rewrite (fmt_kind _ _ _ OK C), F in IV.
    assert (X : fmt_of_kind ps (CInt true k) = Some (SIGNED, k)) by (unfold fmt_of_kind, as_string; rewrite andb_false_r; reflexivity). rewrite X in IV.
    destruct (get_type_index test t SIGNED k ps st) as [ti st1]. destruct (get_name_index test n st1) as [ni st2].
    destruct (ps && c_string_type_p t) eqn:Y; [exfalso|].
    { unfold c_string_type_p, array_type_p, pointer_type_p in Y. rewrite D in Y. cbn in Y. rewrite !andb_false_r in Y. discriminate. }
    destruct (ps && cpp_string_type_p t) eqn:Y2; [exfalso|].
    { pose proof (fmt_kind _ _ ps OK C) as FK. rewrite F, X in FK. unfold type_format_and_size, string_type_p in FK. apply andb_true_iff in Y2. destruct Y2 as [-> Y2]. rewrite Y2, orb_true_r in FK. cbn in FK. discriminate. }
    injection IV as <- <- _. split; [|constructor]. constructor; [|constructor]. unfold write_trace_variable. cbn [va_expr va_fmt va_size va_name va_type]. rewrite E, EZ.
    unfold CharSign.shown. rewrite M. unfold pass, write_value, va_gen. cbn [bind]. fold (zbits z). 
    set (w := (if (z <? 2 ^ (8 * Z.of_N k - 1))%Z then z else (z - 2 ^ (8 * Z.of_N k))%Z)). fold (zbits w).
    assert (L : le_bytes (N.to_nat k) (zbits z) = le_bytes (N.to_nat k) (zbits w)).
    { apply same_low; [destruct N4 as [-> | ->]; cbn; auto|]. rewrite N_nat_Z. unfold w. destruct (z <? 2 ^ (8 * Z.of_N k - 1))%Z; [reflexivity|].
      replace (z - 2 ^ (8 * Z.of_N k))%Z with (z + (-1) * 2 ^ (8 * Z.of_N k))%Z by lia. symmetry. apply Z_mod_plus_full. }
    destruct N4 as [-> | ->]; cbn [N.eqb Pos.eqb bind]; do 4 f_equal; exact L.
  - rewrite (shown_same _ _ M) in E. destruct (type_format_and_size t ps) as [[f size]|]; [|injection IV as <- <- _; split; constructor].
    destruct (get_type_index test t f size ps st) as [ti st1]. destruct (get_name_index test n st1) as [ni st2].
    destruct (ps && c_string_type_p t); [|destruct (ps && cpp_string_type_p t)]; injection IV as <- <- _; split; repeat constructor; unfold write_trace_variable, write_trace_blob; cbn [va_expr ba_expr]; rewrite E; reflexivity.
Qed.

Definition agrees (env env' : name -> rvalue) (x : name * ctype) : Prop := value_on (snd x) (env (fst x)) /\ env' (fst x) = shown (snd x) (env (fst x)).

Lemma vars_same : forall kf test ps env env' l st va ba st', Forall (fun x => type_ok kf (snd x) /\ compiles ps (snd x)) l -> Forall (agrees env env') l ->
  instrument_vars test l ps st = (va, ba, st') ->
  Forall (fun a => write_trace_variable env a = write_trace_variable env' a) va /\ Forall (fun b => write_trace_blob env b = write_trace_blob env' b) ba.
Proof.
  intros kf test ps env env'. induction l as [|[n t] l IH]; intros st va ba st' O A IV; cbn [instrument_vars] in IV.
  - injection IV as <- <- _. split; constructor.
  - destruct (instrument_var test n t ps st) as [[v1 b1] st1] eqn:E1. destruct (instrument_vars test l ps st1) as [[v2 b2] st2] eqn:E2. injection IV as <- <- _.
    inversion O as [|? ? [O1 O2] O']; subst. inversion A as [|? ? [A1 A2] A']; subst. cbn [fst snd] in *.
    destruct (var_same _ _ _ _ _ _ _ _ _ _ _ O1 O2 A1 A2 E1) as [X1 X2]. destruct (IH _ _ _ _ O' A' E2) as [Y1 Y2]. split; apply Forall_app; auto.
Qed.

Lemma mapC_same : forall A (f g : A -> outcome (list action)) l, Forall (fun x => f x = g x) l -> mapC f l = mapC g l.
Proof. intros A f g l F. induction F as [|x l E F IH]; [reflexivity|]. cbn [mapC]. rewrite E, IH. reflexivity. Qed.

Lemma groups_same : forall kf test env env' gs st c st',
  Forall (fun g => Forall (fun x => type_ok kf (snd x) /\ compiles (fst g) (snd x)) (snd g) /\ Forall (agrees env env') (snd g)) gs ->
  extra_stmts test gs st = (c, st') -> Forall (fun s => run_stmt env s = run_stmt env' s) c.
Proof.
  intros kf test env env'. induction gs as [|[ps l] gs IH]; intros st c st' F E; cbn [extra_stmts] in E.
  - injection E as <- _. constructor.
  - destruct (instrument_c_exprs test l ps st) as [s1 st1] eqn:E1. destruct (extra_stmts test gs st1) as [s2 st2] eqn:E2. injection E as <- _.
    inversion F as [|? ? [F1 F2] F']; subst. cbn [fst snd] in *. apply Forall_app. split; [|eapply IH; eauto].
    unfold instrument_c_exprs in E1. destruct (instrument_vars test l ps st) as [[vs bs] st3] eqn:E3. injection E1 as <- _.
    destruct (vars_same _ _ _ _ _ _ _ _ _ _ F1 F2 E3) as [X1 X2].
    apply Forall_app. split; [destruct vs|destruct bs]; repeat constructor; cbn [run_stmt]; apply mapC_same; assumption.
Qed.

Lemma all_same : forall kf test env env' sites st code st' i s,
  Forall (site_ok kf) sites -> instrument_all test sites st = (code, st') -> nth_error sites i = Some s ->
  Forall (fun g => Forall (agrees env env') (snd g)) (snd s) -> event_run code (i, env) = event_run code (i, env').
Proof.
  intros kf test env env'. induction sites as [|[id gs] sites IH]; intros st code st' i s SO E NS A; [destruct i; discriminate|]. cbn [instrument_all] in E.
  destruct (instrument_ast test id gs st) as [s1 st1] eqn:E1. destruct (instrument_all test sites st1) as [s2 st2] eqn:E2. injection E as <- _.
  inversion SO as [|? ? S1 SO']; subst. destruct i as [|i]; cbn [nth_error] in NS.
  - injection NS as <-. unfold event_run. cbn [fst snd nth_error]. unfold instrument_ast in E1. destruct (extra_stmts test gs st) as [c st3] eqn:E3. injection E1 as <- _.
    unfold run_stmts. apply mapC_same. constructor; [reflexivity|]. apply Forall_app. split; [|repeat constructor].
    eapply (groups_same kf); [|exact E3]. cbn [snd] in A. destruct S1 as (_ & _ & T & W). unfold site_types in T. cbn [snd] in *. rewrite Forall_forall in *.
    intros g I. split; [|exact (A _ I)]. apply Forall_forall. intros x J. split.
    + apply T. apply in_concat. eexists. split; [apply in_map; exact I|]. apply in_map. exact J.
    + intros P. specialize (W _ I). rewrite Forall_forall in W. intros D. destruct (fst g); [exact (W eq_refl _ J D)|discriminate].
  - specialize (IH _ _ _ _ _ SO' E2 NS A). unfold event_run in *. cbn [fst snd nth_error] in *. exact IH.
Qed.

Definition look (s : site) (env : name -> rvalue) (n : name) : rvalue :=
  match find (fun x => bytes_eqb (fst x) n) (variables s) with Some x => shown (snd x) (env n) | None => env n end.
Lemma look_at : forall s env n t, one_type s -> In (n, t) (variables s) -> look s env n = shown t (env n).
Proof.
  intros s env n t O I. unfold look. destruct (find _ _) as [[n' t']|] eqn:F.
  - apply find_some in F. destruct F as [F1 F2]. cbn [fst] in F2. apply OrderProofs.bytes_eqb_iff in F2. subst n'. rewrite (O _ _ _ I F1). reflexivity.
  - pose proof (find_none _ _ F _ I) as X. cbn [fst] in X. assert (Y : bytes_eqb n n = true) by now apply OrderProofs.bytes_eqb_iff. congruence.
Qed.

Lemma logged_in : forall ps b l r, logged_vars ps b l r -> forall x, In x r -> In x l.
Proof. intros ps b l r L. induction L; intros x I; [exact I| | |]; [destruct I as [<-|I]; [now left|right; auto]|right; auto|right; auto]. Qed.
Lemma site_in : forall gs l, site_vars gs l -> forall y, In y l -> In (snd (fst y), snd y) (concat (map snd gs)).
Proof.
  intros gs l S. induction S as [|ps l a b gs r A B S IH]; intros y I; [destruct I|]. cbn [map concat snd]. apply in_or_app. apply in_app_or in I. destruct I as [I|I]; [left|right; auto].
  apply in_map_iff in I. destruct I as ([n t] & <- & I). cbn [fst snd]. apply in_app_or in I. destruct I as [I|I]; [exact (logged_in _ _ _ _ A _ I)|exact (logged_in _ _ _ _ B _ I)].
Qed.

Lemma shows_back : forall sites s e tr p, nth_error sites (fst e) = Some s -> one_type s -> event_shows sites tr (fst e, look s (snd e)) p -> event_shows_on cu wu sites tr e p.
Proof.
  intros sites s e tr p N O (s' & N' & A1 & A2 & A3 & l & A4 & A5). cbn [fst snd] in *. rewrite N in N'. injection N' as <-. exists s. split; [exact N|]. repeat split; auto. exists l. split; [exact A4|].
  pose proof (site_in _ _ A4) as SI. clear A4. induction A5 as [|y x l m H F IH]; constructor.
  - rewrite <- (look_at s); [exact H|exact O|]. apply SI. now left.
  - apply IH. intros z I. apply SI. now right.
Qed.

Section Program.
Variable test : name -> name -> bool.
Variable kf : name -> skind.
Variable sites : list site.
Variables (names : list name) (types : list tdesc) (code : list (list istmt)).
Hypothesis SOK : Forall (site_ok kf) sites.
Hypothesis TA : tells_apart test (all_texts sites).
Hypothesis PROG : instrumented test sites names types code.
Hypothesis FIT : fits names types.

Definition seems (e e' : event) : Prop := exists s, nth_error sites (fst e) = Some s /\ one_type s /\ Forall (fun x => value_on (snd x) (snd e (fst x))) (variables s) /\ e' = (fst e, look s (snd e)).

Lemma agrees_all : forall s env, one_type s -> Forall (fun x => value_on (snd x) (env (fst x))) (variables s) -> Forall (fun g => Forall (agrees env (look s env)) (snd g)) (snd s).
Proof.
  intros s env O V. rewrite Forall_forall in V. apply Forall_forall. intros g I. apply Forall_forall. intros [n t] J.
  assert (K : In (n, t) (variables s)) by (apply in_concat; exists (snd g); split; [apply in_map; exact I|exact J]). split; [exact (V _ K)|]. exact (look_at _ _ _ _ O K).
Qed.

Lemma seems_ok : forall e e', seems e e' -> event_ok sites e' /\ event_run code e = event_run code e'.
Proof.
  intros [i env] e' (s & N & O & V & ->). cbn [fst snd] in *. pose proof (agrees_all _ _ O V) as A. split.
  - exists s. cbn [fst snd]. split; [exact N|]. unfold env_ok. eapply Forall_impl; [|exact A]. intros g G. eapply Forall_impl; [|exact G]. intros x [X1 X2] k K. rewrite X2. apply shown_loggable; assumption.
  - destruct PROG as (st & _ & _ & E & _). exact (all_same kf _ _ _ _ _ _ _ _ _ SOK E N A).
Qed.

Lemma all_seem : forall ths, Forall (Forall (event_on cu wu sites)) ths -> exists ths', Forall2 (Forall2 seems) ths ths'.
Proof.
  intros ths F. induction F as [|l ths H F (ths' & IH)]; [exists []; constructor|].
  assert (X : exists l', Forall2 seems l l').
  { clear -H. induction H as [|e l (s & A & B & C) H (l' & IH)]; [exists []; constructor|]. exists ((fst e, look s (snd e)) :: l'). constructor; [|exact IH]. exists s. auto. }
  destruct X as (l' & X). exists (l' :: ths'). constructor; assumption.
Qed.

Lemma log_on : forall ths, Forall (Forall (event_on cu wu sites)) ths ->
  exists acts, Forall2 (Forall2 (fun e a => event_run code e = Ok a)) ths acts /\
    forall s, rsteps (rstart names types (map (@concat action) acts)) s -> Forall (eq []) (r_threads s) ->
    forall ok coins pos t, (forall n, n <= lenN (r_out s) -> ok n = true) ->
    exists order tr, merge ths order /\ reads ok coins pos t 0 (r_out s) = Ok tr /\
      tr_names tr = names /\ tr_types tr = types /\ Forall2 (event_shows_on cu wu sites tr) order (tr_points tr).
Proof.
  intros ths HO. destruct (all_seem _ HO) as (ths' & SE).
  assert (OK' : Forall (Forall (event_ok sites)) ths').
  { clear -SE PROG SOK. induction SE as [|l l' a b H F IH]; constructor; auto. clear -H PROG SOK. induction H as [|e e' l l' X F IH]; constructor; auto. apply (seems_ok _ _ X). }
  destruct (end_lemma test kf sites SOK TA names types code PROG FIT ths' OK') as (acts & A & G). exists acts. split.
  - clear -SE A PROG SOK. revert acts A. induction SE as [|l l' a b H F IH]; intros acts A; inversion A as [|? w ? acts' A1 A2]; subst; constructor; auto. clear -H A1 PROG SOK.
    revert w A1. induction H as [|e e' l l' X F IH]; intros w A; inversion A; subst; constructor; auto. destruct (seems_ok _ _ X) as [_ ->]. assumption.
  - intros s R FI ok coins pos t OK. destruct (G s R FI ok coins pos t OK) as (order' & tr & M & RD & E1 & E2 & SH & _).
    destruct (merge_rel _ _ _ _ _ M _ SE) as (order & M' & F'). exists order, tr. repeat split; auto.
    clear -F' SH. revert SH. generalize (tr_points tr) as ps. induction F' as [|e e' l l' (s & N & O & V & ->) F IH]; intros ps SH; inversion SH; subst; constructor; auto. eapply shows_back; eauto.
Qed.
End Program.
End Machine.
