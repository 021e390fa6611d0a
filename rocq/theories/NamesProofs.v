From Coq Require Import Strings.String.
From Verif Require Import BaseProofs Types Compare PrintPred Dec DecProofs Instr InstrSpec InstrText InstrTable InstrProofs InstrReq InstrEnd CRead Emit EmitSpec EmitProofs Names NamesSpec.

Definition strlen_tok : ctok := KId (text "strlen").
Definition id_ok (A : name -> Prop) (k : ctok) : Prop := match k with KId x => A x | _ => True end.

(** A text whose identifiers are allowed; [C]: when it uses strlen. *)
Definition opens_ok (A : name -> Prop) (C : Prop) (t : name) : Prop :=
  exists ks, open_end t ks /\ Forall (id_ok A) ks /\ (C -> In strlen_tok ks).
Definition closed_ok (A : name -> Prop) (C : Prop) (t : name) : Prop :=
  exists ks, closed t ks /\ Forall (id_ok A) ks /\ (C -> In strlen_tok ks).

Section Allowed.
Variable A : name -> Prop.
Hypothesis DECL : forall x, In x (declared forward_declarations) -> A x.
Hypothesis KEY : forall x, In x [text "sizeof"; text "void"] -> A x.

Lemma oo_comma : forall t t' C C', opens_ok A C t -> opens_ok A C' t' -> opens_ok A (C \/ C') (t ++ text ", " ++ t').
Proof.
  intros t t' C C' (k & O & F & S1) (k' & O' & F' & S2). exists (k ++ [KPunct x2c] ++ k'). destruct comma_closed as [CC CD].
  split; [apply open_then; auto|]. split.
  - rewrite !Forall_app. split; auto. split; auto. constructor; [exact I|constructor].
  - intros [c|c]; rewrite !in_app_iff; auto.
Qed.
Lemma oo_weaken : forall t (C C' : Prop), (C' -> C) -> opens_ok A C t -> opens_ok A C' t.
Proof. intros t C C' W (k & O & F & S1). exists k. auto. Qed.
Lemma co_weaken : forall t (C C' : Prop), (C' -> C) -> closed_ok A C t -> closed_ok A C' t.
Proof. intros t C C' W (k & O & F & S1). exists k. auto. Qed.
Lemma co_app : forall t t' C C', closed_ok A C t -> closed_ok A C' t' -> closed_ok A (C \/ C') (t ++ t').
Proof.
  intros t t' C C' (k & O & F & S1) (k' & O' & F' & S2). exists (k ++ k').
  split; [apply closed_app; auto|]. split; [apply Forall_app; auto|]. intros [c|c]; rewrite in_app_iff; auto.
Qed.
Lemma co_open : forall t C, closed_ok A C t -> opens_ok A C t.
Proof. intros t C (k & O & F & S1). exists k. split; auto. now apply closed_open. Qed.
Lemma oo_id : forall x, identifier x -> A x -> opens_ok A False x.
Proof. intros x I H. exists [KId x]. split; [now apply open_id|]. split; [constructor; [auto|constructor]|tauto]. Qed.
Lemma oo_dec : forall n, opens_ok A False (dec n).
Proof. intros n. exists [KNum (dec n)]. split; [apply open_dec|]. split; [constructor; [exact I|constructor]|tauto]. Qed.
Lemma oo_dec_u : forall n, opens_ok A False (dec n ++ [x75]).
Proof. intros n. exists [KNum (dec n ++ [x75])]. split; [apply open_dec_u|]. split; [constructor; [exact I|constructor]|tauto]. Qed.

(** An identifier between brackets *)
Lemma co_wrapped : forall a ka n b kb, closed a ka -> closed b kb -> delimited b -> Forall (id_ok A) ka -> Forall (id_ok A) kb ->
  identifier n -> A n -> closed_ok A (In strlen_tok ka) (a ++ n ++ b).
Proof.
  intros a ka n b kb CA CB DB FA FB I H. exists (ka ++ ([KId n] ++ kb)). split; [|split].
  - apply closed_app; auto. apply open_closed; auto using open_id.
  - rewrite !Forall_app. split; auto.
  - intros Q. apply in_app_iff. auto.
Qed.

Lemma declared_in : forall x, existsb (bytes_eqb x) (declared forward_declarations) = true -> A x.
Proof. intros x E. apply DECL. apply existsb_exists in E. destruct E as (y & I & E). apply beq in E. rewrite E. exact I. Qed.
Lemma fmt_allowed : forall f, In f [text "__GT_TRACEDB_BLOB"; text "__GT_TRACEDB_POINTER"; text "__GT_TRACEDB_SIGNED"; text "__GT_TRACEDB_UNSIGNED"; text "__GT_TRACEDB_FLOAT"] ->
  identifier f /\ A f.
Proof.
  intros f H. cbn [In] in H. repeat (destruct H as [<-|H]; [split; [vm_compute; auto|apply declared_in; vm_compute; reflexivity]|]). destruct H.
Qed.

Lemma ints_identifiers : forall w sg n, In (w, sg, n) c_ints -> Forall identifier w /\ w <> [].
Proof.
  intros w sg n H. unfold c_ints in H. cbn [In] in H.
  repeat (destruct H as [H|H]; [injection H as <- _ _; split; [repeat constructor|discriminate]|]). destruct H.
Qed.
Lemma oo_sizeof : forall ws, Forall identifier ws -> ws <> [] -> (forall x, In x ws -> A x) -> opens_ok A False (text "sizeof(" ++ join ws ++ text ")").
Proof.
  intros ws I NE H. apply co_open. exists ([KId (text "sizeof"); KPunct x28] ++ (map KId ws ++ [KPunct x29])). split; [|split; [|tauto]].
  - apply closed_app; [vm_compute; reflexivity|]. apply closed_words; auto; [vm_compute; reflexivity|]. eexists x29, _. split; reflexivity.
  - constructor; [apply KEY; left; reflexivity|]. constructor; [exact Logic.I|]. apply Forall_app. split; [|constructor; [exact Logic.I|constructor]].
    apply Forall_forall. intros k Hk. apply in_map_iff in Hk. destruct Hk as (x & <- & Hx). cbn. auto.
Qed.
Lemma oo_size_table : forall kf t (sg : bool), type_ok kf t -> (forall x, In x (words t) -> A x) ->
  member (base_typename t) (if sg then signed_names else unsigned_names) = true ->
  opens_ok A False (text "sizeof(" ++ base_typename t ++ text ")").
Proof.
  intros kf t sg OK W M. apply member_iff in M. rewrite names_of_table in M. apply in_map_iff in M. destruct M as ([[w s] k] & E & M).
  apply filter_In in M. destruct M as [M _]. cbn [fst snd] in E. pose proof good_tables_ok as G. rewrite Forall_forall in G. specialize (G _ M). cbn [fst] in G.
  rewrite base_words in E. assert (X : w = words t) by (apply join_inj; auto; eapply words_ok; eauto). subst w.
  rewrite base_words. destruct (ints_identifiers _ _ _ M) as [P1 P2]. exact (oo_sizeof _ P1 P2 W).
Qed.
Lemma oo_size_one : forall kf t x, type_ok kf t -> (forall x, In x (words t) -> A x) -> identifier x -> word x ->
  base_typename t = x -> opens_ok A False (text "sizeof(" ++ x ++ text ")").
Proof.
  intros kf t x OK W I WX E. rewrite base_words in E. assert (X : words t = [x]).
  { apply join_inj; [eapply words_ok; eauto|constructor; auto|]. rewrite E. reflexivity. }
  change x with (join [x]) at 1. apply oo_sizeof; [constructor; auto|discriminate|]. rewrite <- X. auto.
Qed.

Lemma size_allowed : forall kf t ps f s, type_ok kf t -> (forall x, In x (words t) -> A x) -> type_format_and_size_t t ps = Some (f, s) ->
  (identifier f /\ A f) /\ opens_ok A False s.
Proof.
  intros kf t ps f s OK W E. unfold type_format_and_size_t in E.
  destruct (ps && string_type_p t). { injection E as <- <-. split; [apply fmt_allowed; cbn; tauto|]. apply (oo_dec 0). }
  destruct (pointer_type_p t || array_type_p t).
  { injection E as <- <-. split; [apply fmt_allowed; cbn; tauto|]. apply co_open. exists [KId (text "sizeof"); KPunct x28; KId (text "void"); KPunct x2a; KPunct x29].
    split; [vm_compute; reflexivity|]. split; [|tauto]. repeat constructor; cbn; auto; apply KEY; cbn; auto. }
  destruct (member (base_typename t) signed_names) eqn:E1.
  { injection E as <- <-. split; [apply fmt_allowed; cbn; tauto|]. eapply (oo_size_table kf t true); eauto. }
  destruct (member (base_typename t) unsigned_names) eqn:E2.
  { injection E as <- <-. split; [apply fmt_allowed; cbn; tauto|]. eapply (oo_size_table kf t false); eauto. }
  destruct (bytes_eqb (base_typename t) (text "float")) eqn:E3.
  { injection E as <- <-. apply beq in E3. split; [apply fmt_allowed; cbn; tauto|].
    apply (oo_size_one kf t (text "float")); auto; [vm_compute; auto|split; [discriminate|reflexivity]]. }
  destruct (bytes_eqb (base_typename t) (text "double")) eqn:E4; [|discriminate].
  injection E as <- <-. apply beq in E4. split; [apply fmt_allowed; cbn; tauto|].
  apply (oo_size_one kf t (text "double")); auto; [vm_compute; auto|split; [discriminate|reflexivity]].
Qed.

Section Test.
Variable test : name -> name -> bool.

(** One variable *)
Definition var_allowed (kf : name -> skind) (ps : bool) (x : name * ctype) : Prop :=
  identifier (fst x) /\ A (fst x) /\ type_ok kf (snd x) /\ (forall w, In w (words (snd x)) -> A w) /\
  (ps && cpp_string_type_p (snd x) = true -> A (text "length") /\ A (text "c_str")) /\
  (ps && c_string_type_p (snd x) = true -> A (text "strlen")).
Definition has_c_string (ps : bool) (l : list (name * ctype)) : Prop := exists x, In x l /\ ps && c_string_type_p (snd x) = true.

Definition all_ok (C : Prop) (l : list name) : Prop := Forall (opens_ok A False) l /\ (C -> Exists (opens_ok A True) l).

Lemma var_names : forall kf n t ps st vs bs st', var_allowed kf ps (n, t) -> instrument_var_t test n t ps st = (vs, bs, st') ->
  Forall (opens_ok A False) vs /\ all_ok (has_c_string ps [(n, t)]) bs.
Proof.
  intros kf n t ps st vs bs st' (I & AN & OK & AW & AM & AS) E. cbn [fst snd] in *. unfold instrument_var_t in E.
  assert (NC : ps && c_string_type_p t = false -> ~ has_c_string ps [(n, t)]).
  { intros F (x & [<-|[]] & T). cbn [snd] in T. congruence. }
  destruct (type_format_and_size_t t ps) as [[f s]|] eqn:TF.
  2:{ injection E as <- <- <-. split; [constructor|]. split; [constructor|]. intros H. exfalso. apply NC in H; auto.
      unfold type_format_and_size_t in TF. unfold string_type_p in TF. destruct ps; auto. cbn [andb] in *. destruct (c_string_type_p t); auto. discriminate. }
  destruct (size_allowed kf t ps f s OK AW TF) as [[FI FA] SO].
  destruct (get_type_index_t test t f s ps st) as [ti st1]. destruct (get_name_index_t test n st1) as [ni st2].
  destruct (ps && c_string_type_p t) eqn:C1; [|destruct (ps && cpp_string_type_p t) eqn:C2].
  - match type of E with ([], [?x], _) = _ => set (tx := x) in E end. injection E as <- <- <-. split; [constructor|].
    assert (T : opens_ok A True tx).
    { unfold tx. replace (dec ni ++ text ", " ++ dec ti ++ text ", strlen(" ++ n ++ text "), " ++ n)
        with (dec ni ++ text ", " ++ (dec ti ++ text ", " ++ ((text "strlen(" ++ n ++ text ")") ++ text ", " ++ n))) by now rewrite <- !app_assoc.
      eapply oo_weaken; [|apply oo_comma; [apply oo_dec|apply oo_comma; [apply oo_dec|apply oo_comma; [apply co_open|apply oo_id; auto]]]].
      2:{ apply (co_wrapped (text "strlen(") [strlen_tok; KPunct x28] n (text ")") [KPunct x29]); auto; try (vm_compute; reflexivity).
          - eexists x29, _. split; reflexivity.
          - repeat constructor. cbn. auto.
          - repeat constructor. }
      intros _. right. right. left. left. reflexivity. }
    split; [constructor; [|constructor]; eapply oo_weaken; [|exact T]; auto|]. intros _. constructor. exact T.
  - match type of E with ([], [?x], _) = _ => set (tx := x) in E end. injection E as <- <- <-. split; [constructor|].
    assert (T : opens_ok A False tx).
    { destruct (AM eq_refl) as [AL AC].
      unfold tx. replace (dec ni ++ text ", " ++ dec ti ++ text ", (" ++ n ++ text ").length(), (" ++ n ++ text ").c_str()")
        with (dec ni ++ text ", " ++ (dec ti ++ text ", " ++ ((text "(" ++ n ++ text ").length()") ++ text ", " ++ (text "(" ++ n ++ text ").c_str()")))) by now rewrite <- !app_assoc.
      assert (X : forall m, identifier m -> A m -> opens_ok A False (text "(" ++ n ++ text ")." ++ m ++ text "()")).
      { intros m MI MA. apply co_open. exists ([KPunct x28] ++ ([KId n] ++ ([KPunct x29; KPunct x2e] ++ ([KId m] ++ [KPunct x28; KPunct x29])))). split; [|split; [|tauto]].
        - apply closed_app; [reflexivity|]. apply open_closed; [now apply open_id| |eexists x29, _; split; reflexivity].
          apply closed_app; [reflexivity|]. apply open_closed; [now apply open_id|reflexivity|eexists x28, _; split; reflexivity].
        - repeat constructor; auto. }
      eapply oo_weaken; [|apply oo_comma; [apply oo_dec|apply oo_comma; [apply oo_dec|apply oo_comma; [apply (X (text "length"))|apply (X (text "c_str"))]]]]; auto; try tauto; vm_compute; auto. }
    split; [constructor; [exact T|constructor]|]. intros H. exfalso. revert H. now apply NC.
  - match type of E with ([?x], [], _) = _ => set (tx := x) in E end. injection E as <- <- <-. split.
    + constructor; [|constructor]. unfold tx.
      eapply oo_weaken; [|apply oo_comma; [apply oo_dec|apply oo_comma; [apply oo_dec|apply oo_comma; [exact SO|apply oo_comma; apply oo_id; auto]]]]. tauto.
    + split; [constructor|]. intros H. exfalso. revert H. now apply NC.
Qed.

Lemma vars_names : forall kf ps l st vs bs st', Forall (var_allowed kf ps) l -> instrument_vars_t test l ps st = (vs, bs, st') ->
  Forall (opens_ok A False) vs /\ all_ok (has_c_string ps l) bs.
Proof.
  induction l as [|[n t] l IH]; intros st vs bs st' F E; cbn [instrument_vars_t] in E.
  - injection E as <- <- <-. split; [constructor|]. split; [constructor|]. intros (x & [] & _).
  - inversion F as [|? ? V F']; subst. destruct (instrument_var_t test n t ps st) as [[v1 b1] st1] eqn:E1.
    destruct (instrument_vars_t test l ps st1) as [[v2 b2] st2] eqn:E2. injection E as <- <- <-.
    destruct (var_names _ _ _ _ _ _ _ _ V E1) as (V1 & B1 & S1). destruct (IH _ _ _ _ F' E2) as (V2 & B2 & S2).
    split; [apply Forall_app; auto|]. split; [apply Forall_app; auto|]. intros (x & [<-|I] & H); apply Exists_app.
    + left. apply S1. exists (n, t). split; [left; auto|auto].
    + right. apply S2. exists x. auto.
Qed.

Lemma comma_names_f : forall l, l <> [] -> Forall (opens_ok A False) l -> opens_ok A False (comma l).
Proof.
  intros l NE F. induction F as [|t l T F IH]; [congruence|]. destruct l as [|t' l]; [exact T|].
  change (comma (t :: t' :: l)) with (t ++ text ", " ++ comma (t' :: l)).
  eapply oo_weaken; [|apply oo_comma; [exact T|apply IH; discriminate]]. tauto.
Qed.
Lemma comma_names_t : forall l, Forall (opens_ok A False) l -> Exists (opens_ok A True) l -> opens_ok A True (comma l).
Proof.
  intros l F E. induction E as [t l T|t l E IH].
  - destruct l as [|t' l]; [exact T|]. change (comma (t :: t' :: l)) with (t ++ text ", " ++ comma (t' :: l)). inversion F; subst.
    eapply oo_weaken; [|apply oo_comma; [exact T|apply comma_names_f; auto; discriminate]]. tauto.
  - inversion F as [|? ? T F']; subst. destruct l as [|t' l]; [inversion E|]. change (comma (t :: t' :: l)) with (t ++ text ", " ++ comma (t' :: l)).
    eapply oo_weaken; [|apply oo_comma; [exact T|apply IH; auto]]. tauto.
Qed.

Lemma call_closed : forall f C body, identifier f -> A f -> opens_ok A C body -> closed_ok A C (f ++ text "(" ++ body ++ text ");").
Proof.
  intros f C body I AF (k & O & F & S1). exists ([KId f] ++ ([KPunct x28] ++ (k ++ [KPunct x29; KPunct x3b]))). split; [|split].
  - apply open_closed; [now apply open_id| |eexists x28, _; split; reflexivity]. apply closed_app; [reflexivity|].
    apply open_closed; auto; [reflexivity|eexists x29, _; split; reflexivity].
  - repeat (apply Forall_app; split; auto); repeat constructor; auto.
  - intros c. rewrite !in_app_iff. auto.
Qed.
Lemma log_allowed : (identifier log_name /\ A log_name) /\ (identifier lock_name /\ A lock_name).
Proof. split; (split; [vm_compute; auto|apply declared_in; vm_compute; reflexivity]). Qed.
Lemma function_call_names : forall f (C : Prop) l, identifier f -> A f -> (l <> [] -> opens_ok A C (comma l)) -> (C -> l <> []) ->
  closed_ok A C (concat (function_call f l)).
Proof.
  intros f C l I AF H NE. unfold function_call. destruct l as [|t l].
  - exists []. split; [reflexivity|]. split; [constructor|]. intros c. now destruct (NE c).
  - cbn [concat]. rewrite app_nil_r. specialize (H ltac:(discriminate)). destruct log_allowed as [[LI LA] _].
    replace (f ++ text "(" ++ log_name ++ text ", " ++ dec (lenN (t :: l)) ++ text ", " ++ comma (t :: l) ++ text ");")
      with (f ++ text "(" ++ (log_name ++ text ", " ++ (dec (lenN (t :: l)) ++ text ", " ++ comma (t :: l))) ++ text ");") by now rewrite <- !app_assoc.
    apply call_closed; auto. eapply oo_weaken; [|apply oo_comma; [apply oo_id; auto|apply oo_comma; [apply oo_dec|exact H]]]. tauto.
Qed.
Lemma exprs_names : forall kf ps l st ts st', Forall (var_allowed kf ps) l -> instrument_c_exprs_t test l ps st = (ts, st') ->
  closed_ok A False (concat ts) /\ (has_c_string ps l -> closed_ok A True (concat ts)).
Proof.
  intros kf ps l st ts st' F E. unfold instrument_c_exprs_t in E. destruct (instrument_vars_t test l ps st) as [[vs bs] st1] eqn:EV.
  injection E as <- <-. destruct (vars_names _ _ _ _ _ _ _ F EV) as (V & B & S1).
  assert (AV : A (text "__write_trace_variables")) by (apply declared_in; vm_compute; reflexivity).
  assert (AB : A (text "__write_trace_blobs")) by (apply declared_in; vm_compute; reflexivity).
  assert (CV : closed_ok A False (concat (function_call (text "__write_trace_variables") vs))).
  { apply function_call_names; [vm_compute; auto|exact AV| |tauto]. intros NE. apply comma_names_f; auto. }
  rewrite concat_app. split.
  - eapply co_weaken; [|apply co_app; [exact CV|apply (function_call_names _ False); [vm_compute; auto|exact AB| |tauto]]]; [tauto|].
    intros NE. apply comma_names_f; auto.
  - intros H. specialize (S1 H). eapply co_weaken; [|apply co_app; [exact CV|apply (function_call_names _ True); [vm_compute; auto|exact AB| |]]]; [tauto| |].
    + intros NE. apply comma_names_t; auto.
    + intros _ ->. inversion S1.
Qed.

Lemma extra_names : forall kf gs st ts st', Forall (fun g => Forall (var_allowed kf (fst g)) (snd g)) gs -> extra_stmts_t test gs st = (ts, st') ->
  closed_ok A False (concat ts) /\ ((exists g, In g gs /\ has_c_string (fst g) (snd g)) -> closed_ok A True (concat ts)).
Proof.
  intros kf. induction gs as [|[ps l] gs IH]; intros st ts st' F E; cbn [extra_stmts_t] in E.
  - injection E as <- <-. split; [|intros (g & [] & _)]. exists []. split; [reflexivity|]. split; [constructor|tauto].
  - inversion F as [|? ? FG F']; subst. cbn [fst snd] in FG. destruct (instrument_c_exprs_t test l ps st) as [s1 st1] eqn:E1.
    destruct (extra_stmts_t test gs st1) as [s2 st2] eqn:E2. injection E as <- <-.
    destruct (exprs_names _ _ _ _ _ _ FG E1) as [X1 Y1]. destruct (IH _ _ _ F' E2) as [X2 Y2]. rewrite concat_app. split.
    + eapply co_weaken; [|apply co_app; [exact X1|exact X2]]. tauto.
    + intros (g & [<-|I] & H).
      * eapply co_weaken; [|apply co_app; [apply Y1; exact H|exact X2]]. tauto.
      * eapply co_weaken; [|apply co_app; [exact X1|apply Y2; eauto]]. tauto.
Qed.

Lemma id_names : forall id, closed_ok A False (write_trace_id_t id).
Proof.
  intros id. unfold write_trace_id_t. destruct log_allowed as [[LI LA] [KI KA]].
  replace (x0a :: text "__write_trace_id(" ++ log_name ++ text ", " ++ lock_name ++ text ", " ++ dec id ++ text "u);")
    with ([x0a] ++ (text "__write_trace_id" ++ text "(" ++ (log_name ++ text ", " ++ (lock_name ++ text ", " ++ (dec id ++ [x75]))) ++ text ");")).
  - eapply co_weaken with (C := False \/ (False \/ (False \/ False))); [tauto|]. apply co_app.
    + exists []. split; [reflexivity|]. split; [constructor|tauto].
    + apply call_closed; [vm_compute; auto|apply declared_in; vm_compute; reflexivity|].
      apply oo_comma; [apply oo_id; auto|]. apply oo_comma; [apply oo_id; auto|apply oo_dec_u].
  - rewrite <- !app_assoc. reflexivity.
Qed.
Lemma end_names : closed_ok A False write_end_entry_t.
Proof.
  unfold write_end_entry_t. destruct log_allowed as [[LI LA] [KI KA]].
  replace (text "__write_end_entry(" ++ log_name ++ text ", " ++ lock_name ++ text ");" ++ [x0a])
    with ((text "__write_end_entry" ++ text "(" ++ (log_name ++ text ", " ++ lock_name) ++ text ");") ++ [x0a]).
  - eapply co_weaken with (C := (False \/ False) \/ False); [tauto|]. apply co_app.
    + apply call_closed; [vm_compute; auto|apply declared_in; vm_compute; reflexivity|]. apply oo_comma; apply oo_id; auto.
    + exists []. split; [reflexivity|]. split; [constructor|tauto].
  - rewrite <- !app_assoc. reflexivity.
Qed.
Lemma ast_names : forall kf id gs st tx st', Forall (fun g => Forall (var_allowed kf (fst g)) (snd g)) gs -> instrument_ast_t test id gs st = (tx, st') ->
  closed_ok A False tx /\ ((exists g, In g gs /\ has_c_string (fst g) (snd g)) -> closed_ok A True tx).
Proof.
  intros kf id gs st tx st' F E. unfold instrument_ast_t in E. destruct (extra_stmts_t test gs st) as [ex st1] eqn:EX. apply (f_equal fst) in E. cbn [fst] in E. subst tx.
  destruct (extra_names _ _ _ _ _ F EX) as [X Y].
  assert (Q : forall a b : name, concat (a :: ex ++ [b]) = a ++ (concat ex ++ b)).
  { intros a b. cbn [concat]. rewrite concat_app. cbn [concat]. now rewrite app_nil_r. }
  rewrite Q. split.
  - eapply co_weaken; [|apply co_app; [apply id_names|apply co_app; [exact X|apply end_names]]]. tauto.
  - intros H. eapply co_weaken; [|apply co_app; [apply id_names|apply co_app; [exact (Y H)|apply end_names]]]. tauto.
Qed.
End Test.
End Allowed.

(** ** Places *)
Lemma site_var_allowed : forall kf s, site_ok kf s -> identifiers s ->
  Forall (fun g => Forall (var_allowed (uses s) kf (fst g)) (snd g)) (snd s).
Proof.
  intros kf s (_ & _ & TY & CO) ID. apply Forall_forall. intros g G. apply Forall_forall. intros [n t] V.
  assert (OK : type_ok kf t).
  { rewrite Forall_forall in TY. apply TY. apply in_concat. exists (map snd (snd g)). split; [apply (in_map (fun g => map snd (snd g))); exact G|].
    change t with (snd (n, t)). now apply in_map. }
  assert (IN : identifier n).
  { unfold identifiers in ID. rewrite Forall_forall in ID. apply ID. apply in_concat. exists (map fst (snd g)). split.
    - apply (in_map (fun g => map fst (snd g))). exact G.
    - change n with (fst (n, t)). now apply in_map. }
  rewrite Forall_forall in CO. specialize (CO g G). cbn [fst snd].
  split; auto. split; [eapply u_variable; eauto|]. split; auto. split; [intros w W; eapply u_type; eauto|]. cbn [snd]. split.
  - intros H. apply andb_true_iff in H. destruct H as [P H]. specialize (CO P). rewrite Forall_forall in CO. specialize (CO _ V). cbn [snd] in CO.
    rewrite (cpp_string_p_fn _ _ OK CO) in H. destruct (kind_fn t) as [[]|] eqn:K; try discriminate. apply has_kind_fn in K.
    split; eapply u_member; eauto; cbn; auto.
  - intros H. apply andb_true_iff in H. destruct H as [P H]. rewrite (c_string_p_fn _ _ OK) in H.
    destruct (kind_fn t) as [[]|] eqn:K; try discriminate. apply has_kind_fn in K. eapply u_strlen; eauto.
Qed.
Lemma site_strlen : forall kf s, site_ok kf s -> logs_c_string s -> exists g, In g (snd s) /\ has_c_string (fst g) (snd g).
Proof.
  intros kf s (_ & _ & TY & _) (g & n & t & G & V & P & K). exists g. split; auto. exists (n, t). split; auto. cbn [snd]. rewrite P. cbn [andb].
  assert (OK : type_ok kf t).
  { rewrite Forall_forall in TY. apply TY. apply in_concat. exists (map snd (snd g)). split; [apply (in_map (fun g => map snd (snd g))); exact G|].
    change t with (snd (n, t)). now apply in_map. }
  apply has_kind_fn in K. now rewrite (c_string_p_fn _ _ OK), K.
Qed.

Definition place_names (s : site) (t : name) : Prop :=
  (exists ks, lex t = Some ks /\ (forall x, In (KId x) ks -> uses s x)) /\
  (logs_c_string s -> exists ks, lex t = Some ks /\ In (KId (text "strlen")) ks).
Lemma program_names : forall test kf sites st texts st', Forall (site_ok kf) sites -> Forall identifiers sites ->
  instrument_all_t test sites st = (texts, st') -> Forall2 place_names sites texts.
Proof.
  intros test kf. induction sites as [|[id gs] sites IH]; intros st texts st' SOK ID E; cbn [instrument_all_t] in E.
  - injection E as <- <-. constructor.
  - inversion SOK as [|? ? S1 SOK']; subst. inversion ID as [|? ? I1 ID']; subst.
    destruct (instrument_ast_t test id gs st) as [tx st1] eqn:E1. destruct (instrument_all_t test sites st1) as [txs st2] eqn:E2.
    injection E as <- <-. constructor; [|eapply IH; eauto].
    pose proof (site_var_allowed _ _ S1 I1) as VA. cbn [snd] in VA.
    destruct (ast_names (uses (id, gs)) (u_declared _) (u_keyword _) test kf id gs st tx st1 VA E1) as [(ks & C & F & _) Y]. split.
    + exists ks. split; [now apply closed_lex|]. intros x X. rewrite Forall_forall in F. exact (F _ X).
    + intros L. destruct (Y (site_strlen _ _ S1 L)) as (k2 & C2 & _ & H). exists k2. split; [now apply closed_lex|]. now apply H.
Qed.
Lemma strlen_undeclared : ~ In (text "strlen") (declared forward_declarations).
Proof. intros H. vm_compute in H. intuition discriminate. Qed.
Lemma declared_reserved : Forall reserved (declared forward_declarations).
Proof. vm_compute. repeat constructor; eexists; reflexivity. Qed.

(** ** Calls *)
Definition call_ok (ts : list ctok) : Prop :=
  exists f args ps, call_of ts = Some (f, args) /\ In (f, ps) (prototypes forward_declarations) /\ accepts ps (length args).
Lemma mapM_len : forall A B (f : A -> option B) l m, mapM f l = Some m -> length m = length l.
Proof.
  induction l as [|x l IH]; intros m E; cbn [mapM] in E; [now injection E as <-|].
  destruct (f x); [|discriminate]. destruct (mapM f l) as [q|]; [|discriminate]. injection E as <-. cbn [length]. now rewrite (IH q).
Qed.
Lemma mapM_all : forall A B (f : A -> option B) l m, mapM f l = Some m -> Forall (fun x => exists y, f x = Some y) l.
Proof.
  induction l as [|x l IH]; intros m E; cbn [mapM] in E; [constructor|].
  destruct (f x) as [y|] eqn:F; [|discriminate]. destruct (mapM f l) as [q|]; [|discriminate]. constructor; [eauto|]. now apply (IH q).
Qed.
Definition proto_params (f : name) : option (list (list ctok)) := option_map snd (find (fun p => bytes_eqb f (fst p)) (prototypes forward_declarations)).
Local Opaque prototypes.
Lemma proto_found : forall f ps, proto_params f = Some ps -> In (f, ps) (prototypes forward_declarations).
Proof.
  intros f ps E. unfold proto_params in E. destruct (find (fun p : list byte * list (list ctok) => bytes_eqb f (fst p)) (prototypes forward_declarations)) as [[g qs]|] eqn:F; [|discriminate].
  apply find_some in F. destruct F as [I B]. cbn [fst] in B. apply beq in B. subst g. injection E as <-. exact I.
Qed.
Local Transparent prototypes.
Definition p_out : list ctok := [KId (text "void"); KPunct x2a; KId (text "out")].
Definition p_lock : list ctok := [KId (text "void"); KPunct x2a; KId (text "lock")].
Definition p_id : list ctok := [KId (text "const"); KId (text "unsigned"); KId (text "long"); KId (text "long"); KId (text "statement_id")].
Definition p_n : list ctok := [KId (text "const"); KId (text "unsigned"); KId (text "long"); KId (text "n_vars")].
Lemma protos : proto_params (text "__write_trace_id") = Some [p_out; p_lock; p_id] /\ proto_params (text "__write_end_entry") = Some [p_out; p_lock] /\
  proto_params (text "__write_trace_variables") = Some [p_out; p_n; dots] /\ proto_params (text "__write_trace_blobs") = Some [p_out; p_n; dots].
Proof. vm_compute. auto. Qed.
Local Opaque prototypes.
Lemma stmt_call_ok : forall ts p, stmt_of ts = Some p -> call_ok ts.
Proof.
  intros ts p E. unfold stmt_of in E. destruct (call_of ts) as [[f args]|] eqn:CO; [|discriminate E].
  destruct (mapM arg_of args) as [a|] eqn:M; [|discriminate E]. apply mapM_len in M.
  destruct protos as (P1 & P2 & P3 & P4). unfold stmt_of_call in E. destruct a as [|l r]; [discriminate E|].
  destruct (negb (is_log l)); [discriminate E|].
  destruct (bytes_eqb f (text "__write_trace_id")) eqn:B1.
  { apply beq in B1. subst f. destruct r as [|k [|[? [|]| | | | |] [|]]]; try discriminate E. exists (text "__write_trace_id"), args, [p_out; p_lock; p_id].
    split; [exact CO|]. split; [exact (proto_found _ _ P1)|]. left. split; [|rewrite <- M; reflexivity].
    intros [H|[H|[H|[]]]]; discriminate H. }
  destruct (bytes_eqb f (text "__write_end_entry")) eqn:B2.
  { apply beq in B2. subst f. destruct r as [|k [|]]; try discriminate E. exists (text "__write_end_entry"), args, [p_out; p_lock].
    split; [exact CO|]. split; [exact (proto_found _ _ P2)|]. left. split; [|rewrite <- M; reflexivity].
    intros [H|[H|[]]]; discriminate H. }
  assert (V : (exists x y q, l :: r = x :: y :: q) -> accepts [p_out; p_n; dots] (length args)).
  { intros (x & y & q & Q). right. exists [p_out; p_n]. split; [reflexivity|]. split; [intros [H|[H|[]]]; discriminate H|].
    rewrite <- M, Q. cbn [length]. lia. }
  destruct (bytes_eqb f (text "__write_trace_variables")) eqn:B3.
  { apply beq in B3. subst f. destruct r as [|y q]; try discriminate E. exists (text "__write_trace_variables"), args, [p_out; p_n; dots].
    split; [exact CO|]. split; [exact (proto_found _ _ P3)|]. apply V. eauto. }
  destruct (bytes_eqb f (text "__write_trace_blobs")) eqn:B4; [|discriminate E].
  apply beq in B4. subst f. destruct r as [|y q]; try discriminate E. exists (text "__write_trace_blobs"), args, [p_out; p_n; dots].
  split; [exact CO|]. split; [exact (proto_found _ _ P4)|]. apply V. eauto.
Qed.
Definition calls_ok (t : name) : Prop := exists ks sts, lex t = Some ks /\ CRead.split x3b 0 [] ks = sts ++ [[]] /\ Forall call_ok sts.
Lemma read_calls : forall t p, read_stmts t = Some p -> calls_ok t.
Proof.
  intros t p E. unfold read_stmts in E. destruct (lex t) as [ks|] eqn:L; [|discriminate].
  destruct (rev (CRead.split x3b 0 [] ks)) as [|[|] r] eqn:R; try discriminate. exists ks, (rev r). split; [exact L|]. split.
  - rewrite <- (rev_involutive (CRead.split x3b 0 [] ks)), R. reflexivity.
  - apply mapM_all in E. eapply Forall_impl; [|exact E]. intros x (y & Y). eapply stmt_call_ok; eauto.
Qed.
