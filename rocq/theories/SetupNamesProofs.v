(** Proofs for C98: names of the setup code. *)
From Coq Require Import Strings.String Permutation.
From Verif Require Import BaseProofs Types Compare PrintPred Dec DecProofs Instr InstrSpec InstrText InstrTable InstrProofs InstrReq InstrEnd.
From Verif Require Import CRead CParse Emit EmitSpec EmitProofs EmitProofs2 Names NamesSpec NamesProofs SetupRead SetupCode SetupNames.
Notation length := List.length.

(** ** Texts with allowed names *)
Section Allowed.
Variable A : name -> Prop.
Hypothesis DECL : forall x, In x (declared forward_declarations) -> A x.
Hypothesis KEY : forall x, In x [text "sizeof"; text "void"] -> A x.

Lemma co_text : forall t ks, closed t ks -> Forall (id_ok A) ks -> closed_ok A False t.
Proof. intros t ks C F. exists ks. split; [exact C|]. split; [exact F|tauto]. Qed.
Lemma co_concat : forall B (f : B -> name) l, Forall (fun b => closed_ok A False (f b)) l -> closed_ok A False (concat (map (fun b => f b ++ text ", ") l)).
Proof.
  intros B f l F. induction F as [|b l (k & C & G & _) F (ks & C2 & G2 & _)]; cbn [map concat]; [exists []; split; [apply closed_nil|]; split; [constructor|tauto]|].
  exists ((k ++ [KPunct x2c]) ++ ks). split; [apply closed_app; [apply closed_app; [exact C|vm_compute; reflexivity]|exact C2]|]. split; [|tauto].
  rewrite !Forall_app. repeat split; auto. constructor; [exact I|constructor].
Qed.

Section Test.
Variable test : name -> name -> bool.
Notation descs_ok st := (Forall (fun p : tkey * name => closed_ok A False (snd p)) (t_descs st)).

Lemma put_descs : forall k d h, closed_ok A False d -> Forall (fun p : tkey * name => closed_ok A False (snd p)) h ->
  Forall (fun p : tkey * name => closed_ok A False (snd p)) (puthash (key_test test) k d h).
Proof.
  intros k d h D F. induction F as [|[k' d'] h H F IH]; cbn [puthash]; [constructor; auto|].
  destruct (key_test test k' k); constructor; auto.
Qed.
Lemma name_descs : forall n st i st', get_name_index_t test n st = (i, st') -> t_descs st' = t_descs st.
Proof. intros n st i st' E. unfold get_name_index_t in E. destruct (gethash test n (t_names st)); injection E as <- <-; reflexivity. Qed.
Lemma desc_text : forall i f s, identifier f -> A f -> opens_ok A False s -> closed_ok A False (text "{" ++ dec i ++ text ", " ++ f ++ text ", " ++ s ++ text "}").
Proof.
  intros i f s FI FA SO.
  pose proof (oo_comma A _ _ _ _ (oo_dec A i) (oo_comma A _ _ _ _ (oo_id A f FI FA) SO)) as (ks & O & F & _).
  replace (text "{" ++ dec i ++ text ", " ++ f ++ text ", " ++ s ++ text "}") with (text "{" ++ ((dec i ++ text ", " ++ f ++ text ", " ++ s) ++ text "}")) by now rewrite <- !app_assoc.
  exists ([KPunct x7b] ++ (ks ++ [KPunct x7d])). split; [|split; [|tauto]].
  - apply closed_app; [vm_compute; reflexivity|]. apply open_closed; [exact O|vm_compute; reflexivity|]. eexists x7d, _. split; reflexivity.
  - rewrite !Forall_app. split; [constructor; [exact I|constructor]|]. split; [exact F|constructor; [exact I|constructor]].
Qed.
Lemma var_descs : forall kf n t ps st vs bs st', type_ok kf t -> (forall w, In w (words t) -> A w) -> descs_ok st ->
  instrument_var_t test n t ps st = (vs, bs, st') -> descs_ok st'.
Proof.
  intros kf n t ps st vs bs st' OK AW D E. unfold instrument_var_t in E.
  destruct (type_format_and_size_t t ps) as [[f s]|] eqn:TF; [|injection E as _ _ <-; exact D].
  destruct (size_allowed A DECL KEY kf t ps f s OK AW TF) as [[FI FA] SO].
  destruct (get_type_index_t test t f s ps st) as [ti st1] eqn:E1. destruct (get_name_index_t test n st1) as [ni st2] eqn:E2.
  assert (X : st2 = st') by (destruct (ps && c_string_type_p t); [|destruct (ps && cpp_string_type_p t)]; injection E as _ _ X; exact X). subst st2.
  rewrite (name_descs _ _ _ _ E2). unfold get_type_index_t in E1.
  destruct (gethash (key_test test) (string_flag t ps, type_trace_string t) (t_types st)); [injection E1 as _ <-; exact D|].
  unfold type_description_struct_t in E1. destruct (get_name_index_t test (type_trace_string t) st) as [i st3] eqn:E3.
  injection E1 as _ <-. cbn [t_descs]. apply put_descs; [now apply desc_text|]. rewrite (name_descs _ _ _ _ E3). exact D.
Qed.
Definition vars_allowed (kf : name -> skind) (l : list (name * ctype)) : Prop := Forall (fun x => type_ok kf (snd x) /\ forall w, In w (words (snd x)) -> A w) l.
Lemma vars_descs : forall kf ps l st vs bs st', vars_allowed kf l -> descs_ok st -> instrument_vars_t test l ps st = (vs, bs, st') -> descs_ok st'.
Proof.
  induction l as [|[n t] l IH]; intros st vs bs st' V D E; cbn [instrument_vars_t] in E; [injection E as _ _ <-; exact D|].
  inversion V as [|? ? [V1 V2] V']; subst. cbn [snd] in *.
  destruct (instrument_var_t test n t ps st) as [[v1 b1] st1] eqn:E1. destruct (instrument_vars_t test l ps st1) as [[v2 b2] st2] eqn:E2. injection E as _ _ <-.
  eapply IH; [exact V'| |exact E2]. eapply var_descs; eauto.
Qed.
Lemma groups_descs : forall kf gs st l st', Forall (fun g : group => vars_allowed kf (snd g)) gs -> descs_ok st -> extra_stmts_t test gs st = (l, st') -> descs_ok st'.
Proof.
  induction gs as [|[ps vs] gs IH]; intros st l st' V D E; cbn [extra_stmts_t] in E; [injection E as _ <-; exact D|].
  inversion V as [|? ? V1 V']; subst. cbn [snd] in *. destruct (instrument_c_exprs_t test vs ps st) as [s1 st1] eqn:E1. destruct (extra_stmts_t test gs st1) as [s2 st2] eqn:E2. injection E as _ <-.
  eapply IH; [exact V'| |exact E2]. unfold instrument_c_exprs_t in E1. destruct (instrument_vars_t test vs ps st) as [[v b] st3] eqn:E3. injection E1 as _ <-. eapply vars_descs; eauto.
Qed.
Lemma all_descs : forall kf sites st l st', Forall (fun s : site => Forall (fun g : group => vars_allowed kf (snd g)) (snd s)) sites -> descs_ok st ->
  instrument_all_t test sites st = (l, st') -> descs_ok st'.
Proof.
  induction sites as [|[id gs] sites IH]; intros st l st' V D E; cbn [instrument_all_t] in E; [injection E as _ <-; exact D|].
  inversion V as [|? ? V1 V']; subst. cbn [snd] in *. destruct (instrument_ast_t test id gs st) as [s1 st1] eqn:E1. destruct (instrument_all_t test sites st1) as [s2 st2] eqn:E2. injection E as _ <-.
  eapply IH; [exact V'| |exact E2]. unfold instrument_ast_t in E1. destruct (extra_stmts_t test gs st) as [v st3] eqn:E3. injection E1 as _ <-. eapply groups_descs; eauto.
Qed.
End Test.

(** ** The initialisers *)
Hypothesis WORDS : forall x, In x (map text ["const"; "char"; "names"; "types"; "NULL"]%string) -> A x.
Lemma words_in : forall x, existsb (bytes_eqb x) (map text ["const"; "char"; "names"; "types"; "NULL"]%string) = true -> A x.
Proof. intros x E. apply WORDS. apply existsb_exists in E. destruct E as (y & Hy & E). apply beq in E. rewrite E. exact Hy. Qed.
Lemma desc_allowed : A (text "__trace_type_description").
Proof. apply (declared_in A DECL). vm_compute. reflexivity. Qed.
Ltac ids := repeat first [apply Forall_nil | apply Forall_cons; [first [exact I | apply words_in; vm_compute; reflexivity | exact desc_allowed]|]].

Lemma names_allowed : forall alist, Forall one_line (map fst alist) -> opens_ok A False (names_initialization alist).
Proof.
  intros alist OL. unfold names_initialization. destruct alist as [|p alist].
  - exists [KId (text "const"); KId (text "char"); KPunct x2a; KPunct x2a; KId (text "names"); KPunct x3d; KId (text "NULL")]. split; [|split; [ids|tauto]].
    change (text "const char **names = NULL") with (text "const char **names = " ++ text "NULL").
    change [KId (text "const"); KId (text "char"); KPunct x2a; KPunct x2a; KId (text "names"); KPunct x3d; KId (text "NULL")]
      with ([KId (text "const"); KId (text "char"); KPunct x2a; KPunct x2a; KId (text "names"); KPunct x3d] ++ [KId (text "NULL")]).
    apply closed_then; [vm_compute; reflexivity|]. apply open_id. vm_compute. auto.
  - apply co_open. eapply co_weaken; [|apply co_app; [|apply co_app]].
    + intros [].
    + eapply (co_text _ [KId (text "const"); KId (text "char"); KPunct x2a; KId (text "names"); KPunct x5b; KPunct x5d; KPunct x3d; KPunct x7b]); [vm_compute; reflexivity|ids].
    + apply (co_concat _ (fun q : name * N => lisp_print (fst q))). apply Forall_forall. intros q Q. apply (co_text _ [KStr (fst q)]); [|ids].
      apply closed_literal. rewrite Forall_forall in OL. apply OL. apply in_map. eapply Permutation_in; [apply Permutation_sym, (sort_perm snd)|exact Q].
    + apply (co_text _ [KPunct x7d]); [vm_compute; reflexivity|ids].
Qed.
Lemma types_allowed : forall test types tal, Forall (fun p : tkey * name => closed_ok A False (snd p)) tal -> opens_ok A False (types_initialization test types tal).
Proof.
  intros test types tal F. unfold types_initialization. destruct types as [|p types].
  - exists [KId (text "const"); KId (text "__trace_type_description"); KPunct x2a; KId (text "types"); KPunct x3d; KId (text "NULL")]. split; [|split; [ids|tauto]].
    change (text "const __trace_type_description *types = NULL") with (text "const __trace_type_description *types = " ++ text "NULL").
    change [KId (text "const"); KId (text "__trace_type_description"); KPunct x2a; KId (text "types"); KPunct x3d; KId (text "NULL")]
      with ([KId (text "const"); KId (text "__trace_type_description"); KPunct x2a; KId (text "types"); KPunct x3d] ++ [KId (text "NULL")]).
    apply closed_then; [vm_compute; reflexivity|]. apply open_id. vm_compute. auto.
  - apply co_open. eapply co_weaken; [|apply co_app; [|apply co_app]].
    + intros [].
    + eapply (co_text _ [KId (text "const"); KId (text "__trace_type_description"); KId (text "types"); KPunct x5b; KPunct x5d; KPunct x3d; KPunct x7b]); [vm_compute; reflexivity|ids].
    + apply (co_concat _ (fun q : tkey * name => snd q)). rewrite Forall_forall in *. intros q Q. apply F. eapply Permutation_in; [apply Permutation_sym, sort_perm|exact Q].
    + apply (co_text _ [KPunct x7d]); [vm_compute; reflexivity|ids].
Qed.
End Allowed.

(** ** The text *)
Definition headers : list name := map text ["pthread"; "stdio"; "string"; "stdlib"; "unistd"]%string.
Lemma included_front : forall R, exists r, included (tk1 ++ R) = headers ++ r.
Proof.
  intros R. replace tk1 with lk1 by (vm_compute; reflexivity). exists (included R). lazy -[included app]. lazy. reflexivity.
Qed.
Definition protos : list (name * nat) := Eval vm_compute in map (fun p => (fst p, length (snd p))) (prototypes forward_declarations).
Lemma protos_eq : map (fun p => (fst p, length (snd p))) (prototypes forward_declarations) = protos.
Proof. vm_compute. reflexivity. Qed.
Definition header_functions : list (name * nat) := Eval vm_compute in
  flat_map (fun p => match snd p with Function n => [(fst p, n)] | _ => [] end) (flat_map provides headers).
Definition header_objects : list name := Eval vm_compute in
  flat_map (fun p => match snd p with Object => [fst p] | _ => [] end) (flat_map provides headers).

Lemma scoped_body : forall h g names types i j fs vs,
  block_scoped (protos ++ header_functions ++ fs) ([log_var; lock_var] ++ header_objects ++ vs) (setup_body h g names types i j) = true.
Proof.
  intros h g names types i j fs vs. unfold setup_body.
  assert (N1 : forall vars l, stmt_scoped (protos ++ header_functions ++ fs) (vars ++ header_objects ++ vs) (names_stmt l) = true /\ declares (names_stmt l) = [text "names"]).
  { intros vars [|x l]; split; try reflexivity. cbn [names_stmt stmt_scoped expr_scoped]. unfold among. rewrite existsb_app. apply orb_true_iff. right. lazy. reflexivity. }
  assert (T1 : forall vars l, stmt_scoped (protos ++ header_functions ++ fs) (vars ++ header_objects ++ vs) (types_stmt l) = true /\ declares (types_stmt l) = [text "types"]).
  { intros vars [|x l]; split; try reflexivity. cbn [types_stmt stmt_scoped expr_scoped]. unfold among. rewrite existsb_app. apply orb_true_iff. right. lazy. reflexivity. }
  assert (G1 : forall vars, stmt_scoped (protos ++ header_functions ++ fs) ((text "buffer" :: vars) ++ [log_var; lock_var] ++ header_objects ++ vs) (USet log_var (log_expr g)) = true).
  { intros vars. cbn [stmt_scoped]. apply andb_true_iff. split.
    - unfold among. rewrite existsb_app. apply orb_true_iff. right. lazy. reflexivity.
    - destruct g; cbn [log_expr expr_scoped]; [| |lazy; reflexivity|lazy; reflexivity|lazy; reflexivity].
      all: unfold among; rewrite existsb_app; apply orb_true_iff; right; lazy; reflexivity. }
  remember (names_stmt names) as ns eqn:EN. remember (types_stmt types) as ty eqn:ET. remember (USet log_var (log_expr g)) as gs eqn:EG.
  assert (GD : declares gs = []) by (subst gs; reflexivity).
  pose proof (fun v => proj1 (N1 v names)) as N2. pose proof (proj2 (N1 [] names)) as N3. pose proof (fun v => proj1 (T1 v types)) as T2. pose proof (proj2 (T1 [] types)) as T3.
  rewrite <- EN in N2, N3. rewrite <- ET in T2, T3. clear EN ET EG N1 T1.
  cbn [block_scoped]. rewrite N3, T3, GD. cbn [declares app].
  repeat (apply andb_true_iff; split).
  all: lazymatch goal with
       | |- stmt_scoped _ _ ?s = true =>
           tryif is_var s then
             first [apply (G1 [text "handshake_file_path"; text "handshake_file"; text "__static_lock"])
                   |apply (N2 [text "buffer"; text "handshake_file_path"; text "handshake_file"; text "__static_lock"; log_var; lock_var])
                   |apply (T2 [text "names"; text "buffer"; text "handshake_file_path"; text "handshake_file"; text "__static_lock"; log_var; lock_var])]
           else (lazy; reflexivity)
       | _ => lazy; reflexivity
       end.
Qed.

Lemma setup_is_scoped : forall R h g names types i j, setup_scoped (tk1 ++ R) (setup_unit h g names types i j) = true.
Proof.
  intros R h g names types i j. unfold setup_scoped, functions_of, objects_of, from_headers. destruct (included_front R) as (r & ->).
  rewrite protos_eq. rewrite !flat_map_app. cbn [u_globals u_body setup_unit]. apply scoped_body.
Qed.

(** ** Its names *)
Section Uses.
Variable sites : list site.
Variable R : list ctok.
Variables (h : name) (g : logfile) (names : list name) (types : list tdesc) (i j : N).
Notation u := (setup_unit h g names types i j).
Notation A := (setup_uses sites (tk1 ++ R) u).

Definition own : list name := map text ["__bi_setup"; "__static_lock"; "handshake_file"; "handshake_file_path"; "buffer"; "names"; "types"]%string ++ [log_var; lock_var].
Lemma own_in : forall x, In x own -> In x (own_names u).
Proof.
  assert (EN : declares (names_stmt names) = [text "names"]) by (destruct names; reflexivity).
  assert (ET : declares (types_stmt types) = [text "types"]) by (destruct types; reflexivity).
  assert (E : own_names u = [log_var; lock_var; text "__bi_setup"; text "__static_lock"; text "handshake_file"; text "handshake_file_path"; text "buffer"; text "names"; text "types"]).
  { unfold own_names. cbn [setup_unit u_globals u_name u_body setup_body flat_map]. rewrite EN, ET. reflexivity. }
  rewrite E. unfold own. cbn [map app In]. tauto.
Qed.
Definition known_words : list name :=
  map text ["void"; "const"; "char"; "static"; "if"; "while"; "do"; "sizeof"; "__attribute__"; "constructor"]%string ++
  map text ["ifdef"; "include"; "h"; "endif"; "__GT_TRACEDB_ENTRY_POINT"]%string ++ headers ++
  map fst (flat_map provides headers) ++ own ++ declared forward_declarations.
Lemma known_ok : forall x, In x known_words -> A x.
Proof.
  intros x X. unfold known_words in X. destruct (included_front R) as (r & E).
  apply in_app_or in X. destruct X as [X|X]; [|apply in_app_or in X; destruct X as [X|X]; [|apply in_app_or in X; destruct X as [X|X]; [|apply in_app_or in X; destruct X as [X|X]; [|apply in_app_or in X; destruct X as [X|X]]]]].
  - exact (su_keyword _ _ _ x X).
  - apply su_directive. cbn [map In] in X |- *. destruct X as [X|[X|[X|[X|[X|[]]]]]]; auto 6.
  - apply su_directive. right. right. rewrite E. apply in_or_app. now left.
  - apply in_map_iff in X. destruct X as ((y & e) & <- & X). apply (su_header _ _ _ _ e). unfold from_headers. rewrite E, flat_map_app. apply in_or_app. now left.
  - exact (su_own _ _ _ x (own_in x X)).
  - exact (su_declared _ _ _ x X).
Qed.
Definition word_known (k : ctok) : bool := match k with KId x => existsb (bytes_eqb x) known_words | _ => true end.
Lemma known_all : forall ks, forallb word_known ks = true -> Forall (id_ok A) ks.
Proof.
  intros ks E. rewrite forallb_forall in E. apply Forall_forall. intros k K. specialize (E k K). destruct k as [x|x|x|x]; try exact I. cbn [word_known] in E. cbn [id_ok].
  apply known_ok. apply existsb_exists in E. destruct E as (y & Y & E). apply beq in E. rewrite E. exact Y.
Qed.
Lemma fixed_tokens : Forall (id_ok A) tk1 /\ Forall (id_ok A) tk2 /\ Forall (id_ok A) tk3 /\ Forall (id_ok A) tk4 /\ Forall (id_ok A) tk5 /\ Forall (id_ok A) tk6 /\ Forall (id_ok A) tk7.
Proof. repeat split; apply known_all; vm_compute; reflexivity. Qed.
Lemma log_tokens : forall g', Forall (id_ok A) (log_toks g').
Proof. intros g'. apply known_all. destruct g'; vm_compute; reflexivity. Qed.
End Uses.

(** ** All programs *)
Lemma table_lines : forall test kf sites texts ts nal, Forall (site_ok kf) sites -> Forall identifiers sites -> tells_apart test (all_texts sites) ->
  instrument_all_t test sites tstate0 = (texts, ts) -> Permutation nal (t_names ts) -> Forall one_line (map fst nal).
Proof.
  intros test kf sites texts ts nal SOK ID TA ET PN.
  destruct (instrument_all test sites istate0) as [code st] eqn:EI.
  assert (VP : Forall (fun s : site => Forall (fun g => Forall (var_pre (txt sites) kf (fst g)) (snd g)) (snd s)) sites).
  { apply Forall_forall. intros s Is. exact (site_pre kf sites SOK s Is). }
  assert (ID' : Forall (fun s : site => Forall (fun g : group => Forall (fun x => identifier (fst x)) (snd g)) (snd s)) sites).
  { eapply Forall_impl; [|exact ID]. exact ident_sites. }
  destruct (all_sim test (txt sites) TA kf sites _ _ _ _ _ _ VP ID' sim0 (sinv0 _ kf) ET EI) as ([EN EY ED] & I & _).
  apply Forall_forall. intros n In_. apply in_map_iff in In_. destruct In_ as (q & <- & Iq).
  assert (T : txt sites (fst q)).
  { pose proof (si_ndom _ _ _ I) as D. rewrite Forall_forall in D. apply D. apply in_map. rewrite <- EN. eapply Permutation_in; eauto. }
  unfold txt, all_texts in T. apply in_concat in T. destruct T as (l & Il & T). apply in_map_iff in Il. destruct Il as (s & <- & Is).
  rewrite Forall_forall in ID, SOK. apply in_app_or in T. destruct T as [T|T].
  - apply ident_line. specialize (ID s Is). unfold identifiers in ID. rewrite Forall_forall in ID. auto.
  - apply in_map_iff in T. destruct T as (t & <- & It). destruct (SOK s Is) as (_ & _ & OT & _). rewrite Forall_forall in OT.
    intros X. destruct (text_chars _ _ _ (OT t It) X). congruence.
Qed.

Lemma site_vars : forall (A : name -> Prop) kf sites, Forall (site_ok kf) sites -> (forall s g n t x, In s sites -> In g (snd s) -> In (n, t) (snd g) -> In x (words t) -> A x) ->
  Forall (fun s : site => Forall (fun g : group => vars_allowed A kf (snd g)) (snd s)) sites.
Proof.
  intros A kf sites SOK W. apply Forall_forall. intros s Is. apply Forall_forall. intros g Ig. apply Forall_forall. intros [n t] Iv. cbn [snd].
  split; [|intros x X; eapply W; eauto].
  pose proof (site_pre kf sites SOK s Is) as P. rewrite Forall_forall in P. specialize (P g Ig). rewrite Forall_forall in P. specialize (P (n, t) Iv).
  unfold var_pre in P. tauto.
Qed.

Lemma eleven : forall (Q : ctok -> Prop) a b c d e f g h i j k l, Forall Q a -> Forall Q b -> Forall Q c -> Forall Q d -> Forall Q e -> Forall Q f -> Forall Q g -> Forall Q h ->
  Forall Q i -> Forall Q j -> Forall Q k -> Forall Q l -> Forall Q ((a ++ b) ++ c ++ d ++ e ++ f ++ g ++ h ++ i ++ j ++ k ++ l).
Proof. intros. repeat (apply Forall_app; split); assumption. Qed.
Lemma setup_names : forall test kf sites h f env g st_text texts,
  Forall (site_ok kf) sites -> Forall identifiers sites -> tells_apart test (all_texts sites) -> plain_text h -> log_goes f env g ->
  emits test sites h f env st_text texts ->
  exists ks u, lex st_text = Some ks /\ read_unit st_text = Some u /\ (forall x, In (KId x) ks -> setup_uses sites ks u x) /\ setup_scoped ks u = true /\
    u_globals u = [log_var; lock_var] /\ u_name u = text "__bi_setup" /\ incl headers (included ks).
Proof.
  intros test kf sites h f env g st_text texts SOK ID TA P L EM.
  destruct (setup_shape _ _ _ _ _ _ _ _ _ SOK ID TA P L EM) as (names & types & code & _ & _ & _ & RU).
  destruct EM as (ts & nal & tal & ET & PN & PT & ->).
  pose proof (table_lines _ _ _ _ _ _ SOK ID TA ET PN) as OL.
  set (u := setup_unit h g names types (lenN names) (lenN types)) in *.
  destruct (log_toks_ok _ _ _ L) as (O1 & _).
  (* names of any text with these words *)
  assert (X : exists ni ti, open_end (names_initialization nal) ni /\ open_end (types_initialization test (t_types ts) tal) ti /\
    forall R, Forall (id_ok (setup_uses sites (tk1 ++ R) u)) ni /\ Forall (id_ok (setup_uses sites (tk1 ++ R) u)) ti).
  { set (A := fun x => forall R, setup_uses sites (tk1 ++ R) u x).
    assert (K : forall x, In x known_words -> A x) by (intros x X R; now apply known_ok).
    assert (KB : forall x, existsb (bytes_eqb x) known_words = true -> A x).
    { intros x E. apply K. apply existsb_exists in E. destruct E as (y & Y & E). apply beq in E. rewrite E. exact Y. }
    assert (DECL : forall x, In x (declared forward_declarations) -> A x) by (intros x X R; exact (su_declared _ _ _ x X)).
    assert (KEY : forall x, In x [text "sizeof"; text "void"] -> A x) by (intros x [<-|[<-|[]]]; apply KB; vm_compute; reflexivity).
    assert (WORDS : forall x, In x (map text ["const"; "char"; "names"; "types"; "NULL"]%string) -> A x).
    { cbn [map]. intros x [<-|[<-|[<-|[<-|[<-|[]]]]]]; apply KB; vm_compute; reflexivity. }
    assert (SV : Forall (fun s : site => Forall (fun g : group => vars_allowed A kf (snd g)) (snd s)) sites).
    { apply site_vars; [exact SOK|]. intros s g' n t x Is Ig Iv W R. eapply su_type; eauto. }
    assert (D : Forall (fun p : tkey * name => closed_ok A False (snd p)) (t_descs ts)) by (eapply all_descs; eauto; constructor).
    assert (D' : Forall (fun p : tkey * name => closed_ok A False (snd p)) tal).
    { rewrite Forall_forall in *. intros p Ip. apply D. eapply Permutation_in; eauto. }
    destruct (names_allowed A WORDS nal OL) as (ni & N1 & N2 & _). destruct (types_allowed A DECL WORDS test (t_types ts) tal D') as (ti & T1 & T2 & _).
    exists ni, ti. split; [exact N1|]. split; [exact T1|]. intros R.
    split; [eapply Forall_impl; [|exact N2]|eapply Forall_impl; [|exact T2]]; intros [x|x|x|x] H; try exact I; exact (H R). }
  destruct X as (ni & ti & O2 & O3 & IDS).
  set (ks := toks h (log_toks g) ni ti (lenN (t_names ts)) (lenN (t_types ts))).
  assert (LX : lex (setup_text test ts nal tal h f env) = Some ks) by (unfold setup_text; now apply toks_lex).
  assert (KS : ks = tk1 ++ (([KStr h] ++ tk2) ++ log_toks g ++ tk3 ++ ni ++ tk4 ++ ti ++ tk5 ++ [KNum (dec (lenN (t_names ts)))] ++ tk6 ++ [KNum (dec (lenN (t_types ts)))] ++ tk7)).
  { unfold ks, toks. generalize tk1 as k1, tk2 as k2, tk3 as k3, tk4 as k4, tk5 as k5, tk6 as k6, tk7 as k7. intros. now rewrite <- !app_assoc. }
  exists ks, u. split; [exact LX|]. split; [exact RU|]. rewrite KS. set (R := ([KStr h] ++ tk2) ++ _) at 1 2 3 4. split; [|split; [|split; [reflexivity|split; [reflexivity|]]]].
  - assert (F : Forall (id_ok (setup_uses sites (tk1 ++ R) u)) (tk1 ++ R)).
    { destruct (IDS R) as [I1 I2]. destruct (fixed_tokens sites R h g names types (lenN names) (lenN types)) as (F1 & F2 & F3 & F4 & F5 & F6 & F7).
      pose proof (log_tokens sites R h g names types (lenN names) (lenN types) g) as F8. apply Forall_app. split; [exact F1|]. unfold R at 2.
      assert (S1 : forall k, (forall x, k <> KId x) -> Forall (id_ok (setup_uses sites (tk1 ++ R) u)) [k]).
      { intros k NK. constructor; [|constructor]. destruct k; try exact I. exfalso. eapply NK; reflexivity. }
      apply eleven; [apply S1; discriminate|exact F2|exact F8|exact F3|exact I1|exact F4|exact I2|exact F5|apply S1; discriminate|exact F6|apply S1; discriminate|exact F7]. }
    intros x X. rewrite Forall_forall in F. exact (F _ X).
  - apply setup_is_scoped.
  - destruct (included_front R) as (r & ->). apply incl_appl, incl_refl.
Qed.
