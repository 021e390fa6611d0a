(** Proofs for C101: the setup code is read. *)
From Coq Require Import Strings.String Permutation.
From Verif Require Import BaseProofs Types Compare PrintPred Dec DecProofs Instr InstrSpec InstrText InstrTable InstrProofs InstrReq InstrEnd.
From Verif Require Import CRead CParse Emit EmitSpec EmitProofs EmitProofs2 SetupRead.
Notation length := List.length.

(** ** Brackets *)
Lemma until_deep : forall sep l, bal l -> forall d acc r, until sep (S d) acc (l ++ r) = until sep (S d) (rev l ++ acc) r.
Proof.
  induction 1 as [|k l [P1 P2] B IH|o l c r' O1 O2 C1 C2 B1 IH1 B2 IH2]; intros d acc r; [reflexivity| |].
  - cbn [app until Nat.eqb andb]. rewrite P1, P2, IH. cbn [rev]. rewrite <- app_assoc. reflexivity.
  - cbn [app until Nat.eqb andb]. rewrite O1. rewrite <- app_assoc. rewrite IH1. cbn [app until Nat.eqb andb]. rewrite C1, C2. cbn [pred]. rewrite IH2. cbn [rev].
    rewrite rev_app_distr. cbn [rev]. rewrite <- !app_assoc. reflexivity.
Qed.
Lemma until_flat : forall sep l, flat sep l -> forall acc r, until sep 0 acc (l ++ r) = until sep 0 (rev l ++ acc) r.
Proof.
  induction 1 as [|k l [P1 P2] S F IH|o l c r' O1 O2 C1 C2 S B F IH]; intros acc r; [reflexivity| |].
  - cbn [app until Nat.eqb andb]. rewrite S, P1, P2, IH. cbn [rev]. rewrite <- app_assoc. reflexivity.
  - cbn [app until Nat.eqb andb]. rewrite S, O1. rewrite <- app_assoc. rewrite until_deep by exact B. cbn [app until Nat.eqb andb]. rewrite C1, C2. cbn [pred]. rewrite IH. cbn [rev].
    rewrite rev_app_distr. cbn [rev]. rewrite <- !app_assoc. reflexivity.
Qed.
Lemma until_end : forall sep l r, flat sep l -> until sep 0 [] (l ++ KPunct sep :: r) = Some (l, r).
Proof. intros sep l r F. rewrite until_flat by exact F. cbn [until Nat.eqb andb]. rewrite is_refl. rewrite app_nil_r, rev_involutive. reflexivity. Qed.
Lemma bal_flat : forall l, bal l -> flat x7d l.
Proof.
  induction 1 as [|k l P B IH|o l c r O1 O2 C1 C2 B1 IH1 B2 IH2]; [apply fl_nil|apply fl_cons; auto|apply fl_wrap; auto].
  - destruct P as [_ P]. unfold closes in P. apply orb_false_iff in P. tauto.
  - unfold closes in O2. apply orb_false_iff in O2. tauto.
Qed.

(** ** Statements *)
Definition ordinary_start (ts : list ctok) : bool :=
  match eat x7d ts, word "if" ts, word "while" ts, word "do" ts with None, None, None, None => true | _, _, _, _ => false end.
Lemma block_simple : forall n ts c q s l r, ordinary_start ts = true -> until x3b 0 [] ts = Some (c, q) -> parse_short c = Some s ->
  parse_block n q = Some (l, r) -> parse_block (S n) ts = Some (s :: l, r).
Proof.
  intros n ts c q s l r O U P B. cbn [parse_block]. unfold ordinary_start in O.
  destruct (eat x7d ts), (word "if" ts), (word "while" ts), (word "do" ts); try discriminate O.
  rewrite U. cbn [also]. rewrite P. cbn [also]. rewrite B. reflexivity.
Qed.
Lemma block_if : forall n ts q c q1 e q2 l q3 m r, eat x7d ts = None -> word "if" ts = Some q -> in_parens q = Some (c, q1) -> parse_u depth c = Some e ->
  eat x7b q1 = Some q2 -> parse_block n q2 = Some (l, q3) -> parse_block n q3 = Some (m, r) -> parse_block (S n) ts = Some (UIf e l :: m, r).
Proof.
  intros n ts q c q1 e q2 l q3 m r A B C D E F G. cbn [parse_block]. rewrite A, B, C. cbn [also]. rewrite D. cbn [also]. rewrite E. cbn [also]. rewrite F. cbn [also]. rewrite G. reflexivity.
Qed.
Lemma block_end : forall n r, parse_block (S n) (KPunct x7d :: r) = Some ([], r).
Proof. reflexivity. Qed.

(** ** The parts with symbols *)
Definition log_expr (g : logfile) : uexpr :=
  match g with
  | ToStderr => UVar (text "stderr")
  | ToStdout => UVar (text "stdout")
  | ToFile p => UCall (text "fopen") [UStr p; UStr (text "w")]
  | ToEnv v => UCall (text "fopen") [UCall (text "getenv") [UStr v]; UStr (text "w")]
  | ToHandshake => UCall (text "fopen") [UVar (text "buffer"); UStr (text "w")]
  end.
Definition log_toks (g : logfile) : list ctok :=
  match g with
  | ToStderr => [KId (text "stderr")]
  | ToStdout => [KId (text "stdout")]
  | ToFile p => fopen_toks [KStr p]
  | ToEnv v => fopen_toks [KId (text "getenv"); KPunct x28; KStr v; KPunct x29]
  | ToHandshake => fopen_toks [KId (text "buffer")]
  end.
Lemma log_toks_ok : forall f env g, log_goes f env g -> open_end (file_open f env) (log_toks g) /\ flat x3b (log_toks g).
Proof.
  intros f env g L. destruct L as [env|env|p env O|v O|]; cbn [file_open log_toks].
  - split; [apply open_id; vm_compute; auto|apply flat_one; auto with emit].
  - split; [apply open_id; vm_compute; auto|apply flat_one; auto with emit].
  - split; [apply closed_open, fopen_closed, closed_literal; auto|apply fopen_flat, bal_one; auto with emit].
  - split; [|apply fopen_flat, getenv_bal; auto with emit]. apply closed_open.
    replace (text "fopen(getenv(" ++ lisp_print v ++ text "), ""w"")")
      with (text "fopen(" ++ (text "getenv(" ++ lisp_print v ++ text ")") ++ text ", ""w"")") by (rewrite <- !app_assoc; reflexivity).
    apply fopen_closed. change [KId (text "getenv"); KPunct x28; KStr v; KPunct x29] with ([KId (text "getenv"); KPunct x28] ++ [KStr v] ++ [KPunct x29]).
    apply closed_app; [vm_compute; reflexivity|]. apply closed_app; [apply closed_literal; auto|vm_compute; reflexivity].
  - split; [|apply fopen_flat, bal_one; auto with emit]. apply closed_open.
    change (text "fopen(buffer, ""w"")") with (text "fopen(" ++ text "buffer" ++ text ", ""w"")"). apply fopen_open. apply open_id. vm_compute. auto.
Qed.
Lemma log_parsed : forall g, parse_short (KId log_var :: KPunct x3d :: log_toks g) = Some (USet log_var (log_expr g)).
Proof. destruct g; vm_compute; reflexivity. Qed.

Definition names_stmt (l : list name) : ustmt :=
  match l with [] => UPointer (text "names") (UVar (text "NULL")) | _ => UNames (text "names") l end.
Definition types_stmt (l : list tdesc) : ustmt :=
  match l with [] => UPointer (text "types") (UVar (text "NULL")) | _ => UTypes (text "types") l end.
(** Tokens that are read as this statement. *)
Definition stmt_toks (ks : list ctok) (s : ustmt) : Prop :=
  flat x3b ks /\ parse_short ks = Some s /\ forall r, ordinary_start (ks ++ r) = true.

Lemma elements_each : forall items, Forall (flat x2c) items -> elements (KPunct x7b :: each items ++ [KPunct x7d]) = Some items.
Proof.
  intros items F. unfold elements. cbn [eat]. rewrite is_refl. cbn [also]. rewrite until_end by (apply bal_flat, each_bal; exact F). cbn [also].
  unfold each. rewrite split_each by exact F. rewrite rev_app_distr. cbn [rev app]. rewrite rev_involutive. reflexivity.
Qed.
Lemma array_flat : forall pre items, Forall (flat x2c) items -> flat x3b pre -> flat x3b (pre ++ KPunct x7b :: each items ++ [KPunct x7d]).
Proof.
  intros pre items F P. apply flat_app; [exact P|]. apply (fl_wrap x3b (KPunct x7b) (each items) (KPunct x7d) []); try reflexivity; [apply each_bal; exact F|apply fl_nil].
Qed.
Lemma short_decl : forall ts s, word "static" ts = None -> parse_decl ts = Some s -> parse_short ts = Some s.
Proof. intros ts s W D. unfold parse_short. rewrite W, D. reflexivity. Qed.
Lemma names_decl : forall T, parse_decl ([KId (text "const"); KId (text "char"); KPunct x2a; KId (text "names"); KPunct x5b; KPunct x5d; KPunct x3d] ++ T) =
  also (elements T) (fun l => also (mapM string_elem l) (fun l => Some (UNames (text "names") l))).
Proof. intros T. reflexivity. Qed.
Lemma types_decl : forall T, parse_decl ([KId (text "const"); KId (text "__trace_type_description"); KId (text "types"); KPunct x5b; KPunct x5d; KPunct x3d] ++ T) =
  also (elements T) (fun l => also (mapM type_elem l) (fun l => Some (UTypes (text "types") l))).
Proof. intros T. reflexivity. Qed.
Lemma names_toks : forall alist, Forall one_line (map fst alist) -> exists ks, open_end (names_initialization alist) ks /\ stmt_toks ks (names_stmt (emit_names alist)).
Proof.
  intros alist OL. unfold names_initialization, emit_names. destruct alist as [|p alist].
  - exists [KId (text "const"); KId (text "char"); KPunct x2a; KPunct x2a; KId (text "names"); KPunct x3d; KId (text "NULL")]. split.
    + change (text "const char **names = NULL") with (text "const char **names = " ++ text "NULL").
      change [KId (text "const"); KId (text "char"); KPunct x2a; KPunct x2a; KId (text "names"); KPunct x3d; KId (text "NULL")]
        with ([KId (text "const"); KId (text "char"); KPunct x2a; KPunct x2a; KId (text "names"); KPunct x3d] ++ [KId (text "NULL")]).
      apply closed_then; [vm_compute; reflexivity|]. apply open_id. vm_compute. auto.
    + split; [repeat (apply fl_cons; [split; reflexivity|reflexivity|]); apply fl_nil|]. split; reflexivity.
  - set (L := p :: alist) in *. set (items := map (fun q : name * N => [KStr (fst q)]) (sort_by snd L)).
    assert (FI : Forall (flat x2c) items) by (unfold items; apply Forall_map, Forall_forall; intros; apply flat_one; auto with emit).
    exists ([KId (text "const"); KId (text "char"); KPunct x2a; KId (text "names"); KPunct x5b; KPunct x5d; KPunct x3d] ++ KPunct x7b :: each items ++ [KPunct x7d]).
    split; [|split; [|split]].
    + apply closed_open. change (text "const char *names[] = {") with (text "const char *names[] = " ++ text "{"). rewrite <- app_assoc.
      apply closed_app; [vm_compute; reflexivity|]. change (KPunct x7b :: ?l) with ([KPunct x7b] ++ l). apply closed_app; [vm_compute; reflexivity|]. apply closed_app; [|vm_compute; reflexivity].
      apply (each_closed _ (fun q : name * N => lisp_print (fst q))). unfold items.
      assert (O : forall q, In q (sort_by snd L) -> one_line (fst q)).
      { intros q I. rewrite Forall_forall in OL. apply OL. apply in_map. eapply Permutation_in; [apply Permutation_sym, (sort_perm snd)|exact I]. }
      clear -O. induction (sort_by snd L) as [|q l IH]; cbn [map]; constructor; [apply closed_literal, O; now left|]. apply IH. intros; apply O; now right.
    + apply array_flat; [exact FI|]. repeat (apply fl_cons; [split; reflexivity|reflexivity|]).
      apply (fl_wrap x3b (KPunct x5b) [] (KPunct x5d) [KPunct x3d]); try reflexivity; [apply bal_nil|]. apply fl_cons; [split; reflexivity|reflexivity|apply fl_nil].
    + assert (NE : map fst (sort_by snd L) <> []).
      { intros E. assert (X := Permutation_length (sort_perm snd L)). apply (f_equal (@List.length _)) in E. rewrite map_length in E. rewrite E in X. discriminate X. }
      apply short_decl; [reflexivity|]. rewrite names_decl.
      rewrite elements_each by exact FI. cbn [also]. replace items with (map (fun n => [KStr n]) (map fst (sort_by snd L))) by (unfold items; now rewrite map_map).
      rewrite mapM_strings. cbn [also]. unfold names_stmt. destruct (map fst (sort_by snd L)); [congruence|reflexivity].
    + intros r. reflexivity.
Qed.
Lemma types_toks : forall test types tal dal, (types = [] <-> tal = []) ->
  Forall2 (fun a b => fst a = fst b /\ desc_reads (snd a) (snd b)) tal dal ->
  exists ks, open_end (types_initialization test types tal) ks /\ stmt_toks ks (types_stmt (emit_types test types dal)).
Proof.
  intros test types tal dal EM F. unfold types_initialization, emit_types.
  set (kx := fun p : tkey * name => match gethash (key_test test) (fst p) types with Some i => i | None => 0 end).
  set (ky := fun p : tkey * tdesc => match gethash (key_test test) (fst p) types with Some i => i | None => 0 end).
  assert (FS : Forall2 (fun a b => fst a = fst b /\ desc_reads (snd a) (snd b)) (sort_by kx tal) (sort_by ky dal)).
  { apply sort_forall2; auto. intros a b [E _]. unfold kx, ky. now rewrite E. }
  destruct types as [|ty types].
  - assert (tal = []) by now apply EM. subst tal. inversion F. subst dal.
    exists [KId (text "const"); KId (text "__trace_type_description"); KPunct x2a; KId (text "types"); KPunct x3d; KId (text "NULL")]. split.
    + change (text "const __trace_type_description *types = NULL") with (text "const __trace_type_description *types = " ++ text "NULL").
      change [KId (text "const"); KId (text "__trace_type_description"); KPunct x2a; KId (text "types"); KPunct x3d; KId (text "NULL")]
        with ([KId (text "const"); KId (text "__trace_type_description"); KPunct x2a; KId (text "types"); KPunct x3d] ++ [KId (text "NULL")]).
      apply closed_then; [vm_compute; reflexivity|]. apply open_id. vm_compute. auto.
    + split; [repeat (apply fl_cons; [split; reflexivity|reflexivity|]); apply fl_nil|]. split; reflexivity.
  - assert (NE : sort_by kx tal <> []).
    { intros E. assert (X := Permutation_length (sort_perm kx tal)). rewrite E in X. destruct tal; [|discriminate X]. destruct EM as [_ EM]. discriminate (EM eq_refl). }
    clear EM F. revert FS NE. generalize (sort_by kx tal), (sort_by ky dal). intros u v FS NE.
    assert (X : exists items, Forall2 (fun p ks => closed (snd p) ks) u items /\ Forall (flat x2c) items /\ mapM type_elem items = Some (map snd v)).
    { clear NE. induction FS as [|a b u v [_ (ks & C & FL & TE & OR)] FS (items & FC & FF & ME)]; [exists []; repeat constructor|].
      exists (ks :: items). split; [constructor; auto|]. split; [constructor; auto|]. cbn [mapM map]. now rewrite TE, ME. }
    destruct X as (items & FC & FF & ME).
    exists ([KId (text "const"); KId (text "__trace_type_description"); KId (text "types"); KPunct x5b; KPunct x5d; KPunct x3d] ++ KPunct x7b :: each items ++ [KPunct x7d]).
    split; [|split; [|split]].
    + apply closed_open. change (text "const __trace_type_description types[] = {") with (text "const __trace_type_description types[] = " ++ text "{"). rewrite <- app_assoc.
      apply closed_app; [vm_compute; reflexivity|]. change (KPunct x7b :: ?l) with ([KPunct x7b] ++ l). apply closed_app; [vm_compute; reflexivity|]. apply closed_app; [|vm_compute; reflexivity].
      apply (each_closed _ (fun q : tkey * name => snd q)). auto.
    + apply array_flat; [exact FF|]. repeat (apply fl_cons; [split; reflexivity|reflexivity|]).
      apply (fl_wrap x3b (KPunct x5b) [] (KPunct x5d) [KPunct x3d]); try reflexivity; [apply bal_nil|]. apply fl_cons; [split; reflexivity|reflexivity|apply fl_nil].
    + apply short_decl; [reflexivity|]. rewrite types_decl.
      rewrite elements_each by exact FF. cbn [also]. rewrite ME. cbn [also]. unfold types_stmt. destruct v as [|b v]; [inversion FS; congruence|reflexivity].
    + intros r. reflexivity.
Qed.

(** ** The text as a whole *)
Definition lk1 : list ctok := Eval vm_compute in tk1.
Definition lk2 : list ctok := Eval vm_compute in tk2.
Definition lk3 : list ctok := Eval vm_compute in tk3.
Definition lk5 : list ctok := Eval vm_compute in tk5.
Definition lk6 : list ctok := Eval vm_compute in tk6.
Definition lk7 : list ctok := Eval vm_compute in tk7.

(** What the setup code is read as. *)
Definition handshake_block : list ustmt :=
  [UWhile (UNe (UCall (text "access") [UVar (text "handshake_file_path"); UNum 0]) (UNum 0)) [UExpr (UCall (text "sleep") [UNum 1])];
   USet (text "handshake_file") (UCall (text "fopen") [UVar (text "handshake_file_path"); UStr (text "r")]);
   UDo [UExpr (UCall (text "sleep") [UNum 1])]
     (UEq (UCall (text "fgets") [UVar (text "buffer"); UNum 1024; UVar (text "handshake_file")]) (UVar (text "NULL")));
   UStore (text "buffer") (UCall (text "strcspn") [UVar (text "buffer"); UStr [x0a]]) (UNum 0);
   UExpr (UCall (text "fclose") [UVar (text "handshake_file")]);
   UExpr (UCall (text "unlink") [UVar (text "handshake_file_path")])].
Definition setup_body (h : name) (g : logfile) (names : list name) (types : list tdesc) (i j : N) : list ustmt :=
  [UMutex (text "__static_lock"); UPointer (text "handshake_file") (UVar (text "NULL"));
   UPointer (text "handshake_file_path") (UCall (text "getenv") [UStr h]);
   UBuffer (text "buffer") 1024 (text "/dev/null");
   UIf (UVar (text "handshake_file_path")) handshake_block;
   USet log_var (log_expr g); USet lock_var (UAddr (text "__static_lock"));
   names_stmt names; types_stmt types;
   UExpr (UCall (text "pthread_mutex_init") [UCast (UVar lock_var); UVar (text "NULL")]);
   UExpr (UCall (text "__write_trace_header") [UVar log_var; UVar lock_var; UVar (text "names"); UNum i; UVar (text "types"); UNum j])].
Definition setup_unit (h : name) (g : logfile) (names : list name) (types : list tdesc) (i j : N) : unit_ :=
  mkUnit (text "__GT_TRACEDB_ENTRY_POINT") [log_var; lock_var] 101 (text "__bi_setup") (setup_body h g names types i j).

Lemma until_semi : forall l r, flat x3b l -> until x3b 0 [] (l ++ KPunct x3b :: r) = Some (l, r).
Proof. intros. now apply until_end. Qed.
Lemma header_parsed : forall zi zj i j, num_value zi = Some (i, false) -> num_value zj = Some (j, false) -> exists c,
  until x3b 0 [] (skipn 11 (tl lk5) ++ KNum zi :: lk6 ++ KNum zj :: lk7) = Some (c, tl (tl lk7)) /\
  parse_short c = Some (UExpr (UCall (text "__write_trace_header") [UVar log_var; UVar lock_var; UVar (text "names"); UNum i; UVar (text "types"); UNum j])).
Proof.
  intros zi zj i j A B. eexists. split; [lazy; reflexivity|]. lazy -[num_value]. rewrite A, B. reflexivity.
Qed.
Lemma tail_parsed : forall n zi zj i j, num_value zi = Some (i, false) -> num_value zj = Some (j, false) ->
  parse_block (S (S (S n))) (tl lk5 ++ KNum zi :: lk6 ++ KNum zj :: lk7) =
  Some ([UExpr (UCall (text "pthread_mutex_init") [UCast (UVar lock_var); UVar (text "NULL")]);
         UExpr (UCall (text "__write_trace_header") [UVar log_var; UVar lock_var; UVar (text "names"); UNum i; UVar (text "types"); UNum j])],
        [KPunct x23; KId (text "endif")]).
Proof.
  intros n zi zj i j A B. destruct (header_parsed zi zj i j A B) as (c & U & P).
  eapply block_simple with (q := skipn 11 (tl lk5) ++ KNum zi :: lk6 ++ KNum zj :: lk7); [reflexivity|lazy; reflexivity|lazy; reflexivity|].
  eapply block_simple; [reflexivity|exact U|exact P|]. apply block_end.
Qed.
Lemma stmt_parsed : forall n ks s r l q, stmt_toks ks s -> parse_block n r = Some (l, q) -> parse_block (S n) (ks ++ KPunct x3b :: r) = Some (s :: l, q).
Proof.
  intros n ks s r l q (F & P & O) B. eapply block_simple; [apply O|apply until_semi; exact F|exact P|exact B].
Qed.
Lemma log_stmt : forall g, flat x3b (log_toks g) -> stmt_toks (KId log_var :: KPunct x3d :: log_toks g) (USet log_var (log_expr g)).
Proof.
  intros g F. split; [apply fl_cons; [split; reflexivity|reflexivity|]; apply fl_cons; [split; reflexivity|reflexivity|exact F]|]. split; [apply log_parsed|reflexivity].
Qed.
Lemma lock_stmt : stmt_toks [KId lock_var; KPunct x3d; KPunct x26; KId (text "__static_lock")] (USet lock_var (UAddr (text "__static_lock"))).
Proof. split; [repeat (apply fl_cons; [split; reflexivity|reflexivity|]); apply fl_nil|]. split; [vm_compute; reflexivity|reflexivity]. Qed.

(** The statements up to the assignment of the log. *)
Definition lk2b : list ctok := Eval vm_compute in firstn (length lk2 - 2) lk2.
Definition body_at : nat := Eval vm_compute in
  (match find (fun n => match word "static" (skipn n lk1) with Some _ => true | None => false end) (seq 0 400) with Some n => n | None => 0%nat end).
Definition front (h : name) : list ctok := skipn body_at lk1 ++ KStr h :: lk2b.
Definition first_stmts (h : name) : list ustmt :=
  [UMutex (text "__static_lock"); UPointer (text "handshake_file") (UVar (text "NULL"));
   UPointer (text "handshake_file_path") (UCall (text "getenv") [UStr h]);
   UBuffer (text "buffer") 1024 (text "/dev/null");
   UIf (UVar (text "handshake_file_path")) handshake_block].
Lemma first_parsed : forall h X l q, parse_block 45 X = Some (l, q) -> parse_block 50 (front h ++ X) = Some (first_stmts h ++ l, q).
Proof.
  intros h X l q B. unfold first_stmts. cbn [app].
  eapply block_simple; [reflexivity|lazy; reflexivity|lazy; reflexivity|].
  eapply block_simple; [reflexivity|lazy; reflexivity|lazy; reflexivity|].
  eapply block_simple; [reflexivity|lazy; reflexivity|lazy; reflexivity|].
  eapply block_simple; [reflexivity|lazy; reflexivity|lazy; reflexivity|].
  eapply block_if; [reflexivity|reflexivity|lazy; reflexivity|lazy; reflexivity|reflexivity|lazy; reflexivity|exact B].
Qed.

Lemma body_parsed : forall h g ni ti names types zi zj i j, flat x3b (log_toks g) -> stmt_toks ni (names_stmt names) -> stmt_toks ti (types_stmt types) ->
  num_value zi = Some (i, false) -> num_value zj = Some (j, false) ->
  parse_block 50 (front h ++ (KId log_var :: KPunct x3d :: log_toks g) ++ KPunct x3b ::
    [KId lock_var; KPunct x3d; KPunct x26; KId (text "__static_lock")] ++ KPunct x3b :: ni ++ KPunct x3b :: ti ++ KPunct x3b :: tl lk5 ++ KNum zi :: lk6 ++ KNum zj :: lk7) =
  Some (setup_body h g names types i j, [KPunct x23; KId (text "endif")]).
Proof.
  intros h g ni ti names types zi zj i j F N1 T1 A B.
  change (setup_body h g names types i j) with (first_stmts h ++ [USet log_var (log_expr g); USet lock_var (UAddr (text "__static_lock")); names_stmt names; types_stmt types;
   UExpr (UCall (text "pthread_mutex_init") [UCast (UVar lock_var); UVar (text "NULL")]);
   UExpr (UCall (text "__write_trace_header") [UVar log_var; UVar lock_var; UVar (text "names"); UNum i; UVar (text "types"); UNum j])]).
  apply first_parsed. apply stmt_parsed; [apply log_stmt; exact F|]. apply stmt_parsed; [apply lock_stmt|]. apply stmt_parsed; [exact N1|]. apply stmt_parsed; [exact T1|].
  apply tail_parsed; assumption.
Qed.

Lemma unit_parsed : forall h B b, parse_block 50 (front h ++ B) = Some (b, [KPunct x23; KId (text "endif")]) ->
  parse_unit (lk1 ++ KStr h :: lk2b ++ B) = Some (mkUnit (text "__GT_TRACEDB_ENTRY_POINT") [log_var; lock_var] 101 (text "__bi_setup") b).
Proof.
  intros h B b P.
  assert (E : parse_unit (lk1 ++ KStr h :: lk2b ++ B) =
    also (parse_block 50 (front h ++ B)) (fun bq => let '(b, q) := bq in also (eat x23 q) (fun q => also (word "endif" q) (fun q =>
      match q with [] => Some (mkUnit (text "__GT_TRACEDB_ENTRY_POINT") [log_var; lock_var] 101 (text "__bi_setup") b) | _ => None end)))).
  { clear P. remember (parse_block 50 (front h ++ B)) as r eqn:R. lazy -[parse_block] in R. lazy -[parse_block]. rewrite <- R. reflexivity. }
  rewrite E, P. reflexivity.
Qed.

Lemma setup_parsed : forall h g ni ti names types i j, flat x3b (log_toks g) -> stmt_toks ni (names_stmt names) -> stmt_toks ti (types_stmt types) ->
  parse_unit (toks h (log_toks g) ni ti i j) = Some (setup_unit h g names types i j).
Proof.
  intros h g ni ti names types i j F N1 T1.
  assert (E : toks h (log_toks g) ni ti i j = lk1 ++ KStr h :: lk2b ++ ((KId log_var :: KPunct x3d :: log_toks g) ++ KPunct x3b ::
    [KId lock_var; KPunct x3d; KPunct x26; KId (text "__static_lock")] ++ KPunct x3b :: ni ++ KPunct x3b :: ti ++ KPunct x3b :: tl lk5 ++ KNum (dec i) :: lk6 ++ KNum (dec j) :: lk7)).
  { unfold toks. assert (E1 : tk1 = lk1) by (vm_compute; reflexivity). assert (E2 : tk2 = lk2b ++ [KId log_var; KPunct x3d]) by (vm_compute; reflexivity).
    assert (E3 : tk3 = KPunct x3b :: [KId lock_var; KPunct x3d; KPunct x26; KId (text "__static_lock")] ++ [KPunct x3b]) by (vm_compute; reflexivity).
    assert (E4 : tk4 = [KPunct x3b]) by (vm_compute; reflexivity). assert (E5 : tk5 = KPunct x3b :: tl lk5) by (vm_compute; reflexivity).
    assert (E6 : tk6 = lk6) by (vm_compute; reflexivity). assert (E7 : tk7 = lk7) by (vm_compute; reflexivity).
    rewrite E1, E2, E3, E4, E5, E6, E7. generalize lk1 as k1, lk2b as k2, (tl lk5) as k5, lk6 as k6, lk7 as k7. intros. rewrite <- !app_assoc. cbn [app]. rewrite <- ?app_assoc. cbn [app]. reflexivity. }
  rewrite E. apply unit_parsed. apply body_parsed; auto; apply num_dec.
Qed.

(** ** All programs *)
Lemma setup_shape : forall test kf sites h f env g st_text texts,
  Forall (site_ok kf) sites -> Forall identifiers sites -> tells_apart test (all_texts sites) -> plain_text h -> log_goes f env g ->
  emits test sites h f env st_text texts ->
  exists names types code, reads_program st_text texts (mkSetup names types (lenN names, lenN types) g h) code /\
    Forall2 (site_stmts names types) sites code /\ instrumented test sites names types (map (map meaning) code) /\
    read_unit st_text = Some (setup_unit h g names types (lenN names) (lenN types)).
Proof.
  intros test kf sites h f env g st_text texts SOK ID TA P L (ts & nal & tal & ET & PN & PT & ->).
  destruct (instrument_all test sites istate0) as [code st] eqn:EI.
  assert (VP : Forall (fun s : site => Forall (fun g => Forall (var_pre (txt sites) kf (fst g)) (snd g)) (snd s)) sites).
  { apply Forall_forall. intros s Is. exact (site_pre kf sites SOK s Is). }
  assert (ID' : Forall (fun s : site => Forall (fun g : group => Forall (fun x => identifier (fst x)) (snd g)) (snd s)) sites).
  { eapply Forall_impl; [|exact ID]. exact ident_sites. }
  destruct (all_sim test (txt sites) TA kf sites _ _ _ _ _ _ VP ID' sim0 (sinv0 _ kf) ET EI) as ([EN EY ED] & I & _ & ps & RS & MC & SS).
  destruct (perm_forall2 _ _ _ _ _ PT _ ED) as (dal & PD & FD).
  rewrite EN in PN.
  assert (E1 : emit_names nal = names_of st) by (eapply emit_names_eq; eauto).
  assert (E2 : emit_types test (i_types st) dal = types_of st) by (eapply (emit_types_eq test (txt sites)); eauto).
  exists (emit_names nal), (emit_types test (i_types st) dal), ps. rewrite E1, E2.
  assert (L1 : lenN (names_of st) = lenN nal) by (unfold names_of; rewrite lenN_map; unfold lenN; now rewrite (Permutation_length PN)).
  assert (LT : lenN tal = lenN (t_types ts)).
  { rewrite EY. apply F2_len in FD. rewrite FD. unfold lenN. rewrite (Permutation_length PD). rewrite <- (map_length fst (i_descs st)), (si_keys _ _ _ I), map_length. reflexivity. }
  assert (L2 : lenN (types_of st) = lenN tal).
  { unfold types_of. rewrite lenN_map. apply F2_len in FD. rewrite FD. unfold lenN. now rewrite (Permutation_length PD). }
  assert (OL : Forall one_line (map fst nal)).
  { apply Forall_forall. intros n In_. apply in_map_iff in In_. destruct In_ as (q & <- & Iq).
    assert (T : txt sites (fst q)).
    { pose proof (si_ndom _ _ _ I) as D. rewrite Forall_forall in D. apply D. apply in_map. eapply Permutation_in; eauto. }
    unfold txt, all_texts in T. apply in_concat in T. destruct T as (l & Il & T). apply in_map_iff in Il. destruct Il as (s & <- & Is).
    rewrite Forall_forall in ID, SOK. apply in_app_or in T. destruct T as [T|T].
    - apply ident_line. specialize (ID s Is). unfold identifiers in ID. rewrite Forall_forall in ID. auto.
    - apply in_map_iff in T. destruct T as (t & <- & It). destruct (SOK s Is) as (_ & _ & OT & _). rewrite Forall_forall in OT.
      intros X. destruct (text_chars _ _ _ (OT t It) X). congruence. }
  assert (LN : lenN nal = lenN (t_names ts)) by (rewrite EN; unfold lenN; now rewrite (Permutation_length PN)).
  assert (EM : t_types ts = [] <-> tal = []).
  { split; intros Z.
    - rewrite Z in LT. destruct tal; auto. rewrite lenN_cons in LT. cbn in LT. lia.
    - subst tal. destruct (t_types ts); auto. rewrite lenN_cons in LT. cbn in LT. lia. }
  split; [|split; [|split]].
  - split; auto. rewrite L1, L2, <- E1, <- E2, <- EY. apply setup_lemma; auto.
  - apply SS. apply ext_refl.
  - rewrite MC. exists st, nal, dal. repeat split; auto.
  - rewrite L1, L2, <- E1, <- E2, <- EY. clear E1 E2.
    destruct (log_toks_ok _ _ _ L) as (O1 & FL). destruct (names_toks _ OL) as (ni & O2 & S2). destruct (types_toks test _ _ _ EM FD) as (ti & O3 & S3).
    unfold read_unit, setup_text. rewrite <- LN, <- LT. rewrite (toks_lex h _ _ _ _ _ _ (lenN nal) (lenN tal) P O1 O2 O3). cbn [also].
    apply setup_parsed; auto.
Qed.
