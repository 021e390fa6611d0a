From Coq Require Import Strings.String Permutation.
From Verif Require Import BaseProofs Types Compare PrintPred Dec DecProofs Instr InstrSpec InstrText InstrTable InstrProofs InstrReq InstrEnd CRead Emit EmitSpec EmitProofs.

Notation length := List.length.

(** ** Tokens of the fixed parts *)
Definition tk1 : list ctok := fst (lrun L0 setup_1).
Definition tk2 : list ctok := tl (fst (lrun (LStr []) setup_2)).
Definition tk3 : list ctok := fst (lrun L0 setup_3).
Definition tk4 : list ctok := fst (lrun L0 setup_4).
Definition tk5 : list ctok := fst (lrun L0 setup_5).
Definition tk6 : list ctok := fst (lrun L0 setup_6).
Definition tk7 : list ctok := fst (lrun L0 setup_7).

Lemma tk_closed : closed setup_3 tk3 /\ closed setup_4 tk4 /\ closed setup_5 tk5 /\ closed setup_6 tk6 /\ closed setup_7 tk7.
Proof. repeat split; vm_compute; reflexivity. Qed.
Lemma tk_delim : delimited setup_3 /\ delimited setup_4 /\ delimited setup_5 /\ delimited setup_6 /\ delimited setup_7.
Proof. repeat split; eexists _, _; split; reflexivity. Qed.

Lemma lrun_plain : forall h acc, plain_text h -> lrun (LStr acc) h = ([], LStr (rev h ++ acc)).
Proof.
  induction h as [|b h IH]; intros acc (A & B & C); [reflexivity|]. cbn [lrun].
  assert (E : lex_step (LStr acc) b = ([], LStr (b :: acc))).
  { destruct b; try reflexivity; exfalso; [apply A|apply B|apply C]; now left. }
  rewrite E, IH.
  - cbn [rev]. now rewrite <- app_assoc.
  - repeat split; intros X; [apply A|apply B|apply C]; now right.
Qed.
Lemma closed_start : forall h, plain_text h -> closed (setup_1 ++ h ++ setup_2) (tk1 ++ [KStr h] ++ tk2).
Proof.
  intros h P. unfold closed. rewrite lrun_app.
  assert (E1 : lrun L0 setup_1 = (tk1, LStr [])) by (vm_compute; reflexivity). rewrite E1. cbn [fst snd]. rewrite lrun_app, lrun_plain by auto. cbn [fst snd app].
  assert (E2 : forall s, lrun (LStr s) setup_2 = (KStr (rev s) :: tk2, L0)) by (intros s; reflexivity).
  rewrite E2. cbn [fst snd]. now rewrite app_nil_r, rev_involutive.
Qed.

(** ** Skipping *)
Definition free (x : name) (l : list ctok) : Prop := Forall (fun k => k <> KId x) l.
Lemma free_check : forall x l, forallb (fun k => match k with KId y => negb (bytes_eqb x y) | _ => true end) l = true -> free x l.
Proof.
  intros x l H. apply Forall_forall. intros k I E. subst k. rewrite forallb_forall in H. specialize (H _ I). cbn in H.
  assert (bytes_eqb x x = true) by now apply beq. rewrite H0 in H. discriminate.
Qed.
Lemma array_skip : forall x l r, free x l -> array_of x (l ++ r) = array_of x r.
Proof.
  induction l as [|k l IH]; intros r F; auto. inversion F as [|? ? N F']; subst. cbn [app array_of]. rewrite IH by auto. destruct k; auto.
  destruct (bytes_eqb x x0) eqn:E; auto. apply beq in E. congruence.
Qed.
Lemma call_skip : forall f l r, free f l -> call_args f (l ++ r) = call_args f r.
Proof.
  induction l as [|k l IH]; intros r F; auto. inversion F as [|? ? N F']; subst. cbn [app call_args]. rewrite IH by auto. destruct k; auto.
  assert (E : bytes_eqb f x = false) by (apply beq_false; congruence). rewrite E. destruct (l ++ r) as [|[] ?]; auto. destruct b; auto.
Qed.
Fixpoint passes (x : name) (l : list ctok) : bool :=
  match l with
  | [] => true
  | k :: r => match k, r with
              | KId y, [] => negb (bytes_eqb x y)
              | KId y, KPunct x3d :: _ => negb (bytes_eqb x y) && passes x r
              | _, _ => passes x r
              end
  end.
Lemma assigned_skip : forall x l r, passes x l = true -> assigned x (l ++ r) = assigned x r.
Proof.
  induction l as [|k l IH]; intros r P; auto. destruct k as [y|y|y|y]; cbn [app assigned passes] in *; try (apply IH; destruct l; exact P).
  destruct l as [|k l].
  - cbn [app]. apply negb_true_iff in P. rewrite P. destruct r as [|[] ?]; auto. destruct b; auto.
  - cbn [app]. destruct k as [| | |b]; try (apply IH; exact P). destruct b; try (apply IH; exact P).
    apply andb_true_iff in P. destruct P as [P1 P2]. apply negb_true_iff in P1. rewrite P1. apply IH. exact P2.
Qed.
Lemma ordinary_free : forall l x, Forall ordinary l -> In x special -> free x l.
Proof. intros l x F I. eapply Forall_impl; [|exact F]. intros k O ->. apply O. exact I. Qed.

(** ** The log file *)
Definition fo_ok (fo : list ctok) : Prop := flat x3b fo /\ free (text "names") fo /\ free (text "types") fo /\ free (text "__write_trace_header") fo.

Lemma bal_one : forall k, plain k -> bal [k].
Proof. intros. apply bal_cons; auto. apply bal_nil. Qed.

Definition fopen_toks (a : list ctok) : list ctok := KId (text "fopen") :: KPunct x28 :: (a ++ [KPunct x2c; KStr (text "w")]) ++ [KPunct x29].
Lemma fopen_closed : forall t a, closed t a -> closed (text "fopen(" ++ t ++ text ", ""w"")") (fopen_toks a).
Proof.
  intros t a C. unfold fopen_toks. change (KId ?f :: KPunct ?o :: ?r) with ([KId f; KPunct o] ++ r). rewrite <- app_assoc.
  apply closed_app; [vm_compute; reflexivity|]. apply closed_app; auto. vm_compute. reflexivity.
Qed.
Lemma fopen_open : forall t a, open_end t a -> closed (text "fopen(" ++ t ++ text ", ""w"")") (fopen_toks a).
Proof.
  intros t a C. unfold fopen_toks. change (KId ?f :: KPunct ?o :: ?r) with ([KId f; KPunct o] ++ r). rewrite <- app_assoc.
  apply closed_app; [vm_compute; reflexivity|]. apply open_closed; auto; [vm_compute; reflexivity|]. eexists _, _. split; reflexivity.
Qed.
Lemma fopen_flat : forall a, bal a -> flat x3b (fopen_toks a).
Proof.
  intros a B. apply fl_cons; auto with emit. apply (fl_wrap x3b (KPunct x28) (a ++ [KPunct x2c; KStr (text "w")]) (KPunct x29) []); auto with emit.
  apply bal_app; auto. apply bal_cons; [split; reflexivity|]. apply bal_one. auto with emit.
Qed.
Lemma getenv_bal : forall k, plain k -> bal [KId (text "getenv"); KPunct x28; k; KPunct x29].
Proof.
  intros k P. apply bal_cons; auto with emit. apply (bal_wrap (KPunct x28) [k] (KPunct x29) []); auto with emit. apply bal_one. auto.
Qed.

Definition log_of (e : list ctok) : option logfile := read_log (KId log_var :: KPunct x3d :: e ++ [KPunct x3b]).

Lemma file_open_ok : forall f env g, log_goes f env g -> exists fo, open_end (file_open f env) fo /\ fo_ok fo /\ log_of fo = Some g.
Proof.
  intros f env g L. destruct L as [env|env|p env O|v O|]; cbn [file_open].
  - exists [KId (text "stderr")]. split; [apply open_id; vm_compute; auto|]. split; [|vm_compute; reflexivity].
    split; [apply flat_one; auto with emit|]. repeat split; apply free_check; reflexivity.
  - exists [KId (text "stdout")]. split; [apply open_id; vm_compute; auto|]. split; [|vm_compute; reflexivity].
    split; [apply flat_one; auto with emit|]. repeat split; apply free_check; reflexivity.
  - exists (fopen_toks [KStr p]). split; [apply closed_open, fopen_closed, closed_literal; auto|]. split; [|reflexivity].
    split; [apply fopen_flat, bal_one; auto with emit|]. repeat split; apply free_check; reflexivity.
  - exists (fopen_toks [KId (text "getenv"); KPunct x28; KStr v; KPunct x29]). split; [|split; [|reflexivity]].
    + apply closed_open.
      replace (text "fopen(getenv(" ++ lisp_print v ++ text "), ""w"")")
        with (text "fopen(" ++ (text "getenv(" ++ lisp_print v ++ text ")") ++ text ", ""w"")") by (rewrite <- !app_assoc; reflexivity).
      apply fopen_closed. change [KId (text "getenv"); KPunct x28; KStr v; KPunct x29] with ([KId (text "getenv"); KPunct x28] ++ [KStr v] ++ [KPunct x29]).
      apply closed_app; [vm_compute; reflexivity|]. apply closed_app; [apply closed_literal; auto|vm_compute; reflexivity].
    + split; [apply fopen_flat, getenv_bal; auto with emit|]. repeat split; apply free_check; reflexivity.
  - exists (fopen_toks [KId (text "buffer")]). split; [apply closed_open|]. 
    + change (text "fopen(buffer, ""w"")") with (text "fopen(" ++ text "buffer" ++ text ", ""w"")"). apply fopen_open. apply open_id. vm_compute. auto.
    + split; [|reflexivity]. split; [apply fopen_flat, bal_one; auto with emit|]. repeat split; apply free_check; reflexivity.
Qed.

(** ** Arrays *)
Definition each (items : list (list ctok)) : list ctok := concat (map (fun x => x ++ [KPunct x2c]) items).
Lemma each_bal : forall items, Forall (flat x2c) items -> bal (each items).
Proof.
  intros items F. induction F as [|x items H F IH]; [apply bal_nil|]. unfold each in *. cbn [map concat]. apply bal_app; auto.
  apply bal_app; [eapply flat_bal; eauto|]. apply bal_one. split; reflexivity.
Qed.
Lemma array_found : forall x items r, Forall (flat x2c) items ->
  array_of x (KId x :: KPunct x5b :: KPunct x5d :: KPunct x3d :: KPunct x7b :: each items ++ KPunct x7d :: r) = Some items.
Proof.
  intros x items r F. cbn [array_of]. assert (E : bytes_eqb x x = true) by now apply beq. rewrite E.
  rewrite inside_end by (auto using each_bal). unfold each. rewrite split_each by auto. rewrite rev_app_distr. cbn [rev app]. now rewrite rev_involutive.
Qed.

(** An initialisation, which a semicolon follows. *)
Definition init_reads (x other : name) (t : name) (items : list (list ctok)) : Prop :=
  exists ks, open_end t ks /\ (forall r, array_of x (ks ++ KPunct x3b :: r) = Some items) /\
    free other ks /\ free (text "__write_trace_header") ks.

Lemma each_closed : forall (A : Type) (f : A -> name) (l : list A) items, Forall2 (fun a ks => closed (f a) ks) l items ->
  closed (concat (map (fun a => f a ++ text ", ") l)) (each items).
Proof.
  intros A f l items F. induction F as [|a ks l items C F IH]; [apply closed_nil|]. unfold each in *. cbn [map concat]. apply closed_app; auto.
  apply closed_app; auto. vm_compute. reflexivity.
Qed.
Lemma each_free : forall x items, Forall (free x) items -> free x (each items).
Proof.
  intros x items F. induction F as [|i items H F IH]; [constructor|]. unfold each in *. cbn [map concat]. apply Forall_app. split; auto. apply Forall_app. split; auto.
  repeat constructor. discriminate.
Qed.

Lemma names_init : forall alist, Forall one_line (map fst alist) ->
  init_reads (text "names") (text "types") (names_initialization alist) (map (fun n => [KStr n]) (emit_names alist)).
Proof.
  intros alist OL. unfold names_initialization, emit_names. destruct alist as [|p alist].
  - exists [KId (text "const"); KId (text "char"); KPunct x2a; KPunct x2a; KId (text "names"); KPunct x3d; KId (text "NULL")]. split.
    + change (text "const char **names = NULL") with (text "const char **names = " ++ text "NULL").
      change [KId (text "const"); KId (text "char"); KPunct x2a; KPunct x2a; KId (text "names"); KPunct x3d; KId (text "NULL")]
        with ([KId (text "const"); KId (text "char"); KPunct x2a; KPunct x2a; KId (text "names"); KPunct x3d] ++ [KId (text "NULL")]).
      apply closed_then; [vm_compute; reflexivity|]. apply open_id. vm_compute. auto.
    + split; [intros r; reflexivity|]. split; apply free_check; reflexivity.
  - set (L := p :: alist) in *. set (items := map (fun q : name * N => [KStr (fst q)]) (sort_by snd L)).
    assert (EI : map (fun n => [KStr n]) (map fst (sort_by snd L)) = items) by (unfold items; now rewrite map_map). rewrite EI.
    assert (FI : Forall (flat x2c) items) by (unfold items; apply Forall_map, Forall_forall; intros; apply flat_one; auto with emit).
    exists ([KId (text "const"); KId (text "char"); KPunct x2a; KId (text "names"); KPunct x5b; KPunct x5d; KPunct x3d; KPunct x7b] ++ each items ++ [KPunct x7d]).
    split; [|split; [|split]].
    + apply closed_open. apply closed_app; [vm_compute; reflexivity|]. apply closed_app; [|vm_compute; reflexivity].
      apply (each_closed _ (fun q : name * N => lisp_print (fst q))). unfold items.
      assert (O : forall q, In q (sort_by snd L) -> one_line (fst q)).
      { intros q I. rewrite Forall_forall in OL. apply OL. apply in_map. eapply Permutation_in; [apply Permutation_sym, (sort_perm snd)|exact I]. }
      clear -O. induction (sort_by snd L) as [|q l IH]; cbn [map]; constructor; [apply closed_literal, O; now left|]. apply IH. intros; apply O; now right.
    + intros r. rewrite <- app_assoc. cbn [app]. change (KId (text "const") :: KId (text "char") :: KPunct x2a :: ?q) with ([KId (text "const"); KId (text "char"); KPunct x2a] ++ q).
      rewrite array_skip by (apply free_check; reflexivity). rewrite <- app_assoc. cbn [app]. apply array_found; auto.
    + apply Forall_app. split; [apply free_check; reflexivity|]. apply Forall_app. split; [|apply free_check; reflexivity]. apply each_free. unfold items.
      apply Forall_map, Forall_forall. intros q _. apply free_check. reflexivity.
    + apply Forall_app. split; [apply free_check; reflexivity|]. apply Forall_app. split; [|apply free_check; reflexivity]. apply each_free. unfold items.
      apply Forall_map, Forall_forall. intros q _. apply free_check. reflexivity.
Qed.

(** Reordering two related lists. *)
Lemma perm_forall2 : forall A B (R : A -> B -> Prop) l l', Permutation l l' -> forall m', Forall2 R l' m' -> exists m, Permutation m m' /\ Forall2 R l m.
Proof.
  intros A B R l l' P. induction P as [|x l l' P IH|x y l|l l' l'' P1 IH1 P2 IH2]; intros m' F.
  - inversion F. subst. exists []. split; constructor.
  - inversion F as [|? b ? mm H1 H2]; subst. destruct (IH _ H2) as (m & P' & F'). exists (b :: m). split; constructor; auto.
  - inversion F as [|? b ? mm H1 H2]; subst. inversion H2 as [|? c ? mm2 H3 H4]; subst. exists (c :: b :: mm2). split; [apply perm_swap|repeat constructor; auto].
  - destruct (IH2 _ F) as (m2 & P2' & F2'). destruct (IH1 _ F2') as (m1 & P1' & F1'). exists m1. split; auto. eapply perm_trans; eauto.
Qed.
Lemma sort_forall2 : forall A B (R : A -> B -> Prop) (f : A -> N) (g : B -> N), (forall a b, R a b -> f a = g b) ->
  forall l m, Forall2 R l m -> Forall2 R (sort_by f l) (sort_by g m).
Proof.
  intros A B R f g H l m F. unfold sort_by. induction F as [|a b l m X F IH]; [constructor|]. cbn [fold_right].
  revert IH. generalize (fold_right (insert_by f) [] l), (fold_right (insert_by g) [] m). intros u v IH. clear F.
  induction IH as [|c d u v Y IH IH2]; cbn [insert_by]; [repeat constructor; auto|]. rewrite (H _ _ X), (H _ _ Y). destruct (g b <=? g d); repeat constructor; auto.
Qed.

Lemma types_init : forall test types tal dal, (types = [] <-> tal = []) ->
  Forall2 (fun a b => fst a = fst b /\ desc_reads (snd a) (snd b)) tal dal ->
  exists items, init_reads (text "types") (text "names") (types_initialization test types tal) items /\
    mapM type_elem items = Some (emit_types test types dal).
Proof.
  intros test types tal dal EM F. unfold types_initialization, emit_types.
  set (kx := fun p : tkey * name => match gethash (key_test test) (fst p) types with Some i => i | None => 0 end).
  set (ky := fun p : tkey * tdesc => match gethash (key_test test) (fst p) types with Some i => i | None => 0 end).
  assert (FS : Forall2 (fun a b => fst a = fst b /\ desc_reads (snd a) (snd b)) (sort_by kx tal) (sort_by ky dal)).
  { apply sort_forall2; auto. intros a b [E _]. unfold kx, ky. now rewrite E. }
  destruct types as [|ty types].
  - assert (tal = []) by now apply EM. subst tal. inversion F. subst dal. exists []. split; [|reflexivity].
    exists [KId (text "const"); KId (text "__trace_type_description"); KPunct x2a; KId (text "types"); KPunct x3d; KId (text "NULL")]. split.
    + change (text "const __trace_type_description *types = NULL") with (text "const __trace_type_description *types = " ++ text "NULL").
      change [KId (text "const"); KId (text "__trace_type_description"); KPunct x2a; KId (text "types"); KPunct x3d; KId (text "NULL")]
        with ([KId (text "const"); KId (text "__trace_type_description"); KPunct x2a; KId (text "types"); KPunct x3d] ++ [KId (text "NULL")]).
      apply closed_then; [vm_compute; reflexivity|]. apply open_id. vm_compute. auto.
    + split; [intros r; reflexivity|]. split; apply free_check; reflexivity.
  - clear EM F. revert FS. generalize (sort_by kx tal), (sort_by ky dal). intros u v FS.
    assert (X : exists items, Forall2 (fun p ks => closed (snd p) ks) u items /\ Forall (flat x2c) items /\ mapM type_elem items = Some (map snd v) /\
      Forall (Forall ordinary) items).
    { induction FS as [|a b u v [_ (ks & C & FL & TE & OR)] FS (items & FC & FF & ME & OO)]; [exists []; repeat constructor|].
      exists (ks :: items). split; [constructor; auto|]. split; [constructor; auto|]. split; [cbn [mapM map]; now rewrite TE, ME|]. constructor; auto. }
    destruct X as (items & FC & FF & ME & OO). exists items. split; auto.
    exists ([KId (text "const"); KId (text "__trace_type_description"); KId (text "types"); KPunct x5b; KPunct x5d; KPunct x3d; KPunct x7b] ++ each items ++ [KPunct x7d]).
    assert (FR : forall x, In x special -> free x (each items)).
    { intros x I. apply each_free. eapply Forall_impl; [|exact OO]. intros l OL. eapply ordinary_free; eauto. }
    split; [|split; [|split]].
    + apply closed_open. apply closed_app; [vm_compute; reflexivity|]. apply closed_app; [|vm_compute; reflexivity].
      apply (each_closed _ (fun q : tkey * name => snd q)). auto.
    + intros r. rewrite <- app_assoc. cbn [app]. change (KId (text "const") :: KId (text "__trace_type_description") :: ?q) with ([KId (text "const"); KId (text "__trace_type_description")] ++ q).
      rewrite array_skip by (apply free_check; reflexivity). rewrite <- app_assoc. cbn [app]. apply array_found; auto.
    + apply Forall_app. split; [apply free_check; reflexivity|]. apply Forall_app. split; [|apply free_check; reflexivity]. apply FR. cbn. auto.
    + apply Forall_app. split; [apply free_check; reflexivity|]. apply Forall_app. split; [|apply free_check; reflexivity]. apply FR. cbn. auto.
Qed.

(** ** All of it *)
Definition toks (h : name) (fo ni ti : list ctok) (i j : N) : list ctok :=
  (tk1 ++ [KStr h] ++ tk2) ++ fo ++ tk3 ++ ni ++ tk4 ++ ti ++ tk5 ++ [KNum (dec i)] ++ tk6 ++ [KNum (dec j)] ++ tk7.

Lemma toks_lex : forall h tf fo tn ni tt ti i j, plain_text h -> open_end tf fo -> open_end tn ni -> open_end tt ti ->
  lex (setup_1 ++ h ++ setup_2 ++ tf ++ setup_3 ++ tn ++ setup_4 ++ tt ++ setup_5 ++ dec i ++ setup_6 ++ dec j ++ setup_7) = Some (toks h fo ni ti i j).
Proof.
  intros h tf fo tn ni tt ti i j P O1 O2 O3. apply closed_lex. unfold toks.
  replace (setup_1 ++ h ++ setup_2 ++ tf ++ setup_3 ++ tn ++ setup_4 ++ tt ++ setup_5 ++ dec i ++ setup_6 ++ dec j ++ setup_7)
    with ((setup_1 ++ h ++ setup_2) ++ (tf ++ (setup_3 ++ (tn ++ (setup_4 ++ (tt ++ (setup_5 ++ (dec i ++ (setup_6 ++ (dec j ++ setup_7))))))))))
    by (rewrite <- !app_assoc; reflexivity).
  destruct tk_closed as (C3 & C4 & C5 & C6 & C7). destruct tk_delim as (D3 & D4 & D5 & D6 & D7).
  assert (DA : forall a b, delimited a -> delimited (a ++ b)) by (intros a b (d & r & -> & D); exists d, (r ++ b); auto).
  apply closed_app; [apply closed_start; auto|].
  apply open_closed; auto. apply closed_app; auto. apply open_closed; auto. apply closed_app; auto. apply open_closed; auto. apply closed_app; auto.
  apply open_closed; auto using open_dec. apply closed_app; auto. apply open_closed; auto using open_dec.
Qed.

Definition tk1a : list ctok := Eval vm_compute in firstn (length tk1 - 2) tk1.
Lemma tk1_eq : tk1 = tk1a ++ [KId (text "getenv"); KPunct x28].
Proof. vm_compute. reflexivity. Qed.
Definition tk2a : list ctok := Eval vm_compute in tl tk2.
Lemma tk2_eq : tk2 = KPunct x29 :: tk2a.
Proof. vm_compute. reflexivity. Qed.
Definition tk2b : list ctok := Eval vm_compute in firstn (length tk2 - 2) tk2.
Lemma tk2_log : tk2 = tk2b ++ [KId log_var; KPunct x3d].
Proof. vm_compute. reflexivity. Qed.
Definition tk3a : list ctok := Eval vm_compute in tl tk3.
Lemma tk3_eq : tk3 = KPunct x3b :: tk3a.
Proof. vm_compute. reflexivity. Qed.
Lemma tk4_eq : tk4 = [KPunct x3b].
Proof. vm_compute. reflexivity. Qed.
Definition tk5a : list ctok := Eval vm_compute in tl tk5.
Lemma tk5_eq : tk5 = KPunct x3b :: tk5a.
Proof. vm_compute. reflexivity. Qed.
Definition tk5b : list ctok := Eval vm_compute in firstn (length tk5 - 8) tk5.
Lemma tk5_call : tk5 = tk5b ++ [KId (text "__write_trace_header"); KPunct x28; KId log_var; KPunct x2c; KId lock_var; KPunct x2c; KId (text "names"); KPunct x2c].
Proof. vm_compute. reflexivity. Qed.
Lemma tk6_eq : tk6 = [KPunct x2c; KId (text "types"); KPunct x2c].
Proof. vm_compute. reflexivity. Qed.
Definition tk7a : list ctok := Eval vm_compute in tl tk7.
Lemma tk7_eq : tk7 = KPunct x29 :: tk7a.
Proof. vm_compute. reflexivity. Qed.

Lemma free_app : forall x l m, free x l -> free x m -> free x (l ++ m).
Proof. intros. apply Forall_app; auto. Qed.
Ltac freec := apply free_check; vm_compute; reflexivity.

Lemma toks_handshake : forall h fo ni ti i j, read_handshake (toks h fo ni ti i j) = Some h.
Proof.
  intros. unfold read_handshake, toks. rewrite tk1_eq, tk2_eq. rewrite <- !app_assoc. rewrite call_skip by freec. reflexivity.
Qed.
Lemma toks_log : forall h fo ni ti i j, flat x3b fo -> read_log (toks h fo ni ti i j) = log_of fo.
Proof.
  intros h fo ni ti i j F. unfold log_of, read_log.
  assert (E : forall r, assigned log_var (KId log_var :: KPunct x3d :: fo ++ KPunct x3b :: r) = Some fo).
  { intros r. cbn [assigned]. change (bytes_eqb log_var log_var) with true. cbv iota. rewrite split_flat by auto. cbn [split Nat.eqb andb]. change (is x3b (KPunct x3b)) with true.
    cbv iota. now rewrite app_nil_r, rev_involutive. }
  assert (T : assigned log_var (toks h fo ni ti i j) = Some fo).
  { unfold toks. rewrite tk2_log, tk3_eq. rewrite <- !app_assoc.
    rewrite assigned_skip by (vm_compute; reflexivity). rewrite assigned_skip by reflexivity. rewrite assigned_skip by (vm_compute; reflexivity).
    cbn [app]. apply E. }
  rewrite T, E. reflexivity.
Qed.
Lemma toks_array_names : forall h fo ni ti i j items, free (text "names") fo ->
  (forall r, array_of (text "names") (ni ++ KPunct x3b :: r) = Some items) -> array_of (text "names") (toks h fo ni ti i j) = Some items.
Proof.
  intros h fo ni ti i j items F A. unfold toks. rewrite array_skip by (repeat apply free_app; freec). rewrite array_skip by auto. rewrite array_skip by freec.
  rewrite tk4_eq. cbn [app]. apply A.
Qed.
Lemma toks_array_types : forall h fo ni ti i j items, free (text "types") fo -> free (text "types") ni ->
  (forall r, array_of (text "types") (ti ++ KPunct x3b :: r) = Some items) -> array_of (text "types") (toks h fo ni ti i j) = Some items.
Proof.
  intros h fo ni ti i j items F F2 A. unfold toks. rewrite array_skip by (repeat apply free_app; freec). rewrite array_skip by auto. rewrite array_skip by freec.
  rewrite array_skip by auto. rewrite array_skip by freec. rewrite tk5_eq. cbn [app]. apply A.
Qed.
Lemma toks_counts : forall h fo ni ti i j, free (text "__write_trace_header") fo -> free (text "__write_trace_header") ni -> free (text "__write_trace_header") ti ->
  read_counts (toks h fo ni ti i j) = Some (i, j).
Proof.
  intros h fo ni ti i j F1 F2 F3. unfold read_counts, toks. rewrite call_skip by (repeat apply free_app; freec). rewrite call_skip by auto. rewrite call_skip by freec.
  rewrite call_skip by auto. rewrite call_skip by freec. rewrite call_skip by auto. rewrite tk5_call, <- app_assoc. rewrite call_skip by freec. rewrite tk6_eq, tk7_eq.
  set (items := [[KId log_var]; [KId lock_var]; [KId (text "names")]; [KNum (dec i)]; [KId (text "types")]; [KNum (dec j)]]).
  assert (FI : Forall (flat x2c) items) by (repeat constructor).
  assert (B : bal (sepby x2c items)).
  { apply sepby_bal; [split; reflexivity|]. eapply Forall_impl; [|exact FI]. intros x Hx. eapply flat_bal; eauto. }
  match goal with |- match call_args _ ?l with _ => _ end = _ =>
    replace l with (KId (text "__write_trace_header") :: KPunct x28 :: sepby x2c items ++ KPunct x29 :: tk7a) by reflexivity end.
  cbn [call_args]. change (bytes_eqb (text "__write_trace_header") (text "__write_trace_header")) with true. cbv iota.
  rewrite inside_end by auto. cbn [option_map]. rewrite split_sepby by (auto; discriminate). unfold items. cbn [mapM arg_of]. rewrite !num_dec. reflexivity.
Qed.

Lemma mapM_strings : forall l, mapM string_elem (map (fun n => [KStr n]) l) = Some l.
Proof. induction l as [|n l IH]; auto. cbn [map mapM string_elem]. now rewrite IH. Qed.

Lemma setup_lemma : forall test ts nal tal dal h f env g, plain_text h -> log_goes f env g ->
  Forall one_line (map fst nal) -> lenN nal = lenN (t_names ts) -> (t_types ts = [] <-> tal = []) -> lenN tal = lenN (t_types ts) ->
  Forall2 (fun a b => fst a = fst b /\ desc_reads (snd a) (snd b)) tal dal ->
  reads_setup (setup_text test ts nal tal h f env)
    (mkSetup (emit_names nal) (emit_types test (t_types ts) dal) (lenN nal, lenN tal) g h).
Proof.
  intros test ts nal tal dal h f env g P L OL LN EM LT F.
  destruct (file_open_ok _ _ _ L) as (fo & O1 & (FL & F1 & F2 & F3) & LO).
  destruct (names_init _ OL) as (ni & O2 & A2 & G1 & G2).
  destruct (types_init test _ _ _ EM F) as (items & (ti & O3 & A3 & H1 & H2) & ME).
  exists (toks h fo ni ti (lenN nal) (lenN tal)). cbn [su_names su_types su_counts su_log su_handshake]. split; [|split; [|split; [|split; [|split]]]].
  - unfold setup_text. rewrite <- LN, <- LT. apply toks_lex; auto.
  - unfold read_names. rewrite (toks_array_names _ _ _ _ _ _ _ F1 A2). apply mapM_strings.
  - unfold read_types. rewrite (toks_array_types _ _ _ _ _ _ _ F2 G1 A3). exact ME.
  - apply toks_counts; auto.
  - rewrite toks_log by auto. exact LO.
  - apply toks_handshake.
Qed.

Lemma ident_sites : forall s, identifiers s -> Forall (fun g : group => Forall (fun x => identifier (fst x)) (snd g)) (snd s).
Proof.
  intros s H. unfold identifiers, site_names in H. rewrite Forall_forall in H. apply Forall_forall. intros g Ig. apply Forall_forall. intros x Ix.
  apply H. apply in_concat. exists (map fst (snd g)). split; [apply in_map_iff; eauto|apply in_map; auto].
Qed.
Lemma ident_line : forall x, identifier x -> one_line x.
Proof.
  intros [|b x] H; [destruct H|]. destruct H as [L W]. intros [->|I]; [discriminate L|]. rewrite forallb_forall in W. specialize (W _ I). discriminate W.
Qed.

Lemma program_lemma : forall test kf sites h f env g st_text texts,
  Forall (site_ok kf) sites -> Forall identifiers sites -> tells_apart test (all_texts sites) -> plain_text h -> log_goes f env g ->
  emits test sites h f env st_text texts ->
  exists names types code, reads_program st_text texts (mkSetup names types (lenN names, lenN types) g h) code /\
    Forall2 (site_stmts names types) sites code /\ instrumented test sites names types (map (map meaning) code).
Proof.
  intros test kf sites h f env g st_text texts SOK ID TA P L (ts & nal & tal & ET & PN & PT & ->).
  destruct (instrument_all test sites istate0) as [code st] eqn:EI.
  assert (VP : Forall (fun s : site => Forall (fun g => Forall (var_pre (txt sites) kf (fst g)) (snd g)) (snd s)) sites).
  { apply Forall_forall. intros s Is. exact (site_pre kf sites SOK s Is). }
  assert (ID' : Forall (fun s : site => Forall (fun g : group => Forall (fun x => identifier (fst x)) (snd g)) (snd s)) sites).
  { eapply Forall_impl; [|exact ID]. exact ident_sites. }
  destruct (all_sim test (txt sites) TA kf sites _ _ _ _ _ _ VP ID' sim0 (sinv0 _ kf) ET EI) as ([EN EY ED] & I & _ & ps & RS & MC & SS).
  destruct (perm_forall2 _ _ _ _ _ PT _ ED) as (dal & PD & FD).
  rewrite EN in PN.
  assert (E1 : emit_names nal = names_of st) by (eapply emit_names_eq; eauto).
  assert (E2 : emit_types test (i_types st) dal = types_of st) by (eapply (emit_types_eq test (txt sites)); eauto).
  exists (emit_names nal), (emit_types test (i_types st) dal), ps. rewrite E1, E2. split; [|split].
  - split; auto.
    assert (L1 : lenN (names_of st) = lenN nal) by (unfold names_of; rewrite lenN_map; unfold lenN; now rewrite (Permutation_length PN)).
    assert (LT : lenN tal = lenN (t_types ts)).
    { rewrite EY. apply F2_len in FD. rewrite FD. unfold lenN. rewrite (Permutation_length PD). rewrite <- (map_length fst (i_descs st)), (si_keys _ _ _ I), map_length. reflexivity. }
    assert (L2 : lenN (types_of st) = lenN tal).
    { unfold types_of. rewrite lenN_map. apply F2_len in FD. rewrite FD. unfold lenN. now rewrite (Permutation_length PD). }
    rewrite L1, L2, <- E1, <- E2, <- EY. apply setup_lemma; auto.
    + apply Forall_forall. intros n In_. apply in_map_iff in In_. destruct In_ as (q & <- & Iq).
      assert (T : txt sites (fst q)).
      { pose proof (si_ndom _ _ _ I) as D. rewrite Forall_forall in D. apply D. apply in_map. eapply Permutation_in; eauto. }
      unfold txt, all_texts in T. apply in_concat in T. destruct T as (l & Il & T). apply in_map_iff in Il. destruct Il as (s & <- & Is).
      rewrite Forall_forall in ID, SOK. apply in_app_or in T. destruct T as [T|T].
      * apply ident_line. specialize (ID s Is). unfold identifiers in ID. rewrite Forall_forall in ID. auto.
      * apply in_map_iff in T. destruct T as (t & <- & It). destruct (SOK s Is) as (_ & _ & OT & _). rewrite Forall_forall in OT.
        intros X. destruct (text_chars _ _ _ (OT t It) X). congruence.
    + rewrite EN. unfold lenN. now rewrite (Permutation_length PN).
    + split; intros Z.
      * rewrite Z in LT. destruct tal; auto. rewrite lenN_cons in LT. cbn in LT. lia.
      * subst tal. destruct (t_types ts); auto. rewrite lenN_cons in LT. cbn in LT. lia.
  - apply SS. apply ext_refl.
  - rewrite MC. exists st, nal, dal. repeat split; auto.
Qed.

(** ** The name of an environment variable *)
Lemma environment_lemma : forall test ts nal tal h e, plain_text h -> identifier e -> Forall one_line (map fst nal) ->
  forall dal, (t_types ts = [] <-> tal = []) -> Forall2 (fun a b => fst a = fst b /\ desc_reads (snd a) (snd b)) tal dal ->
  exists l, lex (setup_text test ts nal tal h FNone (Some e)) = Some l /\
    assigned log_var l = Some [KId (text "fopen"); KPunct x28; KId (text "getenv"); KPunct x28; KId e; KPunct x29; KPunct x2c; KStr (text "w"); KPunct x29] /\
    read_log l = None.
Proof.
  intros test ts nal tal h e P I OL dal EM F.
  set (a := [KId (text "getenv"); KPunct x28; KId e; KPunct x29]).
  assert (O1 : open_end (file_open FNone (Some e)) (fopen_toks a)).
  { apply closed_open. cbn [file_open].
    replace (text "fopen(getenv(" ++ e ++ text "), ""w"")") with (text "fopen(" ++ (text "getenv(" ++ e ++ text ")") ++ text ", ""w"")") by (rewrite <- !app_assoc; reflexivity).
    apply fopen_closed. change a with ([KId (text "getenv"); KPunct x28] ++ [KId e] ++ [KPunct x29]).
    apply closed_app; [vm_compute; reflexivity|]. apply open_closed; [apply open_id; auto|vm_compute; reflexivity|]. eexists _, _. split; reflexivity. }
  assert (FL : flat x3b (fopen_toks a)) by (apply fopen_flat, getenv_bal; auto with emit).
  destruct (names_init _ OL) as (ni & O2 & _). destruct (types_init test _ _ _ EM F) as (items & (ti & O3 & _) & _).
  exists (toks h (fopen_toks a) ni ti (lenN (t_names ts)) (lenN (t_types ts))). split; [|split].
  - unfold setup_text. apply toks_lex; auto.
  - unfold toks. rewrite tk2_log, tk3_eq. rewrite <- !app_assoc.
    rewrite assigned_skip by (vm_compute; reflexivity). rewrite assigned_skip by reflexivity. rewrite assigned_skip by (vm_compute; reflexivity).
    reflexivity.
  - rewrite toks_log by auto. reflexivity.
Qed.

Lemma env_program : forall test kf sites h e st_text texts,
  Forall (site_ok kf) sites -> Forall identifiers sites -> tells_apart test (all_texts sites) -> plain_text h -> identifier e ->
  emits test sites h FNone (Some e) st_text texts ->
  exists l, lex st_text = Some l /\
    assigned log_var l = Some [KId (text "fopen"); KPunct x28; KId (text "getenv"); KPunct x28; KId e; KPunct x29; KPunct x2c; KStr (text "w"); KPunct x29] /\
    read_log l = None.
Proof.
  intros test kf sites h e st_text texts SOK ID TA P IE (ts & nal & tal & ET & PN & PT & ->).
  destruct (instrument_all test sites istate0) as [code st] eqn:EI.
  assert (VP : Forall (fun s : site => Forall (fun g => Forall (var_pre (txt sites) kf (fst g)) (snd g)) (snd s)) sites).
  { apply Forall_forall. intros s Is. exact (site_pre kf sites SOK s Is). }
  assert (ID' : Forall (fun s : site => Forall (fun g : group => Forall (fun x => identifier (fst x)) (snd g)) (snd s)) sites).
  { eapply Forall_impl; [|exact ID]. exact ident_sites. }
  destruct (all_sim test (txt sites) TA kf sites _ _ _ _ _ _ VP ID' sim0 (sinv0 _ kf) ET EI) as ([EN EY ED] & I & _).
  destruct (perm_forall2 _ _ _ _ _ PT _ ED) as (dal & PD & FD). rewrite EN in PN.
  apply environment_lemma with (dal := dal); auto.
  - apply Forall_forall. intros n In_. apply in_map_iff in In_. destruct In_ as (q & <- & Iq).
    assert (T : txt sites (fst q)).
    { pose proof (si_ndom _ _ _ I) as D. rewrite Forall_forall in D. apply D. apply in_map. eapply Permutation_in; eauto. }
    unfold txt, all_texts in T. apply in_concat in T. destruct T as (l & Il & T). apply in_map_iff in Il. destruct Il as (s & <- & Is).
    rewrite Forall_forall in ID, SOK. apply in_app_or in T. destruct T as [T|T].
    + apply ident_line. specialize (ID s Is). unfold identifiers in ID. rewrite Forall_forall in ID. auto.
    + apply in_map_iff in T. destruct T as (t & <- & It). destruct (SOK s Is) as (_ & _ & OT & _). rewrite Forall_forall in OT.
      intros X. destruct (text_chars _ _ _ (OT t It) X). congruence.
  - assert (LT : lenN tal = lenN (t_types ts)).
    { rewrite EY. apply F2_len in FD. rewrite FD. unfold lenN. rewrite (Permutation_length PD). rewrite <- (map_length fst (i_descs st)), (si_keys _ _ _ I), map_length. reflexivity. }
    split; intros Z.
    + rewrite Z in LT. destruct tal; auto. rewrite lenN_cons in LT. cbn in LT. lia.
    + subst tal. destruct (t_types ts); auto. rewrite lenN_cons in LT. cbn in LT. lia.
Qed.
