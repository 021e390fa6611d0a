(** Property C83: which variables are logged. *)
From Coq Require Import Strings.String Lia.
From Verif Require Import BaseProofs Types Compare PrintPred Instr InstrSpec CRead Emit EmitSpec Vars VarsSpec VarsProofs.

(** Of the variables in scope at a place, exactly the chosen ones are logged, in
    order, with the types of their declarators (both versions of the list of
    parents). *)
Theorem C83_choice : forall self canon root l,
  Forall scoped l -> Forall (fun e => one_line (e_name e)) l ->
  forall r, chosen_vars canon root l r <-> names_and_types self canon root l = r.
Proof. exact chosen_vars_lemma. Qed.
Print Assumptions C83_choice.

(** The statements inserted are those that log the chosen variables. *)
Theorem C83_statements : forall self canon root l, Forall scoped l -> Forall (fun e => one_line (e_name e)) l ->
  exists r, chosen_vars canon root l r /\ forall test ps st, var_instrument self canon test root l ps st = instrument_c_exprs test r ps st.
Proof.
  intros self canon root l S O. exists (names_and_types self canon root l). split; [|reflexivity]. now apply chosen_vars_lemma with (self := self).
Qed.
Print Assumptions C83_statements.

(** So the names of the variables logged at a place are identifiers: a
    precondition of C82. *)
Theorem C83_identifiers : forall self canon root id (functions : list (bool * list entry)),
  Forall (fun f => Forall scoped (snd f) /\ Forall (fun e => one_line (e_name e)) (snd f)) functions ->
  identifiers (id, map (fun f => (fst f, names_and_types self canon root (snd f))) functions).
Proof.
  intros self canon root id functions F. unfold identifiers, site_names. cbn [snd]. apply Forall_concat.
  induction F as [|[ps l] fs [S O] F IH]; cbn [map snd]; constructor; auto.
  pose proof (proj2 (chosen_vars_lemma self canon root l S O _) eq_refl) as C. apply chosen_names in C.
  apply Forall_map. eapply Forall_impl; [|exact C]. intros x [I _]. exact I.
Qed.
Print Assumptions C83_identifiers.

(** In a function whose declarator is its name with the parameter list (the
    result is not declared with stars or brackets), of the parameters mentioned
    in the declarator exactly those of the function are logged, not those of
    its function pointer parameters. *)
Theorem C83_parameters : forall self root f rt d ps body x p,
  at_path root f = Some (function_definition rt (Func d ps) body) -> bare d ->
  param_at (Func d ps) p -> plain_name x ->
  (var_instrument_p self x (f ++ 1%nat :: p) f root = true <-> own (Func d ps) p).
Proof.
  intros self root f rt d ps body x p AF B PA PN. rewrite (parameter_lemma self root f rt _ body x p AF PA PN), (own_bare d ps p B). split.
  - intros (d0 & ps0 & i & E & ->). inversion E; subst. inversion PA; subst; eauto.
  - intros (i & _ & ->). eauto.
Qed.
Print Assumptions C83_parameters.

(** Variables declared in a block are logged; parameters mentioned in their
    declarators (of function pointers, of local prototypes) are not. *)
Theorem C83_declarations : forall self root scope i t l x,
  at_path root (scope ++ [i]) = Some (declaration t l) -> plain_name x ->
  var_instrument_p self x (scope ++ [i]) scope root = true /\
  forall j y d p, nth_error l j = Some (y, d) -> param_at d p ->
    var_instrument_p self x (scope ++ i :: S j :: p) scope root = false.
Proof.
  intros self root scope i t l x AT PN. split; [exact (declared_lemma self root scope i t l x AT PN)|].
  intros j y d p N PA. exact (in_declaration_lemma self root scope i t l j y d p x AT N PA PN).
Qed.
Print Assumptions C83_declarations.

(** But no parameter of a function is logged whose result is declared with a
    star (or brackets or parentheses) outside the parameter list. *)
Theorem C83_pointer_result_refuted : forall self root f rt d body x p,
  at_path root f = Some (function_definition rt d body) -> (forall d0 ps, d <> Func d0 ps) ->
  own d p -> plain_name x -> var_instrument_p self x (f ++ 1%nat :: p) f root = false.
Proof.
  intros self root f rt d body x p AF NF O PN. apply not_true_iff_false. intros H.
  apply (parameter_lemma self root f rt d body x p AF (own_param d p O) PN) in H. destruct H as (d0 & ps & i & E & _). exact (NF d0 ps E).
Qed.
Print Assumptions C83_pointer_result_refuted.

(** And for a function that returns a function pointer the parameters of the
    pointer are logged, if they are offered as variables in scope, and those of
    the function are not. *)
Theorem C83_function_pointer_result_refuted : forall self root f rt d ps body x,
  at_path root f = Some (function_definition rt (Func d ps) body) -> ~ bare d -> plain_name x ->
  (forall p, own (Func d ps) p -> var_instrument_p self x (f ++ 1%nat :: p) f root = false) /\
  (forall i, (i < length ps)%nat ->
     ~ own (Func d ps) [1%nat; i] /\ var_instrument_p self x (f ++ [1; 1; i]%nat) f root = true).
Proof.
  intros self root f rt d ps body x AF NB PN. split.
  - intros p O. apply not_true_iff_false. intros H.
    apply (parameter_lemma self root f rt _ body x p AF (own_param _ p O) PN) in H. destruct H as (d0 & ps0 & i & E & ->).
    inversion O; subst. contradiction.
  - intros i L. split; [intros O; inversion O; subst; contradiction|].
    apply (parameter_lemma self root f rt _ body x [1%nat; i] AF (pa_here d ps i L) PN). eauto.
Qed.
Print Assumptions C83_function_pointer_result_refuted.

(** ** Examples *)

(** int f(int a, void ( *cb)(int x)) { short s, *q; { int ( *g)(int y); ... } } *)
Definition ex_f : dtor := Func Name [Name; Func (Paren (Pointer Name)) [Name]].
Definition ex_inner : ast := Ast AOther [declaration leaf [(text "g", Func (Paren (Pointer Name)) [Name])]].
Definition ex_body : ast := Ast AOther [declaration leaf [(text "s", Name); (text "q", Pointer Name)]; ex_inner].
Definition ex_root : ast := Ast AOther [function_definition leaf ex_f ex_body].
Definition ex_entries : list entry :=
  [mkEntry (text "y") [0; 2; 1; 0; 1; 1; 0]%nat [0; 2; 1]%nat;
   mkEntry (text "g") [0; 2; 1; 0]%nat [0; 2; 1]%nat;
   mkEntry (text "s") [0; 2; 0]%nat [0; 2]%nat;
   mkEntry (text "q") [0; 2; 0]%nat [0; 2]%nat;
   mkEntry (text "a") [0; 1; 1; 0]%nat [0]%nat;
   mkEntry (text "cb") [0; 1; 1; 1]%nat [0]%nat;
   mkEntry (text "x") [0; 1; 1; 1; 1; 1; 0]%nat [0]%nat].
Definition ex_canon (p : path) (i : option nat) : ctype :=
  match i with
  | Some 1%nat => mkC [DPointer] [mkSpec KOther (text "short")]
  | _ => mkC [] [mkSpec KOther (text "int")]
  end.

Example C83_ex : Forall scoped ex_entries /\ Forall (fun e => one_line (e_name e)) ex_entries /\
  map fst (names_and_types true ex_canon ex_root ex_entries) = map text ["g"; "s"; "q"; "a"; "cb"]%string /\
  names_and_types true ex_canon ex_root ex_entries = names_and_types false ex_canon ex_root ex_entries /\
  In (text "q", mkC [DPointer] [mkSpec KOther (text "short")]) (names_and_types true ex_canon ex_root ex_entries).
Proof.
  split; [|split; [|split; [|split]]].
  - unfold ex_entries. repeat constructor; eexists; (split; [|reflexivity]); discriminate.
  - unfold ex_entries, one_line. repeat constructor; vm_compute; intuition discriminate.
  - vm_compute. reflexivity.
  - vm_compute. reflexivity.
  - vm_compute. auto.
Qed.

Example C83_ex_parameters : at_path ex_root [0%nat] = Some (function_definition leaf ex_f ex_body) /\ bare Name /\
  param_at ex_f [1; 0]%nat /\ own ex_f [1; 0]%nat /\ param_at ex_f [1; 1; 1; 1; 0]%nat /\ ~ own ex_f [1; 1; 1; 1; 0]%nat /\ plain_name (text "a").
Proof.
  split; [reflexivity|]. split; [constructor|]. split; [constructor; cbn; lia|]. split; [constructor; [constructor|cbn; lia]|].
  split; [eapply pa_inside; [reflexivity|constructor; cbn; lia]|]. split; [intros H; inversion H|].
  split; [vm_compute; auto|]. intros r E. discriminate E.
Qed.

(** int *f(int a) *)
Example C83_ex_pointer : exists root f rt body, at_path root f = Some (function_definition rt (Pointer (Func Name [Name])) body) /\
  own (Pointer (Func Name [Name])) [0; 1; 0]%nat.
Proof.
  exists (Ast AOther [function_definition leaf (Pointer (Func Name [Name])) leaf]), [0%nat], leaf, leaf.
  split; [reflexivity|]. repeat constructor.
Qed.

(** int ( *f(int a))(int b) *)
Example C83_ex_function_pointer : own (Func (Paren (Pointer (Func Name [Name]))) [Name]) [0; 0; 0; 1; 0]%nat /\
  ~ bare (Paren (Pointer (Func Name [Name]))).
Proof. split; [repeat constructor|]. intros H. inversion H as [|d B E]. inversion B. Qed.
(** (Names with a newline at the end would pass the test as well.) *)
Example C83_ex_newline : valid_identifier_p (text "ab_1") = true /\ valid_identifier_p (text "1a") = false /\
  valid_identifier_p (text "a" ++ [x0a]) = true /\ valid_identifier_p (text "a" ++ [x0a; x0a]) = false.
Proof. vm_compute. auto. Qed.
