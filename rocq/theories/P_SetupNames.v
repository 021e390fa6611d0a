(** Property C98, the setup code: where the names of the appended text come
    from.  Specification: SetupNames.v. *)
From Coq Require Import Strings.String.
From Verif Require Import BaseProofs Types Compare PrintPred.
From Verif Require Import Instr InstrRun InstrSpec InstrText InstrTable InstrProofs InstrEnd InstrReq P_Instr.
From Verif Require Import CRead CParse Emit EmitSpec EmitProofs EmitProofs2 P_Emit Names NamesSpec NamesProofs SetupRead SetupCode SetupNames SetupNamesProofs.

(** For every program, every name in the setup code is a keyword; part of a
    directive; declared by a header that the setup code itself includes; declared
    at the top of the file; declared by the setup code itself; or a word of the
    type of a variable that is logged somewhere (in sizeof). *)
Theorem C98_setup : forall test kf sites h f env g st_text texts,
  Forall (site_ok kf) sites -> Forall identifiers sites -> tells_apart test (all_texts sites) -> plain_text h -> log_goes f env g ->
  emits test sites h f env st_text texts ->
  exists ks u, lex st_text = Some ks /\ read_unit st_text = Some u /\ forall x, In (KId x) ks -> setup_uses sites ks u x.
Proof.
  intros test kf sites h f env g st_text texts SOK ID TA P L EM. destruct (setup_names _ _ _ _ _ _ _ _ _ SOK ID TA P L EM) as (ks & u & A & B & C & _).
  exists ks, u. auto.
Qed.
Print Assumptions C98_setup.

(** The variables of the setup function are declared before they are used, in
    the block or around it, and the functions it calls are declared before it by
    the headers or at the top of the file, and are called with as many arguments
    as they have parameters. *)
Theorem C98_setup_scope : forall test kf sites h f env g st_text texts,
  Forall (site_ok kf) sites -> Forall identifiers sites -> tells_apart test (all_texts sites) -> plain_text h -> log_goes f env g ->
  emits test sites h f env st_text texts ->
  exists ks u, lex st_text = Some ks /\ read_unit st_text = Some u /\ setup_scoped ks u = true.
Proof.
  intros test kf sites h f env g st_text texts SOK ID TA P L EM. destruct (setup_names _ _ _ _ _ _ _ _ _ SOK ID TA P L EM) as (ks & u & A & B & _ & C & _).
  exists ks, u. auto.
Qed.
Print Assumptions C98_setup_scope.

(** What the setup code defines at file scope: the two variables that are
    declared at the top of the file, and one function; their names are reserved,
    so no program defines them. *)
Theorem C98_setup_no_capture : forall test kf sites h f env g st_text texts,
  Forall (site_ok kf) sites -> Forall identifiers sites -> tells_apart test (all_texts sites) -> plain_text h -> log_goes f env g ->
  emits test sites h f env st_text texts ->
  exists u, read_unit st_text = Some u /\ incl (u_globals u) (declared forward_declarations) /\ Forall reserved (u_name u :: u_globals u).
Proof.
  intros test kf sites h f env g st_text texts SOK ID TA P L EM. destruct (setup_names _ _ _ _ _ _ _ _ _ SOK ID TA P L EM) as (ks & u & _ & B & _ & _ & G & N1 & _).
  exists u. split; [exact B|]. rewrite G, N1. split.
  - assert (E : forallb (fun x => existsb (bytes_eqb x) (declared forward_declarations)) [log_var; lock_var] = true) by (vm_compute; reflexivity).
    rewrite forallb_forall in E. intros x X. specialize (E x X). apply existsb_exists in E. destruct E as (y & Y & E). apply beq in E. rewrite E. exact Y.
  - repeat constructor; eexists; vm_compute; reflexivity.
Qed.
Print Assumptions C98_setup_no_capture.

(** But the headers that it includes after the program's text declare functions
    whose names C leaves to programs: every program that has a main function gets
    declarations of [access], [sleep] and [unlink]; one that defines a function
    or variable of such a name, with another type, is no longer C. *)
Theorem C98_setup_clash_refuted : forall test kf sites h f env g st_text texts,
  Forall (site_ok kf) sites -> Forall identifiers sites -> tells_apart test (all_texts sites) -> plain_text h -> log_goes f env g ->
  emits test sites h f env st_text texts ->
  exists ks, lex st_text = Some ks /\ forall x n, In (x, n) [(text "access", 2%nat); (text "sleep", 1%nat); (text "unlink", 1%nat)] ->
    In (x, Function n) (from_headers ks) /\ ~ reserved x.
Proof.
  intros test kf sites h f env g st_text texts SOK ID TA P L EM. destruct (setup_names _ _ _ _ _ _ _ _ _ SOK ID TA P L EM) as (ks & u & A & _ & _ & _ & _ & _ & I).
  exists ks. split; [exact A|]. intros x n X. split.
  - unfold from_headers. apply in_flat_map. exists (text "unistd"). split; [apply I; cbn; tauto|]. vm_compute in X |- *. intuition congruence.
  - intros (r & E). cbn [In] in X. destruct X as [X|[X|[X|[]]]]; injection X as <- <-; discriminate E.
Qed.
Print Assumptions C98_setup_clash_refuted.

(** The program of C82 meets the hypotheses (C82_ex_hyps); the headers of its
    setup code, and three names. *)
Definition has_name (x : string) (ks : list ctok) : bool := existsb (fun k => match k with KId y => bytes_eqb y (text x) | _ => false end) ks.
Example C98_setup_ex : exists ks u, lex ex_text = Some ks /\ read_unit ex_text = Some u /\
  included ks = map text ["pthread"; "stdio"; "string"; "stdlib"; "unistd"]%string /\ setup_scoped ks u = true /\
  has_name "sizeof" ks = true /\ has_name "int" ks = true /\ has_name "strlen" ks = false.
Proof.
  assert (E : exists ks, lex ex_text = Some ks) by (eexists; vm_compute; reflexivity). destruct E as (ks & E).
  assert (U : exists u, read_unit ex_text = Some u) by (eexists; vm_compute; reflexivity). destruct U as (u & U).
  exists ks, u. split; [exact E|]. split; [exact U|]. vm_compute in E. injection E as <-. vm_compute in U. injection U as <-.
  repeat split; vm_compute; reflexivity.
Qed.
(** Without the include of unistd.h, or with a variable used after its block,
    the setup code would not be in scope. *)
Example C98_setup_ex_reject :
  (exists ks u, lex ex_text = Some ks /\ read_unit ex_text = Some u /\
    setup_scoped (filter (fun k => match k with KId x => negb (bytes_eqb x (text "unistd")) | _ => true end) ks) u = false) /\
  block_scoped [] [] [UPointer (text "p") (UNum 0); UExpr (UVar (text "p"))] = true /\
  block_scoped [] [] [UWhile (UNum 0) [UPointer (text "p") (UNum 0)]; UExpr (UVar (text "p"))] = false /\
  block_scoped [(text "f", 2%nat)] [] [UExpr (UCall (text "f") [UNum 1])] = false.
Proof.
  split; [|repeat split; vm_compute; reflexivity].
  assert (E : exists ks, lex ex_text = Some ks) by (eexists; vm_compute; reflexivity). destruct E as (ks & E).
  assert (U : exists u, read_unit ex_text = Some u) by (eexists; vm_compute; reflexivity). destruct U as (u & U).
  exists ks, u. split; [exact E|]. split; [exact U|]. vm_compute in E. injection E as <-. vm_compute in U. injection U as <-. vm_compute. reflexivity.
Qed.
