(** Property C99: the log is set up before any instrumented code runs, and what
    runs after main is logged too.  [setup_fn] is __bi_setup; a program is given
    by what its initialisation functions, main and its exit functions do; its
    initialisation functions run in any order that respects their priorities
    ([Startup.v]). *)
From Coq Require Import Strings.String Permutation Sorted.
From Verif Require Import BaseProofs Types Stream SkipList AMap MemMapSpec Reader Compare PrintPred FormatSpec ReaderMore ReaderProps.
From Verif Require Import Instr InstrRun InstrSpec InstrText InstrTable InstrConc InstrProofs InstrEnd InstrReq P_Instr.
From Verif Require Import CRead Emit EmitSpec EmitProofs Startup StartupSpec StartupProofs.

(** If instrumented initialisation functions have no priority or one above 101,
    and nothing instrumented runs before the executable's own initialisation
    functions: every run works, and its log shows all passes, first those of
    initialisation functions (in the order in which they ran), then those of main,
    then those at exit. *)
Theorem C99_log : forall test kf sites names types code,
  Forall (site_ok kf) sites -> tells_apart test (all_texts sites) ->
  instrumented test sites names types code -> fits names types ->
  forall g, one_setup g -> passes_ok sites g -> late_enough g ->
  forall ls o, Forall2 init_order (g_libs g) ls -> init_order (setup_fn :: g_inits g) o ->
  exists out, run names types code None (steps_of g ls o) = Ok (Some out) /\
    forall ok coins pos t, (forall n, n <= lenN out -> ok n = true) ->
    exists tr, InstrEnd.reads ok coins pos t 0 out = Ok tr /\ tr_names tr = names /\ tr_types tr = types /\
      Forall2 (event_shows sites tr) (flat_map (fun f => passes (in_steps f)) o ++ passes (g_main g) ++ passes (g_exit g)) (tr_points tr).
Proof. intros test kf sites names types code H1 H2 H3 H4. exact (start_lemma test kf sites H1 H2 names types code H3 H4). Qed.
Print Assumptions C99_log.

(** C++ variables with constructors, functions with a plain constructor
    attribute: these run after the setup. *)
Theorem C99_plain : forall g, one_setup g -> g_preinit g = [] -> Forall (Forall quiet) (g_libs g) ->
  Forall (fun f => in_priority f = None) (g_inits g) ->
  late_enough g /\ forall o, init_order (setup_fn :: g_inits g) o -> exists r, o = setup_fn :: r /\ Permutation (g_inits g) r.
Proof.
  intros g ONE E1 E2 E3. split.
  - split; [exact E1|]. split; [exact E2|]. eapply Forall_impl; [|exact E3]. intros f P. right. unfold late. rewrite P. exact I.
  - intros o HO. destruct (split_order _ _ HO) as (a & b & -> & P & A & _). destruct a as [|x a]; [exists b; split; [reflexivity|exact P]|].
    exfalso. inversion A as [|? ? X _]; subst. pose proof (perm_forall _ _ _ _ P E3) as Y. inversion Y as [|? ? Z _]; subst.
    unfold not_after in X. rewrite Z in X. exact X.
Qed.
Print Assumptions C99_plain.

(** The conditions are exact: they hold if and only if no order of the
    initialisation functions makes instrumented code use the null log. *)
Theorem C99_exact : forall test kf sites names types code,
  Forall (site_ok kf) sites -> tells_apart test (all_texts sites) ->
  instrumented test sites names types code -> fits names types ->
  forall g, one_setup g -> passes_ok sites g ->
  (late_enough g <-> forall s, runs g s -> exists out, run names types code None s = Ok (Some out)).
Proof.
  intros test kf sites names types code H1 H2 H3 H4 g ONE OKS. split.
  - intros L s (ls & o & HL & HO & ->). destruct (start_lemma test kf sites H1 H2 names types code H3 H4 g ONE OKS L ls o HL HO) as (out & E & _). eauto.
  - intros H. apply (exact_lemma names types code g ONE). intros s R E. destruct (H s R) as (out & E'). rewrite E in E'. discriminate E'.
Qed.
Print Assumptions C99_exact.

(** So the setup does not run before all other code: whatever the code, ... *)
(** ... an instrumented initialisation function of a shared library uses the
    null log in every run; *)
Theorem C99_library_refuted : forall names types code g l f, one_setup g -> In l (g_libs g) -> In f l -> passes (in_steps f) <> [] ->
  (exists s, runs g s) /\ forall s, runs g s -> run names types code None s = UB UNull.
Proof.
  intros names types code g l f ONE I1 I2 NE. split; [apply run_exists|]. intros s R. eapply lib_bad; eauto. intros E. rewrite E in NE. exact (NE eq_refl).
Qed.
Print Assumptions C99_library_refuted.
(** ... so does an instrumented constructor of the executable with a lower number; *)
Theorem C99_priority_refuted : forall names types code g f p, one_setup g -> In f (g_inits g) -> in_priority f = Some p -> p < 101 ->
  passes (in_steps f) <> [] ->
  (exists s, runs g s) /\ forall s, runs g s -> run names types code None s = UB UNull.
Proof.
  intros names types code g f p ONE I E L NE. split; [apply run_exists|]. intros s R. eapply always_bad; eauto. intros X. rewrite X in NE. exact (NE eq_refl).
Qed.
Print Assumptions C99_priority_refuted.
(** ... and with the same number, 101, in some order. *)
Theorem C99_same_priority_refuted : forall names types code g f, one_setup g -> In f (g_inits g) -> in_priority f = Some 101 ->
  passes (in_steps f) <> [] -> exists s, runs g s /\ run names types code None s = UB UNull.
Proof.
  intros names types code g f ONE I E NE. eapply sometimes_bad; eauto.
  - unfold late. rewrite E. apply N.lt_irrefl.
  - intros X. rewrite X in NE. exact (NE eq_refl).
Qed.
Print Assumptions C99_same_priority_refuted.

(** ** The text of the setup code *)
Lemma at_app : forall a b, (8 <= List.length a)%nat -> constructor_at (a ++ b) = constructor_at a.
Proof. intros a b H. do 8 (destruct a as [|? a]; [cbn [List.length] in H; lia|]). reflexivity. Qed.
Lemma at_long : forall a r, constructor_at a = Some r -> (8 <= List.length a)%nat.
Proof.
  intros a r H. destruct (Nat.le_gt_cases 8 (List.length a)) as [L|L]; [exact L|]. exfalso.
  destruct a as [|[] [|? [|[] [|? [|? [|? [|[] [|? a]]]]]]]]; try discriminate H. cbn [List.length] in L. lia.
Qed.
Lemma first_long : forall a r, first_constructor a = Some r -> (8 <= List.length a)%nat.
Proof.
  induction a as [|k a IH]; intros r H; [discriminate H|]. cbn [first_constructor] in H. destruct (constructor_at (k :: a)) eqn:E.
  - eapply at_long; eauto.
  - apply IH in H. cbn [List.length]. lia.
Qed.
Lemma first_app : forall a b r, first_constructor a = Some r -> first_constructor (a ++ b) = Some r.
Proof.
  induction a as [|k a IH]; intros b r H; [discriminate H|]. pose proof (first_long _ _ H) as L.
  change ((k :: a) ++ b) with (k :: a ++ b). cbn [first_constructor] in H |- *. change (k :: a ++ b) with ((k :: a) ++ b). rewrite at_app by exact L.
  destruct (constructor_at (k :: a)); [exact H|apply IH; exact H].
Qed.
(** Whatever the program: the first constructor function of the setup code is
    __bi_setup, with the priority of the model. *)
Theorem C99_text : forall test st nal tal handshake f env ts,
  lex (setup_text test st nal tal handshake f env) = Some ts ->
  first_constructor ts = Some (setup_priority, text "__bi_setup").
Proof.
  intros test st nal tal handshake f env ts H. unfold setup_text, lex in H. rewrite lex_run in H. unfold pre in H.
  destruct (lex_from _ _) as [q|]; [|discriminate H].
  assert (I : forall A (x y : A), Some x = Some y -> x = y) by (intros A x y E; injection E; auto). apply I in H. rewrite <- H. apply first_app. vm_compute. reflexivity.
Qed.
Print Assumptions C99_text.

(** And it defines the log and the lock, which the declarations at the top of
    every file (C98) only declare. *)
Theorem C99_variables : forall test st nal tal handshake f env ts x,
  lex (setup_text test st nal tal handshake f env) = Some ts -> In x [log_var; lock_var] ->
  exists above below, ts = above ++ [KPunct x3e; KId (text "void"); KPunct x2a; KId x; KPunct x3b] ++ below \/
    ts = above ++ [KPunct x3b; KId (text "void"); KPunct x2a; KId x; KPunct x3b] ++ below.
Proof.
  intros test st nal tal handshake f env ts x H X. unfold setup_text, lex in H. rewrite lex_run in H. unfold pre in H.
  destruct (lex_from _ _) as [q|]; [|discriminate H].
  assert (I : forall A (x y : A), Some x = Some y -> x = y) by (intros A a b E; injection E; auto). apply I in H. rewrite <- H. clear H ts I.
  destruct X as [<-|[<-|[]]].
  - exists (firstn 37 (fst (lrun L0 setup_1))), (skipn 42 (fst (lrun L0 setup_1)) ++ q). left. rewrite !app_assoc. f_equal.
  - exists (firstn 41 (fst (lrun L0 setup_1))), (skipn 46 (fst (lrun L0 setup_1)) ++ q). right. rewrite !app_assoc. f_equal.
Qed.
Print Assumptions C99_variables.

(** ** Examples *)
Definition st0 : event := (0%nat, ex_env (-3)).
Definition st1 : event := (1%nat, ex_env 7).
(** A C++ variable whose constructor logs, a constructor with priority 200 that
    logs, one with priority 50 that does not; a library that does not log;
    main; a destructor that logs. *)
Definition prog99 : program := mkProg [] [[mkInit None []; mkInit (Some 65535) []]]
  [mkInit None [SPass st1]; mkInit (Some 50) []; mkInit (Some 200) [SPass st0]] [SPass st0; SPass st0] [SPass st1].
Lemma st_ok : event_ok ex_sites st0 /\ event_ok ex_sites st1.
Proof. pose proof ex_events_ok as X. inversion X as [|? ? X1 X2]; subst. inversion X1 as [|? ? Y1 Y2]; subst. inversion Y2; subst. auto. Qed.
Ltac quiet99 := unfold no_setup; cbn [In]; intuition discriminate.
Example C99_hyps : Forall (site_ok ex_kf) ex_sites /\ tells_apart equal_test (all_texts ex_sites) /\
  instrumented equal_test ex_sites ex_names ex_types ex_code /\ fits ex_names ex_types /\
  one_setup prog99 /\ passes_ok ex_sites prog99 /\ late_enough prog99.
Proof.
  destruct C41_hyps as (H1 & H2 & H3 & H4 & _). destruct st_ok as (S0 & S1). split; [exact H1|]. split; [exact H2|]. split; [exact H3|]. split; [exact H4|].
  split; [|split].
  - unfold one_setup, prog99. cbn [g_preinit g_libs g_inits g_main g_exit]. repeat match goal with |- _ /\ _ => split end;
    repeat (match goal with |- Forall _ _ => constructor end); cbn [in_steps]; quiet99.
  - unfold passes_ok, prog99. cbn [g_preinit g_libs g_inits g_main g_exit in_steps passes flat_map app]. repeat match goal with |- _ /\ _ => split end;
    repeat (match goal with |- Forall _ _ => constructor end); cbn [in_steps passes flat_map app]; repeat (match goal with |- Forall _ _ => constructor end); assumption.
  - unfold late_enough, prog99. cbn [g_preinit g_libs g_inits]. split; [reflexivity|]. split; [repeat constructor|].
    constructor; [right; exact I|]. constructor; [left; reflexivity|]. constructor; [right; reflexivity|]. constructor.
Qed.
(** Its only run (up to the order of silent functions): priority 50, setup, 200, the C++ variable, main, exit. *)
Example C99_ex : runs prog99 [SSetup; SPass st0; SPass st1; SPass st0; SPass st0; SPass st1] /\
  exists out tr, run ex_names ex_types ex_code None [SSetup; SPass st0; SPass st1; SPass st0; SPass st0; SPass st1] = Ok (Some out) /\
    (forall coins pos t, InstrEnd.reads (fun _ => true) coins pos t 0 out = Ok tr) /\
    map p_stmt (tr_points tr) = [Some 5; Some 9; Some 5; Some 5; Some 9].
Proof.
  split.
  - exists [[mkInit (Some 65535) []; mkInit None []]], [mkInit (Some 50) []; setup_fn; mkInit (Some 200) [SPass st0]; mkInit None [SPass st1]].
    split; [|split; [split|reflexivity]].
    + constructor; [|constructor]. split; [apply perm_swap|]. repeat constructor.
    + cbn [g_inits prog99]. apply (Permutation_cons_app [mkInit (Some 50) []] [mkInit (Some 200) [SPass st0]; mkInit None [SPass st1]]). cbn [app].
      apply (Permutation_cons_app [mkInit (Some 50) []; mkInit (Some 200) [SPass st0]] []). reflexivity.
    + repeat (constructor; [|repeat (constructor; [unfold not_after; cbn [in_priority setup_fn]; try exact I; vm_compute; discriminate|]); constructor]). constructor.
  - destruct (run ex_names ex_types ex_code None [SSetup; SPass st0; SPass st1; SPass st0; SPass st0; SPass st1]) as [[out|]| | | |] eqn:E; vm_compute in E; try discriminate E.
    injection E as <-. eexists. eexists. split; [reflexivity|]. split; [|].
    + intros. unfold InstrEnd.reads. rewrite read_trace_transfer. destruct t; crunch.
    + crunch.
Qed.
(** Programs for the refutations. *)
Example C99_bad_hyps : one_setup (mkProg [] [[mkInit None [SPass st0]]] [] [SPass st0] []) /\
  one_setup (mkProg [] [] [mkInit (Some 100) [SPass st0]; mkInit (Some 101) [SPass st1]] [SPass st0] []).
Proof.
  split; unfold one_setup; cbn [g_preinit g_libs g_inits g_main g_exit]; repeat match goal with |- _ /\ _ => split end;
  repeat (match goal with |- Forall _ _ => constructor end); cbn [in_steps]; quiet99.
Qed.
