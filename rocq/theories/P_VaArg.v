(** Property C96: the arguments of the inserted calls of
    __write_trace_variables and __write_trace_blobs arrive as they were passed.
    [run_stmt] (InstrRun.v) says what a statement does if they do;
    [run_stmt_abi] (VaArg.v) passes them in registers and on the stack, where
    [junk] is what the unused halves of these contain. *)
From Coq Require Import Strings.String.
From Verif Require Import BaseProofs Types Stream SkipList AMap MemMapSpec Reader Compare PrintPred FormatSpec ReaderMore ReaderProps.
From Verif Require Import Instr InstrRun InstrSpec InstrText InstrTable InstrConc InstrProofs InstrEnd.
From Verif Require Import P_Instr VaArg VaSpec VaProofs.

(** Any number of variables, integer and floating ones mixed: all arrive, in
    order. *)
Theorem C96_variables : forall junk env args acts, Forall usual args ->
  run_stmt env (IVars args) = Ok acts -> run_stmt_abi junk env (IVars args) = Ok acts.
Proof. intros junk env args acts U. apply stmt_passed. exact U. Qed.
Print Assumptions C96_variables.
Theorem C96_blobs : forall junk env args acts,
  run_stmt env (IBlobs args) = Ok acts -> run_stmt_abi junk env (IBlobs args) = Ok acts.
Proof. intros junk env args acts. apply stmt_passed. exact I. Qed.
Print Assumptions C96_blobs.

(** The calls of an instrumented program. *)
Theorem C96_program : forall test sites names types code junk e acts,
  instrumented test sites names types code ->
  event_run code e = Ok acts -> event_run_abi junk code e = Ok acts.
Proof.
  intros test sites names types code junk e acts (st & nal & tal & E & _) R. apply all_usual in E. unfold event_run, event_run_abi in *.
  destruct (nth_error code (fst e)) as [c|] eqn:N; [|discriminate]. apply nth_error_In in N. rewrite Forall_forall in E. now apply stmts_passed, R; apply E.
Qed.
Print Assumptions C96_program.

(** So the log of an instrumented program, its arguments passed that way, is
    read back as what happened (cf. C41). *)
Theorem C96_log_read_back : forall test kf sites names types code,
  Forall (site_ok kf) sites -> tells_apart test (all_texts sites) ->
  instrumented test sites names types code -> fits names types ->
  forall ths, Forall (Forall (event_ok sites)) ths ->
  exists acts, (forall junk, Forall2 (Forall2 (fun e a => event_run_abi junk code e = Ok a)) ths acts) /\
    forall s, rsteps (rstart names types (map (@List.concat action) acts)) s -> Forall (eq []) (r_threads s) ->
    forall ok coins pos t, (forall n, n <= lenN (r_out s) -> ok n = true) ->
    exists order tr, merge ths order /\ reads ok coins pos t 0 (r_out s) = Ok tr /\
      tr_names tr = names /\ tr_types tr = types /\ Forall2 (event_shows sites tr) order (tr_points tr) /\
      (order <> [] -> r_disk s = lenN (r_out s)).
Proof.
  intros test kf sites names types code SO TA IN FI ths EO. destruct (C41_log_read_back test kf sites names types code SO TA IN FI ths EO) as (acts & A & R).
  exists acts. split; [|exact R]. intros junk. clear - A IN. induction A as [|es xs ths acts H A IH]; constructor; [|exact IH].
  induction H; constructor; auto. eapply C96_program; eauto.
Qed.
Print Assumptions C96_log_read_back.

(** 15 variables: 65 general arguments and 10 doubles, so 63 arguments are
    passed on the stack; whatever the unused halves contain. *)
Definition many : list vararg :=
  [mkVA 0 0 4 SIGNED (text "i"); mkVA 1 1 8 FLOAT (text "d"); mkVA 2 2 8 POINTER (text "p"); mkVA 1 1 8 FLOAT (text "d");
   mkVA 3 3 1 UNSIGNED (text "c"); mkVA 4 4 8 SIGNED (text "l"); mkVA 5 5 4 FLOAT (text "f")]
  ++ repeat (mkVA 1 1 8 FLOAT (text "d")) 7 ++ [mkVA 0 0 4 SIGNED (text "i")].
Definition many_env (n : name) : rvalue :=
  if bytes_eqb n (text "i") then RInt (-5)
  else if bytes_eqb n (text "d") then RDouble 4611686018427387904
  else if bytes_eqb n (text "p") then RPtr 140000000000000 []
  else if bytes_eqb n (text "c") then RInt 200
  else if bytes_eqb n (text "l") then RInt (- 2 ^ 40)
  else RFloat 1065353216.
Lemma many_usual : Forall usual many.
Proof.
  assert (H : forallb (fun a => match va_fmt a with
                                | UNSIGNED | SIGNED => existsb (N.eqb (va_size a)) [1; 2; 4; 8]
                                | FLOAT => existsb (N.eqb (va_size a)) [4; 8]
                                | POINTER => va_size a =? 8
                                | _ => false
                                end) many = true) by crunch.
  rewrite forallb_forall in H. apply Forall_forall. intros a I. specialize (H a I). unfold usual. destruct (va_fmt a); try discriminate.
  - apply existsb_exists in H. destruct H as (k & K & E). apply N.eqb_eq in E. rewrite E. exact K.
  - apply existsb_exists in H. destruct H as (k & K & E). apply N.eqb_eq in E. rewrite E. exact K.
  - apply existsb_exists in H. destruct H as (k & K & E). apply N.eqb_eq in E. rewrite E. exact K.
  - apply N.eqb_eq. exact H.
Qed.
Definition many_acts : list action := Eval vm_compute in match run_stmt many_env (IVars many) with Ok a => a | _ => [] end.
Lemma many_run : run_stmt many_env (IVars many) = Ok many_acts.
Proof. crunch. Qed.
Example C96_ex : run_stmt many_env (IVars many) = Ok many_acts /\
  (forall junk, run_stmt_abi junk many_env (IVars many) = Ok many_acts) /\ List.length many_acts = 60%nat /\
  (let '(g, f, m) := place (fun _ => 7) 4 8 (match mapA (var_args TULong (fun _ => POther) many_env) many with Ok l => l | _ => [] end) in
   (List.length g, List.length f, List.length m)) = (4, 8, 63)%nat.
Proof.
  split; [exact many_run|]. split; [intros junk; apply C96_variables; [exact many_usual|exact many_run]|]. split; crunch.
Qed.

(** By the C standard, however, every call with arguments is undefined: the
    size, a size_t, is fetched as a uint32_t. *)
Theorem C96_standard_refuted : forall ptr env,
  (forall a args, exists u, iso_call TULong ptr env (IVars (a :: args)) = UB u) /\
  (forall a args, exists u, iso_call TULong ptr env (IBlobs (a :: args)) = UB u).
Proof. intros ptr env. split; [apply iso_vars_ub|apply iso_blobs_ub]. Qed.
Print Assumptions C96_standard_refuted.

(** If the sizes were cast to uint32_t, a call would be defined, and do what is
    intended, exactly if its arguments are portable: indices below 2^31,
    unsigned int and unsigned long values that are also values of the signed
    type, pointers to void or characters. *)
Theorem C96_standard_cast : forall ptr env,
  (forall args acts, Forall usual args -> Forall (matches env) args -> run_stmt env (IVars args) = Ok acts ->
     (Forall (portable ptr env) args -> iso_call TUInt ptr env (IVars args) = Ok acts) /\
     (forall r, iso_call TUInt ptr env (IVars args) = Ok r -> Forall (portable ptr env) args)) /\
  (forall args acts, Forall (short_string env) args -> run_stmt env (IBlobs args) = Ok acts ->
     (Forall (portable_blob ptr env) args -> iso_call TUInt ptr env (IBlobs args) = Ok acts) /\
     (forall r, iso_call TUInt ptr env (IBlobs args) = Ok r -> Forall (portable_blob ptr env) args)).
Proof. intros ptr env. split; [apply vars_iso|apply blobs_iso]. Qed.
Print Assumptions C96_standard_cast.
(** An int, a double and a pointer: portable if the pointer is to characters. *)
Example C96_cast_ex : let args := [mkVA 0 0 4 SIGNED (text "i"); mkVA 1 1 8 FLOAT (text "d"); mkVA 2 2 8 POINTER (text "p")] in
  Forall usual args /\ Forall (matches many_env) args /\
  (exists acts, run_stmt many_env (IVars args) = Ok acts /\ iso_call TUInt (fun _ => PChar) many_env (IVars args) = Ok acts) /\
  (exists u, iso_call TUInt (fun _ => POther) many_env (IVars args) = UB u).
Proof.
  intros args.
  split; [constructor; [cbn; auto|constructor; [cbn; auto|constructor; [reflexivity|constructor]]]|].
  split; [constructor; [exact I|constructor; [exact I|constructor; [exact I|constructor]]]|].
  split; [exists (match run_stmt many_env (IVars args) with Ok a => a | _ => [] end); split; crunch|]. exists UUninit. crunch.
Qed.
