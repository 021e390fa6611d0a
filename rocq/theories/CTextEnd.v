(** Proofs for C100: memory, endless loops, programs. *)
From Coq Require Import Strings.String.
From Coq Require Import ZArith Lia.
From Verif Require Import BaseProofs InstrProofs VaProofs Types Compare PrintPred Instr InstrRun InstrSpec VaArg VaSpec CText CRead CParse CSem Names.
From Verif Require Import CTextSpec CTextProofs CTextRuns.

Lemma the_file : forall f, parse_c forward_declarations implementation = Some f -> f = file.
Proof. intros f H. rewrite file_read in H. symmetry. congruence. Qed.

Lemma types_memory : forall types tm, types_in_memory file types tm ->
  tm = concat (map (fun t => le_bytes 4 (t_name t) ++ le_bytes 4 (fmt_code (t_fmt t)) ++ le_bytes 4 (t_size t)) types).
Proof.
  intros types tm (l & F & ->). induction F as [|t b types l H F IH]; [reflexivity|]. cbn [concat map]. rewrite IH. f_equal. clear - H.
  destruct H as (ms & ws & M & C & B).
  assert (E : ms = [YInt false 4; YInt false 4; YInt false 4]).
  { assert (X : members (text "__trace_type_description") (c_structs file) = Some [YInt false 4; YInt false 4; YInt false 4]) by (vm_compute; reflexivity).
    rewrite X in M. congruence. }
  subst ms. cbn [convert_all convert bind] in C. apply ok_inj in C. subst ws.
  cbn [struct_bytes scalar_size scalar_bytes bind] in B. rewrite !int_bytes_wrap, !int_bytes_N in B.
  change (N.to_nat 4) with 4%nat in B. apply ok_inj in B. rewrite <- B. rewrite app_nil_r. reflexivity.
Qed.

Section Endless.
Variable St X : Type.
Variable cond : state St -> outcome (bool * state St).
Variable body : state St -> outcome (flow * state St).
Variable after : state St -> outcome (state St).
Variable mk : N -> X -> state St.
Variable step : N -> X -> outcome X.
Hypothesis cond_in : forall i x, i < 2 ^ 32 -> cond (mk i x) = Ok (true, mk i x).
Hypothesis body_step : forall i x, i < 2 ^ 32 -> body (mk i x) = bind (step i x) (fun x => Ok (Next, mk i x)).
Hypothesis after_step : forall i x, i < 2 ^ 32 -> after (mk i x) = Ok (mk ((i + 1) mod 2 ^ 32) x).
Lemma loop_never : forall fuel i x r, i < 2 ^ 32 -> loop St cond body after fuel (mk i x) <> Ok r.
Proof.
  induction fuel as [|fuel IH]; intros i x r I; cbn [loop]; [discriminate|]. rewrite cond_in by exact I. cbn [bind]. rewrite body_step by exact I.
  destruct (step i x) as [y| | | |]; cbn [bind]; try discriminate. rewrite after_step by exact I. cbn [bind]. apply IH. apply N.mod_lt. discriminate.
Qed.
Hypothesis step_ok : forall i x, i < 2 ^ 32 -> exists y, step i x = Ok y.
Lemma loop_diverges : forall fuel i x, i < 2 ^ 32 -> loop St cond body after fuel (mk i x) = Diverge.
Proof.
  induction fuel as [|fuel IH]; intros i x I; cbn [loop]; [reflexivity|]. rewrite cond_in by exact I. cbn [bind]. rewrite body_step by exact I.
  destruct (step_ok i x I) as [y ->]. cbn [bind]. rewrite after_step by exact I. cbn [bind]. apply IH. apply N.mod_lt. discriminate.
Qed.
End Endless.

Lemma binary_inc_wraps : forall a, a < 2 ^ 32 ->
  exists z, binary OAdd (YInt false 4, VI (Z.of_N a)) (YInt true 4, VI 1) = Ok (YInt false 4, VI z) /\ wrap false 4 z = Z.of_N ((a + 1) mod 2 ^ 32).
Proof.
  intros a A. exists (wrap false 4 (Z.of_N a + 1)). split.
  - unfold binary. cbn [fst snd common promote bind N.ltb N.compare Pos.compare Pos.compare_cont N.eqb Pos.eqb andb convert arith].
    rewrite wrap4 by lia. change (wrap false 4 1) with 1%Z. reflexivity.
  - rewrite wrap_idem. unfold wrap. cbn [andb]. rewrite N2Z.inj_mod, N2Z.inj_add. reflexivity.
Qed.

Ltac opaque := lazy -[wrap int_of_bits int_bytes chunk binary narrow le_bytes app same_case Z.of_N string_at element lenN loop Z.to_N N.add Z.add name].
Section Var.
Variable St : Type.
Variable next : aty -> St -> outcome (N * list byte * St).
Ltac start f := unfold call_fun;
  match goal with |- context [find_fun ?f ?l] => let r := eval vm_compute in (find_fun f l) in change (find_fun f l) with r end;
  cbv beta iota; cbn [f_params map fst convert_all convert bind N.eqb Pos.eqb combine rev app snd f_body];
  change (c_structs file) with structs; change (c_consts file) with consts.
Ltac simple := erewrite run_seq; [|opaque; reflexivity]; cbn [bind].
Ltac both := match goal with |- context [next ?y ?s] => destruct (next y s) as [[[? ?] ?]| | | |]; cbn [bind]; try reflexivity end.

Lemma vars_never : forall fuel n st acts, delivers_ints next -> 2 ^ 32 <= n < 2 ^ 64 ->
  call_fun St next fuel file (text "__write_trace_variables") [VOut; VI (Z.of_N n)] st <> Ok acts /\
  call_fun St next fuel file (text "__write_trace_blobs") [VOut; VI (Z.of_N n)] st <> Ok acts.
Proof.
  intros fuel n st acts small [L L']. split.
  - start tt. rewrite wrap8 by lia. do 3 simple.
    rewrite run_seq_bind. erewrite run_for; [|opaque; reflexivity].
    match goal with |- context [exec ?a ?b ?c ?d ?e ?f Go ?w] => change w with vars_round end.
    change (wrap false 4 (Z.of_N 0)) with (Z.of_N 0).
    match goal with |- context [loop _ ?c ?b ?a _ ?s] => change s with (vars_mk St n 0 (st, @nil action));
      assert (NV := loop_never St (St * list action) c b a (vars_mk St n) (vars_step St next)) end.
    match goal with |- context [loop _ ?c ?b ?a ?f ?s] => destruct (loop St c b a f s) as [y| | | |] eqn:E; cbn [bind]; try discriminate end.
    exfalso. revert E. apply NV; [..|reflexivity].
    + intros i x I. opaque. rewrite binary_lt by lia. rewrite (proj2 (N.ltb_lt i n)) by lia. reflexivity.
    + intros i [st' a'] I. unfold vars_mk; cbn [fst snd]. rewrite vars_round_runs by exact small. unfold vars_step. both. both. both. both.
      match goal with |- context [fetch_value St next ?f ?n ?s] => destruct (fetch_value St next f n s) as [[w st'']| | | |]; cbn [bind]; reflexivity end.
    + intros i x I. destruct (binary_inc_wraps i I) as (z & B & W). opaque. rewrite B. opaque. rewrite W. reflexivity.
  - start tt. rewrite wrap8 by lia. do 3 simple.
    rewrite run_seq_bind. erewrite run_for; [|opaque; reflexivity].
    match goal with |- context [exec ?a ?b ?c ?d ?e ?f Go ?w] => change w with blobs_round end.
    change (wrap false 4 (Z.of_N 0)) with (Z.of_N 0).
    match goal with |- context [loop _ ?c ?b ?a _ ?s] => change s with (vars_mk St n 0 (st, @nil action));
      assert (NV := loop_never St (St * list action) c b a (vars_mk St n) (blobs_step St next)) end.
    match goal with |- context [loop _ ?c ?b ?a ?f ?s] => destruct (loop St c b a f s) as [y| | | |] eqn:E; cbn [bind]; try discriminate end.
    exfalso. revert E. apply NV; [..|reflexivity].
    + intros i x I. opaque. rewrite binary_lt by lia. rewrite (proj2 (N.ltb_lt i n)) by lia. reflexivity.
    + intros i [st' a'] I. unfold vars_mk; cbn [fst snd]. rewrite blobs_round_runs by exact small. unfold blobs_step. both. both. both. both.
      match goal with |- context [if ?c then UB UOob else _] => destruct c end; reflexivity.
    + intros i x I. destruct (binary_inc_wraps i I) as (z & B & W). opaque. rewrite B. opaque. rewrite W. reflexivity.
Qed.

Ltac opaque3 := lazy -[wrap int_of_bits int_bytes chunk binary le_bytes app Z.of_N string_at element lenN loop Z.to_N N.add Z.add total_size add64 c_string name].
Ltac simple3 := erewrite run_seq; [|opaque3; reflexivity]; cbn [bind].
Lemma header_diverges : forall fuel names tm ta nt st, 2 ^ 32 <= lenN names < 2 ^ 64 -> nt < 2 ^ 64 ->
  call_fun St next fuel file (text "__write_trace_header")
    [VOut; VLock; names_in_memory names; VI (Z.of_N (lenN names)); VP ta tm; VI (Z.of_N nt)] st = Diverge.
Proof.
  intros fuel names tm ta nt st [L L'] T. unfold names_in_memory. remember (map (fun n => n ++ [x00]) names) as mem eqn:MEM. start tt. rewrite !wrap8 by lia.
  do 3 simple3. change (wrap false 8 (Z.of_N 0)) with (Z.of_N 0). change (wrap false 4 (Z.of_N 0)) with (Z.of_N 0).
  rewrite run_seq_bind. erewrite run_for; [|opaque3; reflexivity]. change (wrap false 4 (Z.of_N 0)) with (Z.of_N 0).
  match goal with |- context [loop _ _ _ _ _ ?s] => change s with (size_mk St mem (lenN names) nt ta tm st ([] ++ [ALock]) 0 0) end.
  rewrite (loop_diverges St N _ _ _ (size_mk St mem (lenN names) nt ta tm st ([] ++ [ALock])) (size_step names)); [reflexivity|..|reflexivity].
  - intros i x I. opaque3. rewrite binary_lt by lia. rewrite (proj2 (N.ltb_lt i (lenN names))) by lia. reflexivity.
  - intros i x I. rewrite run_block. unfold size_mk, head_vars. destruct (nthN_lt _ names i ltac:(lia)) as [n E]. assert (EL := element_at names i n E). rewrite <- MEM in EL.
    erewrite run_seq.
    2:{ eapply run_expr. eapply eval_add_to.
        - erewrite eval_bin; [|erewrite eval_call1; [|reflexivity|opaque3; rewrite EL; reflexivity]; apply call_strlen|reflexivity].
          rewrite binary_add1. reflexivity.
        - reflexivity.
        - apply binary_add8.
        - reflexivity. }
    cbn [bind]. rewrite run_skip. unfold size_step. rewrite E. cbn [bind snd]. rewrite wrap8; [reflexivity|].
    unfold add64. apply N.mod_lt. discriminate.
  - intros i x I. destruct (binary_inc_wraps i I) as (z & B & W). opaque3. rewrite B. opaque3. rewrite W. reflexivity.
  - intros i x I. unfold size_step. destruct (nthN_lt _ names i ltac:(lia)) as [n ->]. eauto.
Qed.
End Var.

(** ** Programs *)
Lemma va_arg_ints : delivers_ints va_arg.
Proof.
  intros y st b m st' H Y. unfold va_arg in H.
  match type of H with bind ?o _ = _ => destruct o as [[w ap]| | | |]; cbn [bind] in H; try discriminate end.
  assert (b = fst w mod 2 ^ 32) as -> by (destruct Y as [-> | ->]; congruence). apply N.mod_lt. discriminate.
Qed.
Definition stmt_fits (fuel : nat) (s : istmt) : Prop :=
  match s with
  | IId id => id < 2 ^ 64
  | IVars l => lenN l < 2 ^ 32 /\ (length l < fuel)%nat
  | IBlobs l => lenN l < 2 ^ 32 /\ (length l < fuel)%nat
  | IEnd => True
  end.
Lemma stmt_text : forall fuel junk env s, stmt_fits fuel s -> run_stmt_text file fuel junk env s = run_stmt_abi junk env s.
Proof.
  intros fuel junk env s F. destruct s as [id|l|l|]; cbn [run_stmt_text run_stmt_abi stmt_fits] in *.
  - apply id_runs. exact F.
  - destruct (mapA _ l); cbn [bind]; try reflexivity. rewrite vars_runs; [|exact va_arg_ints|tauto|unfold lenN; rewrite Nat2N.id; tauto]. unfold lenN. rewrite Nat2N.id. reflexivity.
  - destruct (mapA _ l); cbn [bind]; try reflexivity. rewrite blobs_runs; [|exact va_arg_ints|tauto|unfold lenN; rewrite Nat2N.id; tauto]. unfold lenN. rewrite Nat2N.id. reflexivity.
  - apply end_runs.
Qed.
Lemma stmts_text : forall fuel env l junk, Forall (stmt_fits fuel) l -> run_stmts_text file fuel junk env l = run_stmts_abi junk env l.
Proof.
  intros fuel env l. induction l as [|s l IH]; intros junk F; cbn [run_stmts_text run_stmts_abi]; [reflexivity|]. inversion F; subst.
  rewrite stmt_text by assumption. rewrite IH by assumption. reflexivity.
Qed.
Lemma vars_count : forall test l ps st vs bs st', instrument_vars test l ps st = (vs, bs, st') -> (length vs <= length l /\ length bs <= length l)%nat.
Proof.
  intros test l. induction l as [|[n t] l IH]; intros ps st vs bs st' E; cbn [instrument_vars] in E; [inversion E; cbn; lia|].
  destruct (instrument_var test n t ps st) as [[v1 b1] st1] eqn:E1. destruct (instrument_vars test l ps st1) as [[v2 b2] st2] eqn:E2. inversion E; subst.
  apply IH in E2. rewrite !app_length. cbn [length].
  assert (length v1 <= 1 /\ length b1 <= 1)%nat; [|lia].
  unfold instrument_var in E1. destruct (type_format_and_size t ps) as [[f size]|]; [|inversion E1; cbn; lia].
  destruct (get_type_index test t f size ps st) as [ti st3]. destruct (get_name_index test n st3) as [ni st4].
  destruct (ps && c_string_type_p t)%bool; [inversion E1; cbn; lia|]. destruct (ps && cpp_string_type_p t)%bool; inversion E1; cbn; lia.
Qed.
Lemma all_fit : forall test fuel sites st code st', instrument_all test sites st = (code, st') -> sites_fit fuel sites -> Forall (Forall (stmt_fits fuel)) code.
Proof.
  intros test fuel sites. induction sites as [|[id gs] sites IH]; intros st code st' E F; cbn [instrument_all] in E; [inversion E; constructor|].
  destruct (instrument_ast test id gs st) as [s1 st1] eqn:E1. destruct (instrument_all test sites st1) as [s2 st2] eqn:E2. inversion E; subst.
  inversion F as [|? ? [I G] F']; subst. constructor; [|eapply IH; eauto]. unfold instrument_ast in E1. destruct (extra_stmts test gs st) as [x st3] eqn:E3. inversion E1; subst.
  constructor; [exact I|]. apply Forall_app. split; [|repeat constructor]. cbn [snd] in G. clear - E3 G. match type of E3 with _ = (_, ?s) => revert st x s E3 end.
  induction gs as [|[ps g] gs IH]; intros st l st' E; cbn [extra_stmts] in E; [inversion E; constructor|].
  destruct (instrument_c_exprs test g ps st) as [s1 st1] eqn:E1. destruct (extra_stmts test gs st1) as [s2 st2] eqn:E2. inversion E; subst. inversion G as [|? ? [G1 G2] G']; subst. cbn [snd] in *.
  apply Forall_app. split; [|eapply IH; eauto]. unfold instrument_c_exprs in E1. destruct (instrument_vars test g ps st) as [[vs bs] st4] eqn:E4. inversion E1; subst.
  apply vars_count in E4. unfold lenN in G1.
  apply Forall_app. split; [destruct vs; [constructor|]|destruct bs; [constructor|]]; (constructor; [|constructor]); cbn [stmt_fits]; unfold lenN; split; lia.
Qed.
Lemma program_text : forall test sites names types code fuel junk e acts,
  instrumented test sites names types code -> sites_fit fuel sites ->
  event_run_abi junk code e = Ok acts -> event_run_text file fuel junk code e = Ok acts.
Proof.
  intros test sites names types code fuel junk e acts (st & nal & tal & E & _) F R. unfold event_run_abi, event_run_text in *.
  assert (A := all_fit _ _ _ _ _ _ E F). destruct (nth_error code (fst e)) as [c|] eqn:N; [|discriminate]. apply nth_error_In in N. rewrite Forall_forall in A.
  rewrite stmts_text by (apply A; exact N). exact R.
Qed.
