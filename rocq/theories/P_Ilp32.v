(** C104: programs for machines with addresses of four bytes, whose logs are read on
    x86-64, and machines with the most significant byte first. *)
From Coq Require Import Strings.String.
From Verif Require Import BaseProofs Types Stream SkipList MemMapSpec Reader Compare PrintPred FormatSpec ReaderMore ReaderProps.
From Verif Require Import Instr InstrRun InstrSpec InstrConc InstrProofs InstrEnd VaArg Ilp32 Ilp32Proofs.

(** The log of a program with any threads passing any places under any schedule, when
    all threads have finished: reading it gives the tables of the program and, in some
    merged order of the passes, the variables with the values that they had. *)
Theorem C104_log_read_back : forall names types code ths, tables_ok names types -> Forall (Forall (event_ok32 names types code)) ths ->
  exists acts, Forall2 (Forall2 (fun e a => event_run32 code e = Ok a)) ths acts /\
    forall s, rsteps (rstart names types (map (@concat action) acts)) s -> Forall (eq []) (r_threads s) ->
    forall ok coins pos t, (forall n, n <= lenN (r_out s) -> ok n = true) ->
    exists order tr, merge ths order /\ read_trace ok (skip_map coins pos) 0 (open_stream (r_out s) t) = Ok tr /\
      tr_names tr = names /\ tr_types tr = types /\ Forall2 (event_shows32 code) order (tr_points tr) /\
      (order <> [] -> r_disk s = lenN (r_out s)).
Proof. exact read_back32. Qed.
Print Assumptions C104_log_read_back.

(** A program reports the allocations [h] (address, size) with __write_buffer_size and
    logs the pointer [p]: the trace gives for it the size that is left of the buffer, if
    the compiler is clang or all addresses are below 2^31. *)
Theorem C104_buffers : forall gcc names types id h a env p s0, tables_ok names types -> id < 2 ^ 64 ->
  item_ok names types (mkItem (va_name a) (va_type a) POINTER 4 (va_expr a)) -> va_fmt a = POINTER -> va_size a = 4 ->
  env (va_expr a) = RPtr p s0 -> p < 2 ^ 32 ->
  Forall (fun r => (gcc = false \/ fst r < 2 ^ 31) /\ fst r < 2 ^ 32 - 1 /\ snd r < 2 ^ 64) h ->
  exists w, run_stmt32 env (IVars [a]) = Ok w /\
  forall bs, bs = written (write_trace_header names types ++ write_trace_id id ++ concat (map (fun r => write_buffer_size32 gcc (fst r) (snd r)) h) ++ w ++ write_end_entry) ->
  forall ok coins pos t, (forall n, n <= lenN bs -> ok n = true) ->
  exists tr q x, read_trace ok (skip_map coins pos) 0 (open_stream bs t) = Ok tr /\ tr_points tr = [q] /\ p_vars q = [x] /\
    v_val x = VBits p /\ pointer_size h p (v_bsz x) (v_has x).
Proof.
  intros gcc names types id h a env p s0 TO HI IO AF AS EV LP HH.
  assert (H1 : Forall (fun r => fst r < 2 ^ 32 - 1 /\ snd r < 2 ^ 64) h) by (eapply Forall_impl; [|exact HH]; intros r X; apply X).
  assert (H2 : map (seen_at gcc) h = h) by (apply seen_same; eapply Forall_impl; [|exact HH]; intros r X; apply X).
  pose proof (buffers32 gcc names types id h a env p s0 TO HI IO AF AS EV LP H1) as X. rewrite H2 in X. exact X.
Qed.
Print Assumptions C104_buffers.

(** Compiled with gcc, no pointer gets a buffer size when the allocations are at 2^31 or
    above, wherever it points to. *)
Theorem C104_buffers_refuted : forall names types id h a env p s0, tables_ok names types -> id < 2 ^ 64 ->
  item_ok names types (mkItem (va_name a) (va_type a) POINTER 4 (va_expr a)) -> va_fmt a = POINTER -> va_size a = 4 ->
  env (va_expr a) = RPtr p s0 -> p < 2 ^ 32 ->
  Forall (fun r => 2 ^ 31 <= fst r /\ fst r < 2 ^ 32 - 1 /\ snd r < 2 ^ 64) h ->
  exists w, run_stmt32 env (IVars [a]) = Ok w /\
  forall bs, bs = written (write_trace_header names types ++ write_trace_id id ++ concat (map (fun r => write_buffer_size32 true (fst r) (snd r)) h) ++ w ++ write_end_entry) ->
  forall ok coins pos t, (forall n, n <= lenN bs -> ok n = true) ->
  exists tr q x, read_trace ok (skip_map coins pos) 0 (open_stream bs t) = Ok tr /\ tr_points tr = [q] /\ p_vars q = [x] /\
    v_val x = VBits p /\ v_bsz x = 0 /\ v_has x = 0.
Proof.
  intros names types id h a env p s0 TO HI IO AF AS EV LP HH.
  assert (H1 : Forall (fun r => fst r < 2 ^ 32 - 1 /\ snd r < 2 ^ 64) h) by (eapply Forall_impl; [|exact HH]; intros r X; apply X).
  assert (H2 : Forall (fun r => 2 ^ 31 <= fst r) h) by (eapply Forall_impl; [|exact HH]; intros r X; apply X).
  destruct (buffers32 true names types id h a env p s0 TO HI IO AF AS EV LP H1) as (w & R & G). exists w. split; [exact R|].
  intros bs EB ok coins pos t OK. destruct (G bs EB ok coins pos t OK) as (tr & q & x & A1 & A2 & A3 & A4 & A5). exists tr, q, x.
  destruct (none_high _ _ _ _ H2 LP A5) as [B1 B2]. auto 6.
Qed.
Print Assumptions C104_buffers_refuted.

(** The number of types in the header, when log and library are on the same machine with
    longs of [long] bytes: it is read as written unless the most significant byte comes
    first and longs have eight bytes. *)
Theorem C104_type_count : forall big long n_types, n_types < 2 ^ 32 -> long = 4 \/ (long = 8 /\ big = false) ->
  count_read big (count_written big long n_types) = n_types.
Proof. exact count_same. Qed.
Print Assumptions C104_type_count.

(** On such a machine every log says that there are no types. *)
Theorem C104_type_count_refuted : forall n_types, n_types < 2 ^ 32 -> count_read true (count_written true 8 n_types) = 0.
Proof. exact count_lost. Qed.
Print Assumptions C104_type_count_refuted.

(** ** Cases *)
Definition c104_names : list name :=
  [text "x"; text "int"; text "y"; text "long long"; text "f"; text "float"; text "p"; text "*int"; text "s"; text "*char"; text "u"; text "unsigned short"]%string.
Definition c104_types : list tdesc := [mkT 1 SIGNED 4; mkT 3 SIGNED 8; mkT 5 FLOAT 4; mkT 7 POINTER 4; mkT 9 BLOB 0; mkT 11 UNSIGNED 2].
Definition c104_code : list (list istmt) :=
  [[IId 7; IVars [mkVA 0 0 4 SIGNED (text "x"); mkVA 2 1 8 SIGNED (text "y"); mkVA 4 2 4 FLOAT (text "f"); mkVA 6 3 4 POINTER (text "p"); mkVA 10 5 2 UNSIGNED (text "u")];
    IBlobs [mkBA 8 4 (text "s")]; IEnd];
   [IId 8; IEnd]]%string.
Definition c104_env (n : name) : rvalue :=
  if bytes_eqb n (text "x") then RInt (-5) else if bytes_eqb n (text "y") then RInt (-2 ^ 40) else if bytes_eqb n (text "f") then RFloat 0x3fc00000
  else if bytes_eqb n (text "p") then RPtr 0xf7001000 [] else if bytes_eqb n (text "u") then RInt 65535 else RString (text "abc").

Example C104_case : tables_ok c104_names c104_types /\
  Forall (Forall (event_ok32 c104_names c104_types c104_code)) [[(0%nat, c104_env); (1%nat, c104_env)]; [(0%nat, c104_env)]].
Proof.
  assert (T : tables_ok c104_names c104_types).
  { split; [|split].
    - repeat constructor; intro X; cbn in X; repeat (destruct X as [X|X]; [discriminate X|]); exact X.
    - repeat constructor; cbn; discriminate.
    - repeat split. }
  assert (E0 : event_ok32 c104_names c104_types c104_code (0%nat, c104_env)).
  { exists 7, [IVars [mkVA 0 0 4 SIGNED (text "x"); mkVA 2 1 8 SIGNED (text "y"); mkVA 4 2 4 FLOAT (text "f"); mkVA 6 3 4 POINTER (text "p"); mkVA 10 5 2 UNSIGNED (text "u")];
      IBlobs [mkBA 8 4 (text "s")]]. split; [reflexivity|]. split; [reflexivity|]. split; [repeat constructor; discriminate|].
    cbn [map items concat app].
    repeat (apply Forall_cons; [split; [split; [reflexivity|split; [reflexivity|split; [reflexivity|split; [cbn; auto 6|eexists; reflexivity]]]]|]|]); [| | | | | |constructor].
    - cbn. lia.
    - cbn. lia.
    - split; [reflexivity|]. split; [reflexivity|]. unfold signalling. vm_compute. intuition discriminate.
    - reflexivity.
    - cbn. lia.
    - reflexivity. }
  assert (E1 : event_ok32 c104_names c104_types c104_code (1%nat, c104_env)).
  { exists 8, []. split; [reflexivity|]. split; [reflexivity|]. split; constructor. }
  split; [exact T|]. repeat constructor; assumption.
Qed.

(** A pointer to a buffer of 16 bytes, low and high. *)
Example C104_case_buffers : exists a env,
  item_ok c104_names c104_types (mkItem (va_name a) (va_type a) POINTER 4 (va_expr a)) /\ va_fmt a = POINTER /\ va_size a = 4 /\ env (va_expr a) = RPtr 0xf7001000 [] /\
  Forall (fun r => 2 ^ 31 <= fst r /\ fst r < 2 ^ 32 - 1 /\ snd r < 2 ^ 64) [(0xf7001000, 16)] /\ pointer_size [(0xf7001000, 16)] 0xf7001000 16 1.
Proof.
  exists (mkVA 6 3 4 POINTER (text "p")), c104_env. split; [|split; [reflexivity|split; [reflexivity|split; [reflexivity|split]]]].
  - repeat split. eexists. reflexivity.
  - constructor; [|constructor]. vm_compute. intuition discriminate.
  - apply (ps_some _ _ 16); [reflexivity| |reflexivity]. change 16 with ((0xf7001000 + 16) mod 2 ^ 64 - 0xf7001000) at 2. apply ans_inside; [|vm_compute; discriminate].
    split; [split; [reflexivity|discriminate]|]. split; [lia|]. intros k v [L _] _. cbn [last_size] in L. destruct (N.eqb_spec 0xf7001000 k); [lia|discriminate].
Qed.
