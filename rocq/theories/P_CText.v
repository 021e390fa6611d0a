(** Property C100: the C functions that write the log, read from their text as
    a C compiler reads them, do what InstrRun.v and VaArg.v say.
    [forward_declarations] and [implementation] are the texts that are put
    into instrumented files; [parse_c] reads them; [call_fun] is a call. *)
From Coq Require Import Strings.String.
From Coq Require Import ZArith Lia.
From Verif Require Import BaseProofs Types Stream SkipList AMap MemMapSpec Reader Compare PrintPred FormatSpec ReaderMore ReaderProps.
From Verif Require Import Instr InstrRun InstrSpec InstrText InstrTable InstrConc InstrProofs InstrEnd.
From Verif Require Import P_Instr VaArg VaSpec VaProofs P_VaArg Emit Names CText CRead CParse CSem CTextSpec CTextProofs CTextRuns CTextEnd.

(** The text is read, whole. *)
Theorem C100_read : exists file, parse_c forward_declarations implementation = Some file /\
  map fst (c_structs file) = [text "__trace_type_description"; text "__trace_buffer_size"] /\
  map fst (c_funs file) = [text "__write_trace_header"; text "__write_trace_id"; text "__write_end_entry";
    text "__write_trace_variables"; text "__write_trace_blobs"; text "__write_buffer_size"] /\
  (* every function is as it was declared at the top of the file *)
  (exists ds, lex forward_declarations = Some ds /\
    prototyped (typedefs ds) ds = map (fun p => (fst p, (f_params (snd p), f_dots (snd p)))) (c_funs file)).
Proof.
  exists file. split; [exact file_read|]. split; [vm_compute; reflexivity|]. split; [vm_compute; reflexivity|].
  eexists. split; vm_compute; reflexivity.
Qed.
Print Assumptions C100_read.

(** The logging functions, as read from the text. *)
Definition compiled (file : cfile) : Prop := parse_c forward_declarations implementation = Some file.

(** The functions without variable arguments. *)
Theorem C100_id : forall file, compiled file -> forall St next fuel id (st : St), id < 2 ^ 64 ->
  call_fun St next fuel file (text "__write_trace_id") [VOut; VLock; VI (Z.of_N id)] st = Ok (write_trace_id id).
Proof. intros file text_read St next fuel id st H. rewrite (the_file file text_read). apply id_runs. exact H. Qed.
Print Assumptions C100_id.

Theorem C100_end : forall file, compiled file -> forall St next fuel (st : St),
  call_fun St next fuel file (text "__write_end_entry") [VOut; VLock] st = Ok write_end_entry.
Proof. intros file text_read St next fuel st. rewrite (the_file file text_read). apply end_runs. Qed.
Print Assumptions C100_end.

Theorem C100_buffer_size : forall file, compiled file -> forall St next fuel addr m size (st : St), addr < 2 ^ 64 -> size < 2 ^ 64 ->
  call_fun St next fuel file (text "__write_buffer_size") [VOut; VP addr m; VI (Z.of_N size)] st = Ok (write_buffer_size addr size).
Proof. intros file text_read St next fuel addr m size st A B. rewrite (the_file file text_read). apply buffer_runs; assumption. Qed.
Print Assumptions C100_buffer_size.

Theorem C100_header : forall file, compiled file -> forall St next fuel names types addr tm (st : St),
  lenN names < 2 ^ 32 -> lenN types < 2 ^ 64 -> (List.length names < fuel)%nat -> types_in_memory file types tm ->
  call_fun St next fuel file (text "__write_trace_header")
    [VOut; VLock; names_in_memory names; VI (Z.of_N (lenN names)); VP addr tm; VI (Z.of_N (lenN types))] st
  = Ok (write_trace_header names types).
Proof. intros file text_read St next fuel names types addr tm st A B C D. rewrite (the_file file text_read) in *. apply header_runs; try assumption. apply types_memory. exact D. Qed.
Print Assumptions C100_header.

(** The functions with variable arguments, for every way in which va_arg
    fetches these, also if it fails. *)
Theorem C100_variables : forall file, compiled file -> forall St next fuel n (st : St), delivers_ints next -> n < 2 ^ 32 -> (N.to_nat n < fuel)%nat ->
  call_fun St next fuel file (text "__write_trace_variables") [VOut; VI (Z.of_N n)] st = c_write_trace_variables St next (N.to_nat n) st.
Proof. intros file text_read St next fuel n st D A B. rewrite (the_file file text_read). apply vars_runs; assumption. Qed.
Print Assumptions C100_variables.

Theorem C100_blobs : forall file, compiled file -> forall St next fuel n (st : St), delivers_ints next -> n < 2 ^ 32 -> (N.to_nat n < fuel)%nat ->
  call_fun St next fuel file (text "__write_trace_blobs") [VOut; VI (Z.of_N n)] st = c_write_trace_blobs St next (N.to_nat n) st.
Proof. intros file text_read St next fuel n st D A B. rewrite (the_file file text_read). apply blobs_runs; assumption. Qed.
Print Assumptions C100_blobs.

(** With 2^32 names or more the header is never finished, with 2^32 variables or
    more the call never returns: the counter of the loops has 32 bits, the
    number has 64. *)
Theorem C100_header_refuted : forall file, compiled file -> forall St next fuel names tm addr nt (st : St), 2 ^ 32 <= lenN names < 2 ^ 64 -> nt < 2 ^ 64 ->
  call_fun St next fuel file (text "__write_trace_header")
    [VOut; VLock; names_in_memory names; VI (Z.of_N (lenN names)); VP addr tm; VI (Z.of_N nt)] st = Diverge.
Proof. intros file text_read St next fuel names tm addr nt st A B. rewrite (the_file file text_read). apply header_diverges; assumption. Qed.
Print Assumptions C100_header_refuted.
Theorem C100_variables_refuted : forall file, compiled file -> forall St next fuel n (st : St) acts, delivers_ints next -> 2 ^ 32 <= n < 2 ^ 64 ->
  call_fun St next fuel file (text "__write_trace_variables") [VOut; VI (Z.of_N n)] st <> Ok acts /\
  call_fun St next fuel file (text "__write_trace_blobs") [VOut; VI (Z.of_N n)] st <> Ok acts.
Proof. intros file text_read St next fuel n st acts D A. rewrite (the_file file text_read). apply vars_never; assumption. Qed.
Print Assumptions C100_variables_refuted.

(** Instrumented programs: what the inserted calls do by the text is what
    InstrRun.v says (cf. C96). *)
Theorem C100_program : forall file, compiled file -> forall test sites names types code fuel junk e acts,
  instrumented test sites names types code -> sites_fit fuel sites ->
  event_run code e = Ok acts -> event_run_text file fuel junk code e = Ok acts.
Proof.
  intros file text_read test sites names types code fuel junk e acts IN FI R. rewrite (the_file file text_read). eapply program_text; eauto.
  eapply C96_program; eauto.
Qed.
Print Assumptions C100_program.

(** So the log, written by the functions in the text, is read back as what
    happened (cf. C41, C96). *)
Theorem C100_log_read_back : forall file, compiled file -> forall test kf sites names types code fuel,
  Forall (site_ok kf) sites -> tells_apart test (all_texts sites) ->
  instrumented test sites names types code -> fits names types -> sites_fit fuel sites -> (List.length names < fuel)%nat ->
  forall ths, Forall (Forall (event_ok sites)) ths ->
  exists header acts,
    (forall St next addr tm (st : St), types_in_memory file types tm ->
       call_fun St next fuel file (text "__write_trace_header")
         [VOut; VLock; names_in_memory names; VI (Z.of_N (lenN names)); VP addr tm; VI (Z.of_N (lenN types))] st = Ok header) /\
    (forall junk, Forall2 (Forall2 (fun e a => event_run_text file fuel junk code e = Ok a)) ths acts) /\
    forall s, rsteps (mkR None (written header) 0 (map (@List.concat action) acts)) s -> Forall (eq []) (r_threads s) ->
    forall ok coins pos t, (forall n, n <= lenN (r_out s) -> ok n = true) ->
    exists order tr, merge ths order /\ reads ok coins pos t 0 (r_out s) = Ok tr /\
      tr_names tr = names /\ tr_types tr = types /\ Forall2 (event_shows sites tr) order (tr_points tr) /\
      (order <> [] -> r_disk s = lenN (r_out s)).
Proof.
  intros file text_read test kf sites names types code fuel SO TA IN FI SF LF ths EO.
  destruct (C41_log_read_back test kf sites names types code SO TA IN FI ths EO) as (acts & A & R).
  exists (write_trace_header names types), acts. split; [|split; [|exact R]].
  - intros St next addr tm st TM. destruct FI as (F1 & F2 & _). apply C100_header; auto. eapply N.lt_trans; [exact F2|reflexivity].
  - intros junk. clear - A IN SF text_read. induction A as [|es xs ths acts H A IH]; constructor; [|exact IH].
    induction H; constructor; auto. eapply C100_program; eauto.
Qed.
Print Assumptions C100_log_read_back.

(** Concrete runs of the text. *)
Lemma compiled_file : compiled file.
Proof. exact file_read. Qed.
(** The many variables of P_VaArg.v: more arguments than there are registers.
    And blobs. *)
Example C100_ex : run_stmt many_env (IVars many) = Ok many_acts /\ (run_stmt_text file 16 (fun _ => 99) many_env (IVars many) = Ok many_acts) /\
  List.length many_acts = 60%nat /\ run_stmt_text file 15 (fun _ => 99) many_env (IVars many) = Diverge.
Proof. split; [exact many_run|]. split; [vm_compute; reflexivity|]. split; vm_compute; reflexivity. Qed.
Example C100_blob_ex : run_stmt_text file 2 (fun _ => 99) (fun _ => RPtr 64 (text "hi")) (IBlobs [mkBA 3 1 (text "s")]) =
  run_stmt (fun _ => RPtr 64 (text "hi")) (IBlobs [mkBA 3 1 (text "s")]) /\
  exists acts, run_stmt (fun _ => RPtr 64 (text "hi")) (IBlobs [mkBA 3 1 (text "s")]) = Ok acts /\ List.length acts = 5%nat.
Proof. split; [vm_compute; reflexivity|]. eexists. split; vm_compute; reflexivity. Qed.
Example C100_header_ex : types_in_memory file [mkT 1 SIGNED 4; mkT 3 BLOB 0] (le_bytes 4 1 ++ le_bytes 4 1 ++ le_bytes 4 4 ++ le_bytes 4 3 ++ le_bytes 4 4 ++ le_bytes 4 0) /\
  call_fun unit (fun _ _ => Abort) 5 file (text "__write_trace_header")
    [VOut; VLock; names_in_memory [text "ab"; text "c"; text "d"; text "e"]; VI 4; VP 64 (le_bytes 4 1 ++ le_bytes 4 1 ++ le_bytes 4 4 ++ le_bytes 4 3 ++ le_bytes 4 4 ++ le_bytes 4 0); VI 2] tt
  = Ok (write_trace_header [text "ab"; text "c"; text "d"; text "e"] [mkT 1 SIGNED 4; mkT 3 BLOB 0]).
Proof.
  split.
  - exists [le_bytes 4 1 ++ le_bytes 4 1 ++ le_bytes 4 4; le_bytes 4 3 ++ le_bytes 4 4 ++ le_bytes 4 0]. split; [|vm_compute; reflexivity].
    constructor; [|constructor; [|constructor]]; do 2 eexists; (split; [vm_compute; reflexivity|]); split; vm_compute; reflexivity.
  - vm_compute. reflexivity.
Qed.
Example C100_ints_ex : delivers_ints va_arg.
Proof. exact va_arg_ints. Qed.
Example C100_program_ex : compiled file /\ sites_fit 5 ex_sites /\ (List.length ex_names < 20)%nat /\ sites_fit 20 ex_sites /\
  exists a, event_run ex_code (0%nat, ex_env (-3)) = Ok a /\ forall junk, event_run_text file 5 junk ex_code (0%nat, ex_env (-3)) = Ok a.
Proof.
  assert (F : forall n, (4 < n)%nat -> sites_fit n ex_sites).
  { intros n L. repeat constructor; cbn [snd List.length]; lia. }
  split; [exact file_read|]. split; [apply F; lia|]. split; [cbn; lia|]. split; [apply F; lia|]. eexists. split; [vm_compute; reflexivity|].
  intros junk. eapply C100_program; [exact file_read|exact (proj1 ex_instrumented)|apply F; lia|vm_compute; reflexivity].
Qed.
