(** C101: the setup code that the instrumenter appends to a file, as C text, is
    read and run: it sets up the log, the lock and the header.  How C text is
    read and run: SetupRead.v, SetupSem.v; what should happen: SetupStart.v; the
    text: Emit.v (C82); the functions it calls: CText.v (C100). *)
From Coq Require Import Strings.String.
From Verif Require Import BaseProofs Types Stream Compare PrintPred Reader FormatSpec ReaderProps.
From Verif Require Import Instr InstrRun InstrSpec InstrText InstrTable InstrConc InstrProofs InstrEnd P_Instr CRead CParse CSem Emit EmitSpec P_Emit.
From Verif Require Import CText CTextSpec CTextProofs CTextEnd P_CText Dest P_Dest SetupRead SetupSem SetupStart SetupCode SetupRuns.
Notation length := List.length.

(** Any program: sites with variables as in C82, a handshake variable and a log;
    [st_text] is the setup code that is emitted. *)
Definition program (test : name -> name -> bool) (kf : name -> skind) (sites : list site) (handshake : name) (f : trace_file) (env : option name)
  (goes : logfile) (st_text : name) (texts : list name) : Prop :=
  Forall (site_ok kf) sites /\ Forall identifiers sites /\ tells_apart test (all_texts sites) /\ plain_text handshake /\ log_goes f env goes /\
  emits test sites handshake f env st_text texts /\ ~ In x00 handshake /\ named goes.

Lemma types_pass : forall types, exists bs, types_arg file (types_value types) = Ok (VP 0 bs) /\ types_in_memory file types bs.
Proof.
  assert (T : forall types, exists bs, types_bytes file types = Ok bs /\ types_in_memory file types bs).
  { induction types as [|t types (bs & B & l & F & ->)]; [exists []; split; [reflexivity|exists []; split; [constructor|reflexivity]]|].
    assert (E : members (text "__trace_type_description") (c_structs file) = Some [YInt false 4; YInt false 4; YInt false 4]) by (vm_compute; reflexivity).
    assert (X : exists b, type_bytes file t = Ok b /\ type_in_memory file t b).
    { unfold type_bytes, type_in_memory. rewrite E. cbn [known bind convert_all convert]. eexists. split; [reflexivity|]. eexists _, _. split; [reflexivity|]. split; reflexivity. }
    destruct X as (b & X & M). exists (b ++ concat l). cbn [types_bytes]. rewrite X. cbn [bind]. rewrite B. cbn [bind]. split; [reflexivity|]. exists (b :: l). split; [constructor; auto|reflexivity]. }
  intros types. destruct (T types) as (bs & B & M). destruct types as [|t types]; [exists []; split; [reflexivity|exists []; split; [constructor|reflexivity]]|].
  exists bs. split; [|exact M]. unfold types_value, types_arg. rewrite B. reflexivity.
Qed.
Lemma header_written : forall fuel names types, fits names types -> (length names < fuel)%nat ->
  exists tm, types_arg file (types_value types) = Ok tm /\
    call_fun Datatypes.unit (fun _ _ => Abort) fuel file (text "__write_trace_header") [VOut; VLock; names_in_memory names; VI (Z.of_N (lenN names)); tm; VI (Z.of_N (lenN types))] tt
    = Ok (write_trace_header names types).
Proof.
  intros fuel names types (F1 & F2 & _) L. destruct (types_pass types) as (bs & T & M). exists (VP 0 bs). split; [exact T|].
  apply (C100_header file file_read); auto. eapply N.lt_trans; [exact F2|reflexivity].
Qed.

(** The setup code is read, with the macro under which it is compiled, the two
    variables and the priority of the constructor.  When it is run, in any
    surroundings in which the log and the handshake file can be opened: it does
    the handshake if it should, and nothing of it otherwise; opens the log that
    C92 names; initialises the lock; and then writes the header with the names
    and types that the inserted statements refer to. *)
Theorem C101_setup : forall file, compiled file -> forall test kf sites handshake f env goes st_text texts,
  program test kf sites handshake f env goes st_text texts ->
  exists names types code u, reads_program st_text texts (mkSetup names types (lenN names, lenN types) goes handshake) code /\
    instrumented test sites names types (map (map meaning) code) /\
    read_unit st_text = Some u /\ u_macro u = text "__GT_TRACEDB_ENTRY_POINT" /\ u_globals u = [log_var; lock_var] /\ u_priority u = 101 /\
    (fits names types -> forall fuel w d, (length names < fuel)%nat -> (w_waits w < fuel)%nat -> (length (w_reads w) < fuel)%nat -> clean (w_env w) ->
     bi_setup (w_env w) handshake (w_sticky w) (w_reads w) (choice_of goes) = Ok d -> handshake_opens w handshake -> log_opens w d ->
     exists m, (m <= length (w_reads w))%nat /\ run_unit file fuel w u = Ok (started_right w handshake d (write_trace_header names types) m)).
Proof.
  intros file text_read test kf sites h f env g st_text texts (SO & ID & TA & PT & LG & EM & NH & NG). rewrite (the_file file text_read) in *.
  destruct (setup_shape _ _ _ _ _ _ _ _ _ SO ID TA PT LG EM) as (names & types & code & RP & _ & IN & RU).
  exists names, types, code, (setup_unit h g names types (lenN names) (lenN types)). do 6 (split; [assumption || reflexivity|]).
  intros FI fuel w d L1 L2 L3 CL B HO LO. apply run_ok; auto. apply header_written; auto.
Qed.
Print Assumptions C101_setup.

(** Together with C100: the text appended to the file, the text of the functions
    and the inserted statements, all run as C, write a log that is read back as
    what happened. *)
Theorem C101_log_read_back : forall file, compiled file -> forall test kf sites handshake f env goes st_text texts,
  program test kf sites handshake f env goes st_text texts ->
  exists names types code u, reads_program st_text texts (mkSetup names types (lenN names, lenN types) goes handshake) code /\ read_unit st_text = Some u /\
    (fits names types -> forall fuel w d, (length names < fuel)%nat -> (w_waits w < fuel)%nat -> (length (w_reads w) < fuel)%nat -> clean (w_env w) ->
     bi_setup (w_env w) handshake (w_sticky w) (w_reads w) (choice_of goes) = Ok d -> handshake_opens w handshake -> log_opens w d ->
     sites_fit fuel sites -> forall ths, Forall (Forall (event_ok sites)) ths ->
     exists m header acts, run_unit file fuel w u = Ok (started_right w handshake d header m) /\
       (forall junk, Forall2 (Forall2 (fun e a => event_run_text file fuel junk (map (map meaning) code) e = Ok a)) ths acts) /\
       forall s, rsteps (mkR None (written header) 0 (map (@List.concat action) acts)) s -> Forall (eq []) (r_threads s) ->
       forall ok coins pos t, (forall n, n <= lenN (r_out s) -> ok n = true) ->
       exists order tr, merge ths order /\ InstrEnd.reads ok coins pos t 0 (r_out s) = Ok tr /\
         tr_names tr = names /\ tr_types tr = types /\ Forall2 (event_shows sites tr) order (tr_points tr) /\
         (order <> [] -> r_disk s = lenN (r_out s))).
Proof.
  intros file0 text_read test kf sites h f env g st_text texts PR. pose proof PR as (SO & _ & TA & _).
  destruct (C101_setup file0 text_read _ _ _ _ _ _ _ _ _ PR) as (names & types & code & u & RP & IN & RU & _ & _ & _ & RUN).
  exists names, types, code, u. split; [exact RP|]. split; [exact RU|]. intros FI fuel w d L1 L2 L3 CL B HO LO SF ths EO.
  destruct (RUN FI fuel w d L1 L2 L3 CL B HO LO) as (m & _ & R).
  destruct (C100_log_read_back file0 text_read test kf sites names types _ fuel SO TA IN FI SF L1 ths EO) as (header & acts & HD & AC & RD).
  exists m, header, acts. split; [|split; [exact AC|exact RD]]. rewrite R. f_equal. f_equal.
  assert (FL : file0 = file) by (apply the_file; exact text_read). subst file0.
  destruct (types_pass types) as (bs & _ & TM). pose proof (HD Datatypes.unit (fun _ _ => Abort) 0 bs tt TM) as H1.
  rewrite (C100_header file file_read Datatypes.unit (fun _ _ => Abort) fuel names types 0 bs tt) in H1; auto.
  - congruence.
  - apply FI.
  - destruct FI as (_ & F2 & _). eapply N.lt_trans; [exact F2|reflexivity].
Qed.
Print Assumptions C101_log_read_back.

(** If the log cannot be opened, the program does not run without a log: it
    writes the header through a null pointer.  The same if the handshake file
    is there but cannot be read. *)
Theorem C101_unopened_refuted : forall file, compiled file -> forall test kf sites handshake f env goes st_text texts,
  program test kf sites handshake f env goes st_text texts -> exists u, read_unit st_text = Some u /\
  forall fuel w, (w_waits w < fuel)%nat -> (length (w_reads w) < fuel)%nat -> clean (w_env w) ->
  (forall d, bi_setup (w_env w) handshake (w_sticky w) (w_reads w) (choice_of goes) = Ok d -> handshake_opens w handshake -> ~ log_opens w d ->
   run_unit file fuel w u = UB UNull) /\
  (forall p, w_env w handshake = Some p -> w_opens w p (text "r") = false -> run_unit file fuel w u = UB UNull).
Proof.
  intros file text_read test kf sites h f env g st_text texts (SO & ID & TA & PT & LG & EM & NH & NG). rewrite (the_file file text_read) in *.
  destruct (setup_shape _ _ _ _ _ _ _ _ _ SO ID TA PT LG EM) as (names & types & code & RP & _ & IN & RU).
  eexists. split; [exact RU|]. intros fuel w L2 L3 CL. split.
  - intros d B HO LO. eapply run_unopened; eauto.
  - intros p E O. eapply run_no_handshake_file; eauto.
Qed.
Print Assumptions C101_unopened_refuted.

(** It waits as long as the handshake file is not there or has no line, and
    where C92 says that a null pointer is used, one is. *)
Theorem C101_waits : forall file, compiled file -> forall test kf sites handshake f env goes st_text texts,
  program test kf sites handshake f env goes st_text texts -> exists u, read_unit st_text = Some u /\
  forall fuel w, clean (w_env w) ->
  (forall p, w_env w handshake = Some p -> (fuel <= w_waits w)%nat -> run_unit file fuel w u = Diverge) /\
  ((w_waits w < fuel)%nat -> (length (w_reads w) < fuel)%nat -> handshake_opens w handshake ->
   (bi_setup (w_env w) handshake (w_sticky w) (w_reads w) (choice_of goes) = Diverge -> run_unit file fuel w u = Diverge) /\
   (forall x, bi_setup (w_env w) handshake (w_sticky w) (w_reads w) (choice_of goes) = UB x -> run_unit file fuel w u = UB x)).
Proof.
  intros file text_read test kf sites h f env g st_text texts (SO & ID & TA & PT & LG & EM & NH & NG). rewrite (the_file file text_read) in *.
  destruct (setup_shape _ _ _ _ _ _ _ _ _ SO ID TA PT LG EM) as (names & types & code & RP & _ & IN & RU).
  eexists. split; [exact RU|]. intros fuel w CL. split.
  - intros p E L. eapply run_waits; eauto.
  - intros L2 L3 HO. apply run_same; auto. destruct (C92_safe (w_sticky w) (w_reads w)) as [D|(b & _ & D & _)]; eauto.
Qed.
Print Assumptions C101_waits.

(** ** A program *)
Example C101_program_ex : program equal_test ex_kf ex_sites (text "SEL_HANDSHAKE_FILE") (FName (text "/tmp/a ""b""\c")) None (CRead.ToFile (text "/tmp/a ""b""\c")) ex_text
  (fst (instrument_all_t equal_test ex_sites tstate0)).
Proof.
  destruct C82_ex_hyps as (A & B & C & D & E & F). repeat (split; [assumption|]). split; cbn; intuition discriminate.
Qed.
Definition ex_world (hs : bool) : world :=
  mkW (fun x => if hs && bytes_eqb x (text "SEL_HANDSHAKE_FILE") then Some (text "/tmp/hs") else None) 2 (fun _ _ => true) [[]; []; text "/tmp/pi"; text "pe"; []] false.
(** With a handshake: two waits, two reads that meet the end of the file. *)
Example C101_run_ex : exists u, read_unit ex_text = Some u /\
  run_unit file 20 (ex_world true) u = Ok (started_right (ex_world true) (text "SEL_HANDSHAKE_FILE") (DFile (text "/tmp/a ""b""\c")) (write_trace_header ex_names ex_types) 2) /\
  run_unit file 20 (ex_world false) u = Ok (started_right (ex_world false) (text "SEL_HANDSHAKE_FILE") (DFile (text "/tmp/a ""b""\c")) (write_trace_header ex_names ex_types) 0) /\
  List.length (d_events (started_right (ex_world true) (text "SEL_HANDSHAKE_FILE") (DFile (text "/tmp/a ""b""\c")) (write_trace_header ex_names ex_types) 2)) = 17%nat.
Proof. eexists. split; [vm_compute; reflexivity|]. split; [vm_compute; reflexivity|]. split; vm_compute; reflexivity. Qed.
(** The hypotheses on the surroundings hold of this one. *)
Example C101_world_ex : clean (w_env (ex_world true)) /\ handshake_opens (ex_world true) (text "SEL_HANDSHAKE_FILE") /\ log_opens (ex_world true) (DFile (text "/tmp/a ""b""\c")) /\
  bi_setup (w_env (ex_world true)) (text "SEL_HANDSHAKE_FILE") false (w_reads (ex_world true)) (ToFile (text "/tmp/a ""b""\c")) = Ok (DFile (text "/tmp/a ""b""\c")) /\
  bi_setup (w_env (ex_world true)) (text "SEL_HANDSHAKE_FILE") false (w_reads (ex_world true)) ToBuffer = Ok (DFile (text "/tmp/pipe")).
Proof.
  split; [|split; [intros p E; reflexivity|split; [reflexivity|split; vm_compute; reflexivity]]].
  intros x v E. cbn [ex_world w_env] in E. destruct (true && bytes_eqb x (text "SEL_HANDSHAKE_FILE")); [|discriminate E]. injection E as <-. cbn. intuition discriminate.
Qed.
