(** Properties C60 - C63: collecting the traces of the executions of a test
    case.  A state [s] with [reach c s] is one that some interleaving of the
    collector, the test process and the executions leads to; [c_got s] are the
    traces added to the database so far, [cf_runs c] the logs that the
    executions write, in the order in which they start. *)
From Coq Require Import List Bool Arith Lia Sorted.
From Verif Require Import Base Types Stream SkipList Reader FormatSpec ReaderProps P_Reader Handshake HandshakeSpec HandshakeProofs HandshakeProofs2 HandshakeProofs3.
Import ListNotations.
Open Scope nat_scope.

(** A reader that reads whole logs and accepts those that are not empty, and a
    reader that is satisfied with two pieces. *)
Definition whole : reader := mkR (fun _ => None) (fun l => match l with [] => false | _ => true end).
Definition two : reader := mkR (fun l => if 2 <=? length l then Some true else None) (fun l => match l with [] => false | _ => true end).

Definition log1 : list chunk := [[x01]; [x02]; [x03]].
Definition log2 : list chunk := [[x11]; [x12]].

Ltac run w := apply (go_from_start _ w); vm_compute; reflexivity.

(** One complete collection, for execution [j]. *)
Definition round (j k : nat) : list lab := [GC; GS; GP j; GP j; GC; GP j; GP j; GC; GC; GP j] ++ repeat (GP j) k ++ [GP j; GC].

(** C60.  If the executions run one after the other, every trace comes from one
    execution: it is its log, or, if the reader stopped early or the execution
    died, a beginning of it; different traces come from different executions,
    in the order of the executions.  Whatever else happens: processes may die at
    any moment, timeouts may expire. *)
Theorem C60_matched : forall c s, cf_par c = false -> reach c s ->
  exists js, StronglySorted lt js /\
    Forall2 (fun t j => exists log, nth_error (cf_runs c) j = Some log /\ begins t log /\
      (t = log \/ rd_early (cf_reader c) t = Some true \/ cf_die c = true)) (c_got s) js.
Proof.
  intros c s HPar HR. destruct (cf_old c) eqn:HO.
  - destruct (inv_old_reach c s HO HR) as (_ & _ & -> & _). exists []. split; constructor.
  - destruct (inv_reach c s HPar HO HR) as [(js & _ & _ & _ & _ & HS & _ & HF & _)]. exists js. split; [exact HS|].
    induction HF as [|t j ts js (log & HN & HB & HE) _ IH]; [constructor|].
    constructor; [|apply IH; apply StronglySorted_inv in HS; apply HS].
    exists log. split; [exact HN|]. split; [exact HB|]. destruct HE as [(_ & _ & HE)|HE]; [|auto].
    destruct (cf_die c); auto.
Qed.
Print Assumptions C60_matched.

(** If moreover no process dies, no execution is left out: trace number k is the
    log of execution number k. *)
Theorem C60_in_order : forall c s k t, cf_par c = false -> cf_die c = false -> reach c s ->
  nth_error (c_got s) k = Some t ->
  exists log, nth_error (cf_runs c) k = Some log /\ begins t log /\ (t = log \/ rd_early (cf_reader c) t = Some true).
Proof.
  intros c s k t HPar HDie HR HN. destruct (cf_old c) eqn:HO.
  - destruct (inv_old_reach c s HO HR) as (_ & _ & E & _). rewrite E in HN. destruct k; discriminate HN.
  - destruct (inv_reach c s HPar HO HR) as [(js & _ & _ & _ & _ & HS & _ & HF & _ & _ & _ & HJ)]. specialize (HJ HDie).
    assert (HK : nth_error js k = Some k).
    { rewrite HJ. assert (k < length (c_got s)) by (apply nth_error_Some; congruence).
      rewrite (nth_error_nth' _ 0) by (rewrite seq_length; exact H). rewrite seq_nth by exact H. reflexivity. }
    clear HJ HS. revert k t js HF HN HK. induction (c_got s) as [|t0 ts IH]; intros k t js HF HN HK; [destruct k; discriminate HN|].
    assert (G : forall k0 ts' js', Forall2 (from c) ts' js' -> forall j, nth_error ts' k0 = Some t -> nth_error js' k0 = Some j -> from c t j).
    { clear. induction k0 as [|k0 IH]; intros ts' js' HF j H1 H2; destruct HF; cbn in *; try discriminate; [congruence|eauto]. }
    destruct (G k _ _ HF _ HN HK) as (log & H1 & H2 & H3). exists log. split; [exact H1|]. split; [exact H2|].
    destruct H3 as [(_ & _ & H3)|H3]; auto.
Qed.
Print Assumptions C60_in_order.

Example C60_ex : exists s, reach (mkC None [log1; log2] false false true true false whole) s /\ c_got s = [log1; log2] /\ c_pc s = CCreate.
Proof. eexists. split; [run (round 0 3 ++ [GC; GC; GC; GC] ++ round 1 2 ++ [GC; GC; GC])|]. split; reflexivity. Qed.
Example C60_ex_early : exists s, reach (mkC (Some 2) [log1; log2] false false true true false two) s /\ c_got s = [[[x01]; [x02]]; log2] /\ c_pc s = CEnd.
Proof.
  eexists. split; [run (round 0 3 ++ [GC; GC; GC] ++ round 1 2 ++ [GC; GC; GC])|]. split; reflexivity.
Qed.
(** An execution that is killed while it waits is left out; the next one takes its place. *)
Example C60_ex_died : exists s, reach (mkC None [log1; log2] false true true true false whole) s /\ c_got s = [log2] /\ c_pc s = CCreate.
Proof.
  eexists. split; [run ([GS; GC; GP 0; GD 0; GS; GP 1; GP 1; GC; GP 1; GP 1; GC; GC] ++ repeat (GP 1) 4 ++ [GC; GC; GC; GC])|]. split; reflexivity.
Qed.

(** Two executions at the same time: their logs end up in one trace. *)
Theorem C60_parallel_refuted : exists s, reach (mkC None [log1; log2] true false false false false whole) s /\
  c_got s = [[[x01]; [x11]; [x02]; [x03]; [x12]]].
Proof.
  eexists. split; [run ([GS; GS; GC; GC; GP 0; GP 1; GP 0; GP 1; GP 0; GP 1; GP 0; GP 1; GC; GC; GP 0; GP 1; GP 0; GP 1; GP 0; GP 0; GP 0; GP 1; GP 1; GC; GC; GC; GC; GC; GC; GC])|]. reflexivity.
Qed.
Print Assumptions C60_parallel_refuted.

(** C61.  If nothing goes wrong ([smooth]), every interleaving leads to the same
    end: the collector has finished, and the traces are exactly those expected:
    one for each execution, up to the limit or the first log that the reader
    does not accept. *)
Theorem C61_complete : forall c s, smooth c -> reach c s -> final c s ->
  c_pc s = CEnd /\ c_got s = expected (cf_reader c) (cf_num c) (cf_runs c).
Proof.
  intros c s HS HR HF. pose proof (final_smooth c s HS HR HF) as HC. split; [exact HC|].
  pose proof (inv_e_reach c s HS HR) as H. unfold inv_e in H. rewrite HC in H. exact H.
Qed.
Print Assumptions C61_complete.

(** In particular, if the reader reads and accepts all the logs, the traces are
    the logs. *)
Theorem C61_all : forall c s, smooth c -> reach c s -> final c s -> cf_num c = None ->
  Forall (fun log => rd_eof (cf_reader c) log = true /\ forall l, begins l log -> rd_early (cf_reader c) l = None) (cf_runs c) ->
  c_got s = cf_runs c.
Proof.
  intros c s HS HR HF HN HA. destruct (C61_complete c s HS HR HF) as [_ ->]. rewrite HN.
  assert (G : forall rest seen, rd_eof (cf_reader c) (seen ++ rest) = true ->
    (forall l, begins l (seen ++ rest) -> rd_early (cf_reader c) l = None) -> recorded (cf_reader c) seen rest = Some (seen ++ rest)).
  { induction rest as [|ch r IH]; intros seen H HE; cbn; (rewrite HE; [|eexists; reflexivity]).
    - rewrite app_nil_r in *. rewrite H. reflexivity.
    - rewrite IH; rewrite <- app_assoc; [reflexivity|exact H|exact HE]. }
  induction HA as [|log runs [H HE] _ IH]; [reflexivity|]. cbn. rewrite (G log [] H HE). cbn. f_equal. exact IH.
Qed.
Print Assumptions C61_all.

(** With the reader of C05 - C16 (which reads on while the input can still become
    a trace, and in the end adds exactly what it accepts): if the logs are the
    encodings of well-formed traces, the database holds the traces they denote. *)
Theorem C61_traces : forall ok coins pos c s Fs, smooth c -> reach c s -> final c s -> cf_num c = None ->
  (forall l, rd_eof (cf_reader c) l = true <-> exists tr, read_trace ok (skip_map coins pos) 0 (open_stream (concat l) TailEof) = Ok tr) ->
  (forall l m, (exists tr, read_trace ok (skip_map coins pos) 0 (open_stream (concat (l ++ m)) TailEof) = Ok tr) -> rd_early (cf_reader c) l = None) ->
  Forall2 (fun log F => concat log = enc_file F /\ file_wf ok F) (cf_runs c) Fs ->
  Forall2 (fun t F => exists tr, read_trace ok (skip_map coins pos) 0 (open_stream (concat t) TailEof) = Ok tr /\ denotes F tr) (c_got s) Fs.
Proof.
  intros ok coins pos c s Fs HS HR HF HN H1 H2 HW.
  assert (A : forall log F, concat log = enc_file F /\ file_wf ok F ->
    exists tr, read_trace ok (skip_map coins pos) 0 (open_stream (concat log) TailEof) = Ok tr /\ denotes F tr).
  { intros log F [E W]. rewrite E. destruct (complete_lemma ok coins pos TailEof F W) as (tr & Q1 & Q2 & _). eauto. }
  rewrite (C61_all c s HS HR HF HN).
  - induction HW; constructor; auto.
  - induction HW as [|log F runs Fs' HQ _ IH]; constructor; [|exact IH]. destruct (A _ _ HQ) as (tr & Q1 & _). split.
    + apply H1. eauto.
    + intros l (r & ->). apply (H2 l r). eauto.
Qed.
Print Assumptions C61_traces.

Definition model_reader (ok : alloc) (coins : nat -> bool) (pos : nat) : reader :=
  mkR (fun _ => None)
      (fun l => match read_trace ok (skip_map coins pos) 0 (open_stream (concat l) TailEof) with Ok _ => true | _ => false end).
Lemma model_reader_ok : forall ok coins pos l, rd_eof (model_reader ok coins pos) l = true <->
  exists tr, read_trace ok (skip_map coins pos) 0 (open_stream (concat l) TailEof) = Ok tr.
Proof.
  intros ok coins pos l. cbn. destruct (read_trace ok (skip_map coins pos) 0 (open_stream (concat l) TailEof)).
  - split; eauto.
  - split; [discriminate|intros (tr & X); discriminate X].
  - split; [discriminate|intros (tr & X); discriminate X].
  - split; [discriminate|intros (tr & X); discriminate X].
  - split; [discriminate|intros (tr & X); discriminate X].
Qed.
Definition ex_log : list chunk := [enc_header (f_names ex_file) (f_types ex_file); enc_points (f_types ex_file) (f_points ex_file)].
Definition ex_cfg : config := mkC None [ex_log; ex_log] false false false false false (model_reader (fun _ => true) (fun _ => false) 0).
Example C61_traces_ex : exists s, reach ex_cfg s /\ final ex_cfg s /\
  Forall2 (fun t F => exists tr, read_trace (fun _ => true) (skip_map (fun _ => false) 0) 0 (open_stream (concat t) TailEof) = Ok tr /\ denotes F tr)
    (c_got s) [ex_file; ex_file].
Proof.
  assert (H : exists s, reach ex_cfg s /\ final ex_cfg s).
  { eexists. split; [run (round 0 2 ++ [GC; GC; GC] ++ round 1 2 ++ [GC; GC; GC] ++ [GC; GC; GE; GX; GC])|].
    apply stuck_final; vm_compute; reflexivity. }
  destruct H as (s & H1 & H2). exists s. split; [exact H1|]. split; [exact H2|].
  apply (C61_traces (fun _ => true) (fun _ => false) 0 ex_cfg s [ex_file; ex_file]).
  - repeat split.
  - exact H1.
  - exact H2.
  - reflexivity.
  - exact (model_reader_ok _ _ _).
  - reflexivity.
  - assert (Q : concat ex_log = enc_file ex_file /\ file_wf (fun _ => true) ex_file).
    { split; [|exact ex_file_wf]. unfold ex_log, enc_file. cbn [concat]. rewrite app_nil_r. reflexivity. }
    constructor; [exact Q|]. constructor; [exact Q|constructor].
Qed.

Example C61_ex : exists s, reach (mkC None [log1; log2] false false false false false whole) s /\
  final (mkC None [log1; log2] false false false false false whole) s /\ c_got s = [log1; log2].
Proof.
  eexists. split; [run (round 0 3 ++ [GC; GC; GC; GC] ++ round 1 2 ++ [GC; GC; GC] ++ [GC; GC; GE; GX; GC])|].
  split; [apply stuck_final; vm_compute; reflexivity|reflexivity].
Qed.

(** Traces are lost, without an error, if the next execution takes too long to
    start. *)
Theorem C61_slow_refuted : exists s, reach (mkC None [log1; log2] false false true false false whole) s /\
  c_pc s = CEnd /\ c_got s = [log1].
Proof.
  eexists. split; [run (round 0 3 ++ [GC; GC; GC; GC] ++ [GC; GC; GT])|]. split; reflexivity.
Qed.
Print Assumptions C61_slow_refuted.

(** If fgets does not try again at the end of a file, collection can stop
    for ever: the execution reads the handshake file before the name of the
    pipe is in it. *)
Theorem C61_sticky_refuted : exists s, reach (mkC None [log1] false false false true false whole) s /\
  final (mkC None [log1] false false false true false whole) s /\ c_pc s = CWait /\ c_got s = [].
Proof.
  eexists. split; [run [GS; GC; GP 0; GP 0; GP 0; GC]|]. split; [apply stuck_final; vm_compute; reflexivity|split; reflexivity].
Qed.
Print Assumptions C61_sticky_refuted.

(** If the handshake file exists beforehand, nothing is ever collected. *)
Theorem C61_existing_file : forall c s, cf_old c = true -> reach c s -> c_got s = [].
Proof. intros c s HO HR. apply (inv_old_reach c s HO HR). Qed.
Print Assumptions C61_existing_file.
Example C61_existing_ex : exists s, reach (mkC None [log1] false false true false true whole) s /\ c_pc s = CEnd /\ h_dir s = None.
Proof. eexists. split; [run [GS; GP 0; GP 0; GP 0; GT; GC]|]. split; reflexivity. Qed.

(** C62.  Collection ends: no run has more than [budget] steps (waiting is not a
    step), and a run can only come to rest when the collector has finished,
    because its waiting is bounded by the timeouts.  This also holds if
    executions overlap or die. *)
Theorem C62_bounded : forall c n s, steps c n (start c) s -> n <= budget (cf_runs c).
Proof. exact terminates. Qed.
Print Assumptions C62_bounded.

Theorem C62_ends : forall c s, cf_tmo c = true -> final c s -> c_pc s = CEnd.
Proof. intros c s HT HF. exact (final_with_timeouts c s HT HF). Qed.
Print Assumptions C62_ends.

(** Once it has finished the database does not change any more. *)
Theorem C62_over : forall c s s', c_pc s = CEnd -> step c s s' -> c_pc s' = CEnd /\ c_got s' = c_got s.
Proof. exact end_frozen. Qed.
Print Assumptions C62_over.

Example C62_ex : exists s, reach (mkC None [log1; log2] true true true true false whole) s /\
  final (mkC None [log1; log2] true true true true false whole) s /\ length (x_ex s) = 2.
Proof.
  eexists. split; [run [GS; GS; GC; GP 0; GP 1; GC; GD 0; GP 1; GP 1; GP 1; GC; GC; GT; GP 1; GP 1; GE]|].
  split; [apply stuck_final; vm_compute; reflexivity|reflexivity].
Qed.

(** Without timeouts the collector may wait for ever: an execution dies between
    the handshake and the opening of the pipe. *)
Theorem C62_no_timeout_refuted : exists s, reach (mkC None [log1] false true false false false whole) s /\
  final (mkC None [log1] false true false false false whole) s /\ c_pc s = CPoll.
Proof.
  eexists. split; [run [GS; GC; GC; GP 0; GP 0; GP 0; GP 0; GD 0; GC; GC; GE]|].
  split; [apply stuck_final; vm_compute; reflexivity|reflexivity].
Qed.
Print Assumptions C62_no_timeout_refuted.

(** C63.  Collection does not harm the executions: if nothing goes wrong, none
    of them calls fgets with NULL and none writes its log to a file that it
    creates in place of a pipe. *)
Theorem C63_unharmed : forall c s e, smooth c -> reach c s -> In e (x_ex s) -> e_pc e <> PEnd true /\ e_pc e <> PFile.
Proof.
  intros c s e HS HR Hin. destruct (inv_c_reach c s HS HR) as [H _]. rewrite Forall_forall in H. exact (H e Hin).
Qed.
Print Assumptions C63_unharmed.

(** With two executions at the same time, one can crash because the other one
    removes the handshake file. *)
Theorem C63_parallel_refuted : exists s, reach (mkC None [log1; log2] true false false false false whole) s /\
  map e_pc (x_ex s) = [PPipe 0; PEnd true].
Proof. eexists. split; [run [GS; GS; GC; GC; GP 0; GP 1; GP 0; GP 0; GP 0; GP 1]|]. reflexivity. Qed.
Print Assumptions C63_parallel_refuted.

(** Or it removes the next handshake file, so that the collector takes the
    handshake for completed although nobody has read the file; the second log is lost. *)
Theorem C63_removed_refuted : exists s, reach (mkC None [log1; log2] true false true false false whole) s /\
  c_pc s = CEnd /\ c_got s = [log1] /\ map e_pc (x_ex s) = [PEnd false; PEnd false].
Proof.
  eexists. split; [run ([GS; GS; GC; GC; GP 0; GP 1; GP 0; GP 1; GP 0; GP 1; GP 0; GC; GC; GP 0; GP 0; GP 0; GP 0; GP 0; GC; GC; GC; GC; GC] ++ [GC; GC; GP 1; GC; GC; GT; GP 1; GP 1])|].
  split; [reflexivity|]. split; reflexivity.
Qed.
Print Assumptions C63_removed_refuted.

(** A timeout at the wrong moment makes an execution write to a stray file. *)
Theorem C63_timeout_refuted : exists s, reach (mkC None [log1] false false true false false whole) s /\
  map e_pc (x_ex s) = [PFile].
Proof. eexists. split; [run [GS; GC; GC; GP 0; GP 0; GP 0; GP 0; GT; GP 0]|]. reflexivity. Qed.
Print Assumptions C63_timeout_refuted.
