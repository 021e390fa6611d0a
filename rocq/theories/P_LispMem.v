(** Property C79: Lisp gives back the foreign memory it takes (binary-trace-db.lisp:166-219,
    305-387, 446-613; trace.cpp:85-145; trace-db.cpp:244-262).

    [sound h]: live blocks have different addresses; [loses h h' extra]: after the
    operation the blocks from before and those of [extra] are live; [looks]: trace-types,
    get-trace and query-trace; [harmless]: the errors noticed before anything is taken or
    by the library itself (LispMemSpec.v). *)
From Verif Require Import Base Types Predicate CApi Lisp LispMem LispMemSpec LispMemProofs LispMemProofs2.

(** Whatever the arguments: no block is freed twice or used after it was freed, no block
    from before is freed or changed, cleaning up terminates; an operation returns or
    signals an error unless the library itself stops at an assertion. *)
Theorem C79_safe : forall o h, sound h -> exists r h' extra,
  run o h = (r, h') /\ sound h' /\ loses h h' extra /\
  (r = Ok tt \/ r = Throw ELisp \/ (r = Abort /\ crashes o)).
Proof.
  intros o h S. destruct (run_result o h S) as (r & h' & E & S' & x & L & H). exists r, h', x. split; [exact E|]. split; [exact S'|]. split; [exact L|].
  destruct r as [[]|[]| | |]; try contradiction H; auto.
Qed.
Print Assumptions C79_safe.

(** trace-types, get-trace and query-trace that return have given back everything. *)
Theorem C79_returns : forall o h h', sound h -> looks o -> run o h = (Ok tt, h') -> h_live h' = h_live h.
Proof.
  intros o h h' S HL E. destruct (run_result o h S) as (r & h1 & E1 & _ & x & L & H). rewrite E in E1. injection E1 as <- <-. rewrite L, (H HL). apply app_nil_r.
Qed.
Print Assumptions C79_returns.

(** If they signal an error: nothing is lost exactly for the harmless errors. *)
Theorem C79_errors : forall o h h', sound h -> looks o -> run o h = (Throw ELisp, h') ->
  exists extra, loses h h' extra /\ (extra = [] <-> harmless o).
Proof.
  intros o h h' S HL E. destruct (run_result o h S) as (r & h1 & E1 & _ & x & L & H). rewrite E in E1. injection E1 as <- <-. exists x. split; [exact L|exact (H HL)].
Qed.
Print Assumptions C79_errors.

(** The expectation "an error gives back what was taken" is false: an undefined variable
    in a predicate, a type the trace does not have, an error in the filter. *)
Example ti1 := mkTI true true.
Definition heap0 := mkH 5 [(1, BTraceObj); (4, BWords)].
Lemma heap0_sound : sound heap0.
Proof. unfold sound, heap0. cbn. repeat split; try lia; repeat constructor; cbn; try lia; destruct H as [<-|[<-|[]]]; lia. Qed.
Theorem C79_errors_refuted : exists o h', sound heap0 /\ looks o /\ run o heap0 = (Throw ELisp, h') /\ h_live h' <> h_live heap0.
Proof.
  exists (OQuery (Some ti1) [7] [[Some 0]] (Some (SList OEqual [SSym 7; SSym 8])) [] (AResults [])). eexists.
  split; [exact heap0_sound|]. split; [exact Logic.I|]. split; [vm_compute; reflexivity|]. discriminate.
Qed.
Print Assumptions C79_errors_refuted.
Example C79_unknown_type : fst (run (OQuery (Some ti1) [7] [[Some 0; None]] None [] (AResults [])) heap0) = Throw ELisp /\
  length (h_live (snd (run (OQuery (Some ti1) [7] [[Some 0; None]] None [] (AResults [])) heap0))) = 4%nat.
Proof. vm_compute. split; reflexivity. Qed.
Example C79_bad_filter : fst (run (OQuery (Some ti1) [7] [[Some 0]] None [] (AResults [true; false])) heap0) = Throw ELisp /\
  length (h_live (snd (run (OQuery (Some ti1) [7] [[Some 0]] None [] (AResults [true; false])) heap0))) = 7%nat.
Proof. vm_compute. split; reflexivity. Qed.

(** read-binary-trace never gives back the trace itself: one block with each trace that
    is read, more on an error. *)
Theorem C79_read_refuted : forall ti points h, sound h -> exists r h' a extra,
  run (ORead (Some (ti, points))) h = (r, h') /\ loses h h' ((a, BTraceObj) :: extra) /\
  (r = Ok tt /\ extra = [] \/ r = Throw ELisp /\ extra <> []).
Proof.
  intros ti points h S. destruct (read_result (Some (ti, points)) h S) as (r & h' & E & _ & H). destruct H as [(H & _)|[(_ & -> & a & L)|(_ & -> & a & b & x & L)]]; [discriminate| |].
  - eexists _, h', a, []. split; [exact E|]. split; [exact L|]. left. auto.
  - eexists _, h', a, (b :: x). split; [exact E|]. split; [exact L|]. right. split; [reflexivity|discriminate].
Qed.
Print Assumptions C79_read_refuted.

(** add-trace-points gives back nothing: an array for each point, a string for each
    name, and the two arrays that hold them. *)
Theorem C79_add_points_refuted : forall points names h h', sound h ->
  run (OAddPoints points names) h = (Ok tt, h') -> exists extra, loses h h' extra /\ length extra = (length points + names + 2)%nat.
Proof.
  intros points names h h' S E. destruct (add_result points names h S) as (r & h1 & E1 & _ & x & L & H). cbn [run] in E. rewrite E in E1. injection E1 as <- <-.
  exists x. split; [exact L|]. destruct H as [(_ & H)|H]; [exact H|discriminate].
Qed.
Print Assumptions C79_add_points_refuted.

(** Sessions: safe as a whole; constant memory if all operations look at the database
    and return, or signal harmless errors; and if all signal errors that are not
    harmless, at least one more block each time, without bound. *)
Theorem C79_session_safe : forall os h, sound h -> exists rs h' extra,
  session os h = (rs, h') /\ sound h' /\ loses h h' extra /\
  Forall2 (fun o r => r = Ok tt \/ r = Throw ELisp \/ (r = Abort /\ crashes o)) os rs.
Proof. intros os h S. destruct (session_result os h S) as (rs & h' & E & S' & (x & L) & F). exists rs, h', x. auto. Qed.
Print Assumptions C79_session_safe.
Theorem C79_session_constant : forall os h rs h', sound h -> session os h = (rs, h') ->
  Forall2 (fun o r => looks o /\ (r = Ok tt \/ r = Throw ELisp /\ harmless o)) os rs -> h_live h' = h_live h.
Proof. exact session_constant. Qed.
Print Assumptions C79_session_constant.
Theorem C79_session_grows : forall os h rs h', sound h -> session os h = (rs, h') ->
  Forall2 (fun o r => looks o /\ r = Throw ELisp /\ ~ harmless o) os rs ->
  (length (h_live h) + length os <= length (h_live h'))%nat.
Proof. exact session_grows. Qed.
Print Assumptions C79_session_grows.

(** What the errors of predicates are is as in Lisp.v: the stage before the call
    is passed exactly if all parts can be built. *)
Theorem C79_build : forall vn e h, sound h -> exists r h', build_pred vn (Some e) h = (r, h') /\
  ((exists a, r = Ok a) <-> exists c, build vn e = Ok c).
Proof.
  intros vn e h S. destruct (build_pred_ok vn (Some e) h S) as (o & h' & l & E & _ & B & C). exists o, h'. split; [exact E|]. split.
  - intros (a & ->). cbn in B. apply (proj2 B). reflexivity.
  - intros H. apply C. intros x Hx. injection Hx as <-. exact H.
Qed.
Print Assumptions C79_build.

(** Cases: a query with a hard and two soft predicates (one of them NIL) and results;
    a rejected one; a session with an error that loses memory. *)
Definition q1 (rep : answer) : op :=
  OQuery (Some ti1) [7; 8] [[Some 0]; [Some 1; Some 2]]
    (Some (SList OAnd [SList OGt [SSym 7; SInt 3]; SList ONot [SList ODistinct [SSym 7; SSym 8]]]))
    [None; Some (SList OEqual [SSym 8; SInt (-1)])] rep.
Example C79_query_case : fst (run (q1 (AResults [true; true; true])) heap0) = Ok tt /\
  h_live (snd (run (q1 (AResults [true; true; true])) heap0)) = h_live heap0 /\
  h_next (snd (run (q1 (AResults [true; true; true])) heap0)) = 25.
Proof. vm_compute. repeat split; reflexivity. Qed.
Example C79_rejected_case : fst (run (q1 ARejected) heap0) = Throw ELisp /\ h_live (snd (run (q1 ARejected) heap0)) = h_live heap0.
Proof. vm_compute. split; reflexivity. Qed.
Example C79_harmless_case : harmless (q1 ARejected).
Proof.
  right. split; [reflexivity|]. split; [reflexivity|]. split; [repeat constructor; discriminate|]. split.
  - intros e E. injection E as <-. eexists. vm_compute. reflexivity.
  - repeat constructor; intros e E; [discriminate|]. injection E as <-. eexists. vm_compute. reflexivity.
Qed.
Definition q2 : op := OQuery (Some ti1) [7] [[Some 0]] (Some (SList OEqual [SSym 7; SInt (2 ^ 64)])) [] (AResults []).
Example C79_session_case : fst (session [q1 (AResults [true]); q2; OTypes (Some ti1); q2; OGet (Some ti1) [true] false] heap0) =
    [Ok tt; Throw ELisp; Ok tt; Throw ELisp; Throw ELisp] /\
  length (h_live (snd (session [q1 (AResults [true]); q2; OTypes (Some ti1); q2; OGet (Some ti1) [true] false] heap0))) = 10%nat.
Proof. vm_compute. split; reflexivity. Qed.
Example C79_add_case : fst (run (OAddPoints [Some (true, true); Some (true, true)] 3) heap0) = Ok tt.
Proof. vm_compute. reflexivity. Qed.
