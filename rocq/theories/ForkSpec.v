(** Specification for programs that fork: in which orders the passes of several
    processes can be logged. *)
From Coq Require Import Permutation.
From Verif Require Import Base Types Instr InstrRun InstrSpec Fork.

(** What a thread of the program does, as far as the log is concerned: pass a
    site, fork a child that goes on with [child], exit. *)
Inductive item := IPass (e : event) | IFork (child : list item) | IExit.

(** Every pass satisfies [Q]. *)
Inductive every (Q : event -> Prop) : list item -> Prop :=
| ev_nil : every Q []
| ev_pass : forall e r, Q e -> every Q r -> every Q (IPass e :: r)
| ev_fork : forall c r, every Q c -> every Q r -> every Q (IFork c :: r)
| ev_exit : forall r, every Q r -> every Q (IExit :: r).

(** The actions of the instrumented thread. *)
Inductive runs (code : list (list istmt)) : list item -> list pact -> Prop :=
| ru_nil : runs code [] []
| ru_pass : forall e a r b, event_run code e = Ok a -> runs code r b -> runs code (IPass e :: r) (map PDo a ++ b)
| ru_fork : forall c a r b, runs code c a -> runs code r b -> runs code (IFork c :: r) (PFork a :: b)
| ru_exit : forall r b, runs code r b -> runs code (IExit :: r) (PExit :: b).

(** [interleaving ps l q]: threads (of any processes) that have [ps] to do can pass
    the sites [l] in this order and then have [q] left to do; a child has its
    work to do once it has been forked. *)
Inductive interleaving : list (list item) -> list event -> list (list item) -> Prop :=
| hi_end : forall ps, interleaving ps [] ps
| hi_any : forall ps qs l q, Permutation ps qs -> interleaving qs l q -> interleaving ps l q
| hi_pass : forall e r ps l q, interleaving (r :: ps) l q -> interleaving ((IPass e :: r) :: ps) (e :: l) q
| hi_fork : forall c r ps l q, interleaving (c :: r :: ps) l q -> interleaving ((IFork c :: r) :: ps) l q.

(** Nothing left to pass. *)
Definition over (it : list item) : Prop := it = [] \/ exists r, it = IExit :: r.

(** Runs whose steps satisfy [ok]. *)
Inductive reach (B P : N) (ok : fstate -> flabel -> Prop) (s0 : fstate) : fstate -> Prop :=
| re_start : reach B P ok s0 s0
| re_step : forall s l s', reach B P ok s0 s -> ok s l -> fstep B P s l s' -> reach B P ok s0 s'.

(** No thread of process [i] is inside a logging statement. *)
Definition outside (s : fstate) (i : nat) : Prop :=
  forall p, nth_error (f_procs s) i = Some p -> q_lock p = None.
(** Nothing waits in the buffer of its log. *)
Definition flushed (s : fstate) (i : nat) : Prop :=
  forall p, nth_error (f_procs s) i = Some p -> q_buf p = [].

(** Processes fork and exit while no thread of theirs logs, and fork after the
    first point (or a flush). *)
Definition orderly (s : fstate) (l : flabel) : Prop :=
  match l with
  | LFork i => outside s i /\ flushed s i
  | LExit i => outside s i
  | _ => True
  end.

(** Moreover nobody dies, and exit() is called when the other threads have ended. *)
Definition alone_at_exit (s : fstate) (i : nat) : Prop :=
  forall p, nth_error (f_procs s) i = Some p ->
  Forall (fun t => t = [] \/ exists r, t = PExit :: r) (q_threads p).
Definition peaceful (s : fstate) (l : flabel) : Prop :=
  orderly s l /\ match l with LExit i => alone_at_exit s i | LDie _ => False | _ => True end.

(** Nothing left to do or to write. *)
Definition ended (p : proc) : Prop := Forall (eq []) (q_threads p) /\ q_out p = [] /\ q_buf p = [].

(** The point written by a pass fits into the buffer of the stream. *)
Definition fits_buffer (code : list (list istmt)) (B : N) (e : event) : Prop :=
  forall a, event_run code e = Ok a -> lenN (written a) <= B.
