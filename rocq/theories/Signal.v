(** Model: instrumented programs with signal handlers.

    A handler runs in the thread that the signal is delivered to, between two
    actions of that thread; its statements are instrumented like all others, so it
    calls the functions of instrumentation/c-cpp.lisp:156-279, with the mutex of
    line 313, which is neither recursive nor error checking
    (pthread_mutex_init with NULL, lines 332-333).  The handler runs to its end before the
    interrupted code goes on: what it does is put before what the thread had still to
    do.  A handler can be interrupted as well.
    Simplified: a handler returns (Jump.v treats those that do not); a signal inside a stdio call is taken
    to arrive before or after it. *)
From Verif Require Import Base Types Instr InstrRun InstrSpec.

Section Signals.
Variable code : list (list istmt).

(** A signal arrives at thread [i]; its handler makes the passes [es]. *)
Inductive interrupt (i : nat) (es : list event) : rstate -> rstate -> Prop :=
| interrupt_i : forall lk out d ths r acts,
    nth_error ths i = Some r -> Forall2 (fun e a => event_run code e = Ok a) es acts ->
    interrupt i es (mkR lk out d ths) (mkR lk out d (update ths i (concat acts ++ r))).

(** Runs in which signals arrive that [allowed] admits; the signals are listed. *)
Inductive sreach (allowed : rstate -> nat -> list event -> Prop) (s0 : rstate) : list (nat * list event) -> rstate -> Prop :=
| sr_start : sreach allowed s0 [] s0
| sr_step : forall l s s', sreach allowed s0 l s -> rstep s s' -> sreach allowed s0 l s'
| sr_signal : forall l s i es s', sreach allowed s0 l s -> allowed s i es -> interrupt i es s s' ->
    sreach allowed s0 (l ++ [(i, es)]) s'.
End Signals.

(** The handlers that ran in thread [i]. *)
Definition handled (i : nat) (l : list (nat * list event)) : list (list event) :=
  map snd (filter (fun x => Nat.eqb (fst x) i) l).

(** ** Specification *)

(** A signal whose handler logs does not arrive while the thread is inside a logging
    statement (the thread owns the mutex exactly then). *)
Definition polite (sites : list site) (s : rstate) (i : nat) (es : list event) : Prop :=
  Forall (event_ok sites) es /\ (r_lock s = Some i -> es = []).

(** [ths'] are the passes of the threads [ths], with those of the handlers among them. *)
Definition extends (ths : list (list event)) (l : list (nat * list event)) (ths' : list (list event)) : Prop :=
  length ths' = length ths /\
  forall i t, nth_error ths i = Some t -> exists t', nth_error ths' i = Some t' /\ merge (t :: handled i l) t'.
