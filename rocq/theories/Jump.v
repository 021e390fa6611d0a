(** Model: instrumented programs whose threads change their course: signal handlers
    that return (Signal.v) or leave by siglongjmp, threads that are cancelled or that
    end, exceptions of C++ that leave functions.  The statements concerned are
    instrumented like all others (instrumentation/c-cpp.lisp:132-279); a logging
    statement owns the mutex of line 313 from its first to its last call, and nothing
    releases the mutex when control leaves the statement in another way: no cleanup
    handler is installed (lines 132-175).  fputc, fwrite and fflush inside a
    logging statement are places where POSIX lets a cancelled thread end.
    Simplified: a change inside a stdio call is taken to happen before or after it. *)
From Verif Require Import Base Types Instr InstrRun InstrSpec Signal.

(** A handler that makes the passes [es] and returns, or: what the thread had still to
    do is dropped and it goes on with the passes [es] (none if it is cancelled). *)
Inductive change := Call (es : list event) | Leave (es : list event).

Section Jumps.
Variable code : list (list istmt).

Inductive changed (i : nat) : change -> rstate -> rstate -> Prop :=
| changed_call : forall es s s', interrupt code i es s s' -> changed i (Call es) s s'
| changed_leave : forall es lk out d ths r acts,
    nth_error ths i = Some r -> Forall2 (fun e a => event_run code e = Ok a) es acts ->
    changed i (Leave es) (mkR lk out d ths) (mkR lk out d (update ths i (concat acts))).

(** Runs with changes that [allowed] admits; the changes are listed. *)
Inductive jreach (allowed : rstate -> nat -> change -> Prop) (s0 : rstate) : list (nat * change) -> rstate -> Prop :=
| jr_start : jreach allowed s0 [] s0
| jr_step : forall l s s', jreach allowed s0 l s -> rstep s s' -> jreach allowed s0 l s'
| jr_change : forall l s i c s', jreach allowed s0 l s -> allowed s i c -> changed i c s s' ->
    jreach allowed s0 (l ++ [(i, c)]) s'.
End Jumps.

(** ** Specification *)
Definition passes (c : change) : list event := match c with Call es | Leave es => es end.

(** The passes of a change are passes of the program. *)
Definition sound (sites : list site) (c : change) : Prop := Forall (event_ok sites) (passes c).

(** No change happens while the thread is inside a logging statement (it owns the
    mutex exactly then), except calls of handlers that log nothing. *)
Definition between (sites : list site) (s : rstate) (i : nat) (c : change) : Prop :=
  sound sites c /\ (r_lock s = Some i -> c = Call []).

(** What becomes of the passes [t] of a thread: a handler is called between two of
    them, or the rest is replaced. *)
Inductive course (t : list event) : list change -> list event -> Prop :=
| course_same : course t [] t
| course_call : forall cs es a b, course t cs (a ++ b) -> course t (cs ++ [Call es]) (a ++ es ++ b)
| course_leave : forall cs es a b, course t cs (a ++ b) -> course t (cs ++ [Leave es]) (a ++ es).

Definition changes_of (i : nat) (l : list (nat * change)) : list change :=
  map snd (filter (fun x => Nat.eqb (fst x) i) l).
Definition courses (ths : list (list event)) (l : list (nat * change)) (ths' : list (list event)) : Prop :=
  length ths' = length ths /\
  forall i t, nth_error ths i = Some t -> exists t', nth_error ths' i = Some t' /\ course t (changes_of i l) t'.
