(** Model of collect-traces and collect-test-case-traces (traceable.lisp:80-266)
    around the handshake of Handshake.v: limits, errors, the compiled binary and
    the test processes.

    Simplified: a restart is represented by the decision of whoever handles the
    condition; a test case does not remove the binary; max-trace-points only
    affects what add-trace makes of a log (Handshake.reader). *)
From Coq Require Import List Bool Arith ZArith.
From Verif Require Import Base.
Import ListNotations.
Open Scope nat_scope.

Section Collect.
Variable T : Type.   (* traces *)

(** The binary file, the traces of the object (None: NIL), and the number of test
    processes that were started and not finished. *)
Record world := mkW { w_bin : bool; w_db : option (list T); w_procs : nat }.

(** The binary is created or removed, lines 86-92. *)
Definition set_bin (b : bool) (w : world) : world := mkW b (w_db w) (w_procs w).

(** start-test (lines 156, 241) and finish-test (lines 210, 266): a process more,
    a process less. *)
Definition start_test (w : world) : world := mkW (w_bin w) (w_db w) (S (w_procs w)).
Definition finish_test (w : world) : world := mkW (w_bin w) (w_db w) (pred (w_procs w)).

(** add-trace for each of [l], in order (lines 203-208, 248-253). *)
Definition add_traces (l : list T) (w : world) : world :=
  mkW (w_bin w) (option_map (fun d => d ++ l) (w_db w)) (w_procs w).

(** What is done when phenome signals an error: one of the restarts of
    lines 117-125, 150-154 and 230-238, or the stack is unwound. *)
Inductive choice := ChSkip | ChNil | ChUnwind.

(** Compilation of the program (phenome): whether the file exists afterwards,
    and, if an error is signalled, how it is handled. *)
Inductive phenome := PhOk (made : bool) | PhErr (made : bool) (ch : choice).

(** A test case.  [tc_run n]: the traces that the executions of the test case
    give when at most [n] are wanted (None: infinity).  [tc_ignore]: is the
    restart ignore-empty-trace chosen if there is none?  [tc_phen]: compilation,
    in case the binary is missing. *)
Record tcase := mkTC { tc_run : option nat -> list T; tc_ignore : bool; tc_phen : phenome }.

(** Returned normally, or left by an error. *)
Inductive ending := Returns | Signals.

(** with-possibly-existing-bin, lines 80-92, around [body]; [restart]: what the
    restarts of the form that creates the binary do.  The form is outside the
    unwind-protect. *)
Definition with_bin (ph : phenome) (restart : choice -> world -> world * ending)
  (body : world -> world * ending) (w : world) : world * ending :=
  if w_bin w then body w
  else match ph with
       | PhOk made => let (w', e) := body (set_bin made w) in (set_bin false w', e)
       | PhErr made ch => restart ch (set_bin made w)
       end.

(** (for i below num-traces), line 200: no execution if it is not positive. *)
Definition limited (num : option Z) : option nat := option_map Z.to_nat num.

(** collect-test-case-traces for binary-traceable, lines 134-224.  The loop runs
    0 times if num-traces is not positive. *)
Definition binary_case (t : tcase) (num : option Z) (w : world) : world * ending :=
  with_bin (tc_phen t)
    (fun ch w1 => match ch with ChSkip => (w1, Returns) | _ => (w1, Signals) end)
    (fun w1 =>
       let got := tc_run t (limited num) in
       let w2 := finish_test (add_traces got (start_test w1)) in
       match got with
       | [] => (w2, if tc_ignore t then Returns else Signals)     (* lines 210-224 *)
       | _ => (w2, Returns)
       end) w.

(** The same for sexp-traceable, lines 226-266: one pipe, num-traces is not used,
    and finish-test is not reached if an error is signalled. *)
Definition sexp_case (t : tcase) (num : option Z) (w : world) : world * ending :=
  with_bin (tc_phen t)
    (fun ch w1 => match ch with ChSkip => (w1, Returns) | _ => (w1, Signals) end)
    (fun w1 =>
       let w2 := start_test w1 in
       match tc_run t (Some 1) with
       | tr :: _ => (finish_test (add_traces [tr] w2), Returns)
       | [] => if tc_ignore t then (finish_test w2, Returns) else (w2, Signals)
       end) w.

(** n-traces of the traces of the object, line 129. *)
Definition n_traces (w : world) : nat := match w_db w with Some d => length d | None => 0 end.

(** The loop over the test cases, lines 127-131. *)
Fixpoint cases_loop (one : tcase -> option Z -> world -> world * ending) (num : option nat)
  (ts : list tcase) (w : world) : world * ending :=
  match ts with
  | [] => (w, Returns)
  | t :: r => match one t (option_map (fun n => (Z.of_nat n - Z.of_nat (n_traces w))%Z) num) w with
              | (w', Returns) => cases_loop one num r w'
              | (w', Signals) => (w', Signals)
              end
  end.

(** collect-traces, lines 112-132. *)
Definition collect_traces (one : tcase -> option Z -> world -> world * ending) (ph : phenome)
  (num : option nat) (ts : list tcase) (w : world) : world * ending :=
  with_bin ph
    (fun ch w1 => match ch with
                  | ChSkip => (w1, Returns)
                  | ChNil => (mkW (w_bin w1) None (w_procs w1), Returns)
                  | ChUnwind => (w1, Signals)
                  end)
    (fun w1 => cases_loop one num ts (mkW (w_bin w1) (Some []) (w_procs w1))) w.

End Collect.
Arguments mkW {T}. Arguments w_bin {T}. Arguments w_db {T}. Arguments w_procs {T}.
Arguments mkTC {T}. Arguments tc_run {T}. Arguments tc_ignore {T}. Arguments tc_phen {T}.
Arguments binary_case {T}. Arguments sexp_case {T}. Arguments collect_traces {T}. Arguments cases_loop {T}.
Arguments n_traces {T}. Arguments with_bin {T}. Arguments set_bin {T}.
Arguments start_test {T}. Arguments finish_test {T}. Arguments add_traces {T}.
