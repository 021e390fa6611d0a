(** Specification: the log of a program as a list of passes, and the actions of the
    calls in it.  Connects SpliceSpec.v with InstrRun.v and InstrSpec.v. *)
From Coq Require Import List Bool Arith NArith.
From Verif Require Import Base Types Instr InstrRun InstrSpec Splice SpliceSpec.
Import ListNotations.
Open Scope nat_scope.

(** A pass: before or after (true) the statement at a position, with the state
    at that time; the calls it logs. *)
Definition passed {State} (bef aft : path -> list istmt) (x : bool * path * State) : log State :=
  let '(a, p, s) := x in note State (if a then aft p else bef p) s.

(** The calls of the sites: [site_of after p] is the number of the site before or
    after the statement at [p]. *)
Definition calls_at (code : list (list istmt)) (site_of : bool -> path -> option nat) (after : bool) (p : path) : list istmt :=
  match site_of after p with
  | Some i => match nth_error code i with Some c => c | None => [] end
  | None => []
  end.

(** The passes of sites; [vals] gives the values of the variables in a state. *)
Definition events {State} (vals : State -> name -> rvalue) (site_of : bool -> path -> option nat)
  (l : list (bool * path * State)) : list event :=
  flat_map (fun x => let '(a, p, s) := x in
            match site_of a p with Some i => [(i, vals s)] | None => [] end) l.

(** What the inserted calls of a log do (InstrRun.v). *)
Definition log_actions {State} (vals : State -> name -> rvalue) (l : log State) : outcome (list action) :=
  mapC (fun e => run_stmt (vals (snd e)) (fst e)) l.
