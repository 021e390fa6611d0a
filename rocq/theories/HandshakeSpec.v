(** What trace collection should do, independently of the handshake. *)
From Coq Require Import List Bool Arith Lia Sorted.
From Verif Require Import Base Handshake.
Import ListNotations.
Open Scope nat_scope.

(** [l] begins with [p]. *)
Definition begins {A} (p l : list A) : Prop := exists r, l = p ++ r.

(** What is added when the log [log] is read from a pipe that nothing else is
    written to: the reader stops at the first piece after which it has seen
    enough, or at the end of the log.  [seen]: pieces received. *)
Fixpoint recorded (R : reader) (seen rest : list chunk) : option (list chunk) :=
  match rd_early R seen with
  | Some b => if b then Some seen else None
  | None => match rest with
            | [] => if rd_eof R seen then Some seen else None
            | ch :: r => recorded R (seen ++ [ch]) r
            end
  end.

(** The traces of successive executions, at most [num], up to the first one
    whose log cannot be read. *)
Fixpoint expected (R : reader) (num : option nat) (runs : list (list chunk)) : list (list chunk) :=
  match num, runs with
  | Some 0, _ => []
  | _, [] => []
  | _, log :: r => match recorded R [] log with
                   | Some t => t :: expected R (option_map pred num) r
                   | None => []
                   end
  end.

(** No step is possible: all processes have ended, or wait for ever. *)
Definition final (c : config) (s : state) : Prop := forall s', ~ step c s s'.

(** Runs of [n] steps. *)
Inductive steps (c : config) : nat -> state -> state -> Prop :=
| ss_nil : forall s, steps c 0 s s
| ss_cons : forall n s s1 s2, step c s s1 -> steps c n s1 s2 -> steps c (S n) s s2.

(** A bound on the number of steps: 30 for each execution, 3 for each piece of
    a log, and 20. *)
Definition budget (runs : list (list chunk)) : nat :=
  20 + list_sum (map (fun log => 30 + 3 * length log) runs).

(** The executions run one after the other, and nothing goes wrong in the
    system: no process is killed, no timeout expires, the temporary file is
    new and fgets tries again. *)
Definition smooth (c : config) : Prop :=
  cf_par c = false /\ cf_die c = false /\ cf_tmo c = false /\ cf_sticky c = false /\ cf_old c = false.
