(** Specification of concurrent use of a database. *)
From Verif Require Import Base Types Stream SkipList Reader Concur.
From Coq Require Import Permutation.

(** What a call of add_trace reads when nothing else runs. *)
Definition read_input (c : input) : outcome tr :=
  match in_file c with
  | None => Throw ECannotOpen
  | Some (bs, t) => read_trace (in_ok c) (skip_map (in_coins c) (in_pos c)) (in_max c) (open_stream bs t)
  end.

(** The traces of the successful calls. *)
Definition traces_of (cs : list task) : list tr :=
  flat_map (fun c => match c with
                     | CallAdd c => match read_input c with Ok t => [t] | _ => [] end
                     | CallGet _ => []
                     end) cs.

(** The answer of each call, as given alone: true if the file can be read. *)
Definition answer_alone (c : task) : option bool :=
  match c with
  | CallAdd c => match read_input c with Ok _ => Some true | Throw _ => Some false | _ => None end
  | CallGet _ => None
  end.
Definition answer (th : tstate) : option bool :=
  match th with TDone (Some _) => Some true | TDone None => Some false | _ => None end.

(** The call has returned. *)
Definition returned (th : tstate) : Prop :=
  match th with TDone _ | TSaw _ => True | _ => False end.

(** The thread is between reading the bytes of an auxiliary value and storing
    the value in the point. *)
Definition in_aux (th : tstate) : Prop := exists k, th = TRead (Get k).

(** At no time are two threads in this position. *)
Definition one_aux (ts : list tstate) : Prop :=
  forall i j a b, nth_error ts i = Some a -> nth_error ts j = Some b -> in_aux a -> in_aux b -> i = j.
Fixpoint aux_separate (grow : nat -> nat) (sched : list nat) (st : state) : Prop :=
  one_aux (snd st) /\
  match sched with [] => True | i :: r => aux_separate grow r (pick_thread grow i st) end.

(** Equal except for the auxiliary values, of which there are as many. *)
Definition same_but_aux_point (p q : point (option N)) : Prop :=
  p_counter p = p_counter q /\ p_stmt p = p_stmt q /\ p_sizes p = p_sizes q /\ p_vars p = p_vars q /\
  length (p_aux p) = length (p_aux q).
Definition same_but_aux (x y : tr) : Prop :=
  tr_names x = tr_names y /\ tr_types x = tr_types y /\ Forall2 same_but_aux_point (tr_points x) (tr_points y).
