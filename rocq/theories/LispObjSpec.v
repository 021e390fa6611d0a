(** Specification for C74 and C75: programs that use Lisp database objects, and the
    garbage collector. *)
From Verif Require Import Base Types CApi CApiSpec Archive LispObj.

Section Spec.
Context {A : Type}.
Notation world := (world A). Notation op := (op A). Notation result := (result A).

(** The objects that the collector must keep: those the program holds and, through
    the slot parent-db, those that a kept wrapper refers to.  If [strong], a
    finalizer also keeps the objects its function refers to: here the function
    refers to the object itself.  (That is how trivial-garbage specifies finalizers.) *)
Inductive reachable (strong : bool) (w : world) : nat -> Prop :=
| reach_held : forall i, In i (w_roots w) -> reachable strong w i
| reach_finalizer : forall i, strong = true -> w_fin w i = true -> reachable strong w i
| reach_parent : forall i o f p, reachable strong w i -> w_obj w i = Some o -> o_view o = Some (f, p) -> reachable strong w p.

(** A program uses only objects it holds; the collector takes only objects that
    exist and that it need not keep. *)
Definition allowed (strong : bool) (w : world) (c : op) : Prop :=
  match c with
  | OMake | ORestore _ => True
  | ORestrict i _ | OAdd i _ _ | OPoints i _ _ | OCount i | OStore i | ODrop i => In i (w_roots w)
  | OCollect dead => forall i, In i dead -> ~ reachable strong w i
  end.

Section Run.
Variables (strong : bool) (ok : N -> bool) (ver : N) (grow : N -> N).
(** A history: operations with their results. *)
Inductive run : world -> list (op * result) -> world -> Prop :=
| run_nil : forall w, run w [] w
| run_cons : forall w c r w1 l w2,
    allowed strong w c -> exec ok ver grow w c = Ok (r, w1) -> run w1 l w2 -> run w ((c, r) :: l) w2.
End Run.

(** The C++ databases that were allocated and not freed. *)
Definition live (w : world) : list nat :=
  filter (fun p => match w_db w p with Some _ => true | None => false end) (seq 0 (w_ndb w)).
(** What a history allocated. *)
Definition makes (l : list (op * result)) : nat :=
  length (filter (fun x => match x with (OMake, _) | (ORestore _, RObj _) => true | _ => false end) l).
Definition texts (l : list (op * result)) : nat :=
  length (filter (fun x => match snd x with RStored (SDb _ _) => true | _ => false end) l).

(** What the program sees of an object: its traces and the metadata. *)
Definition seen (w : world) (i : nat) (ts : list (trace N)) (m : list A) : Prop :=
  exists o d, w_obj w i = Some o /\ w_db w (o_ptr o) = Some d /\ traces d = ts /\ meta_of w i = m.
(** Two objects are of one family if following parent-db from both ends in one object. *)
Inductive based (w : world) : nat -> nat -> Prop :=
| based_self : forall i o, w_obj w i = Some o -> o_view o = None -> based w i i
| based_parent : forall i o f p b, w_obj w i = Some o -> o_view o = Some (f, p) -> based w p b -> based w i b.
Definition family (w : world) (i j : nat) : Prop := exists b, based w i b /\ based w j b.
(** If operation c adds a trace, P holds of the object it adds to. *)
Definition writes (c : op) (P : nat -> Prop) : Prop :=
  match c with OAdd i _ _ | OPoints i _ _ => P i | _ => True end.
(** The databases that were restored from a text. *)
Definition restores (l : list (op * result)) : nat :=
  length (filter (fun x => match x with (ORestore (SDb (_ :: _) _), _) => true | _ => false end) l).
End Spec.
