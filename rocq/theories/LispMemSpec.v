(** Specification: what operations of Lisp do to the foreign memory (LispMem.v). *)
From Verif Require Import Base Types Predicate CApi Lisp LispMem.

(** Live blocks have different addresses, none of them NULL or still to be given out. *)
Definition sound (h : heap) : Prop :=
  0 < h_next h /\ NoDup (map fst (h_live h)) /\ forall a, In a (map fst (h_live h)) -> 0 < a < h_next h.

(** The blocks [extra] are lost: still live, and no other block has changed. *)
Definition loses (h h' : heap) (extra : list (N * blk)) : Prop := h_live h' = h_live h ++ extra.

(** Operations that look at the database; the others are read-binary-trace and
    add-trace-points. *)
Definition looks (o : op) : Prop :=
  match o with OTypes _ | OGet _ _ _ | OQuery _ _ _ _ _ _ => True | _ => False end.

(** The foreign function stops the process at an assertion. *)
Definition crashes (o : op) : Prop := match o with OQuery _ _ _ _ _ ACrash => True | _ => False end.

(** The errors that come before anything is taken or after everything was given back:
    the index is out of range, there are predicates but no variables, an argument of
    query_trace is not accepted, there is no metadata. *)
Definition harmless (o : op) : Prop :=
  match o with
  | OTypes None => True
  | OGet None _ _ => True
  | OGet (Some ti) points meta => ti_names ti = true /\ Forall (eq true) points /\ meta = false
  | OQuery None _ _ _ _ _ => True
  | OQuery (Some ti) vn vt p sp r =>
      (vn = [] /\ (p <> None \/ sp <> [])) \/
      (ti_types ti = true /\ r = ARejected /\
       (* the arguments could be built *)
       Forall (Forall (fun t => t <> None)) vt /\
       (forall e, p = Some e -> exists c, build vn e = Ok c) /\
       Forall (fun s => forall e, s = Some e -> exists c, build vn e = Ok c) sp)
  | _ => False
  end.

(** A session. *)
Fixpoint session (os : list op) (h : heap) : list (outcome unit) * heap :=
  match os with
  | [] => ([], h)
  | o :: r => let '(x, h1) := run o h in
              let '(xs, h2) := session r h1 in (x :: xs, h2)
  end.
