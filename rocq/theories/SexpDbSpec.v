(** Specification of the s-expression database with views. *)
From Verif Require Import Base Types CApi Lisp LispSpec SexpDb.

Section Spec.
Variable A : Type.

(** What users expect: a database has the traces added to it with their
    metadata, newest first; a view shows the points of one file of what its
    parent has. *)
Inductive robj := RBase (l : list (list lpoint * A)) | RView (f : N) (parent : nat).
Definition rworld := list robj.

Definition in_file (f : N) (t : list lpoint) : list lpoint :=
  filter (fun p => match lp_f p with Some g => g =? f | None => false end) t.

Inductive shows (r : rworld) : nat -> list (list lpoint * A) -> Prop :=
| show_base : forall i l, nth_error r i = Some (RBase l) -> shows r i l
| show_view : forall i f p l, nth_error r i = Some (RView f p) -> shows r p l ->
    shows r i (map (fun e => (in_file f (fst e), snd e)) l).

(** Traces are added to databases only; an addition to a view is no concern of
    the others. *)
Definition ref_op (r : rworld) (o : sop A) : rworld :=
  match o with
  | ONew => r ++ [RBase []]
  | OAdd i t m => match nth_error r i with
                  | Some (RBase l) => firstn i r ++ RBase ((t, m) :: l) :: skipn (S i) r
                  | _ => r
                  end
  | ORestrict i f => match nth_error r i with Some _ => r ++ [RView f i] | None => r end
  end.
Definition ref_run (os : list (sop A)) : rworld := fold_left ref_op os [].

(** Object i is a view of object j, directly or through other views. *)
Inductive view_of (r : rworld) : nat -> nat -> Prop :=
| vo_direct : forall i f p, nth_error r i = Some (RView f p) -> view_of r i p
| vo_chain : forall i f p j, nth_error r i = Some (RView f p) -> view_of r p j -> view_of r i j.

(** Nothing is added to a database once there is a view of it, nor to a view. *)
Definition allowed (r : rworld) (o : sop A) : Prop :=
  match o with
  | OAdd i _ _ => (exists l, nth_error r i = Some (RBase l)) /\ forall v, ~ view_of r v i
  | _ => True
  end.
Fixpoint quiet (r : rworld) (os : list (sop A)) : Prop :=
  match os with
  | [] => True
  | o :: rest => allowed r o /\ quiet (ref_op r o) rest
  end.

(** What is to be seen at an index. *)
Definition seen (l : list (list lpoint * A)) (index : N) : list lpoint * option A :=
  match nthN l index with Some (t, m) => (t, Some m) | None => ([], None) end.
End Spec.
Arguments RBase {A}. Arguments RView {A}. Arguments shows {A}. Arguments view_of {A}. Arguments quiet {A}. Arguments seen {A}.
Arguments ref_run {A}. Arguments ref_op {A}. Arguments allowed {A}.

(** The assignments of the variables at a point to the free variables: one
    variable of an allowed type for each, no variable twice. *)
Definition assignment (var_types : list (list name)) (p : lpoint) (vs : list lvar) : Prop :=
  Forall2 (fun v ts => In v (lp_scopes p) /\ In (lv_type v) ts) vs var_types /\ NoDup vs.
(** What the library function is documented to do. *)
Definition cartesian_spec (cart : list (list lvar) -> list (list lvar)) : Prop :=
  forall ls vs, In vs (cart ls) <-> Forall2 (fun v l => In v l) vs ls /\ NoDup vs.
