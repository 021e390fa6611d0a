(** Software objects with traces, their copies, and collection of traces
    (traceable.lisp:34-38 class traceable, 95-132 reset-traces and
    collect-traces, 134-266 collect-test-case-traces).  The slot traces has
    :copier :direct, so that a copy refers to the same database.  What a
    collection adds is that of Collect.v.

    Simplified: objects are never freed; errors are not propagated, the next
    operation is done in the state they leave; for an object without database,
    collect-test-case-traces adds nothing (add-trace has no method for NIL). *)
From Coq Require Import List Bool Arith ZArith.
From Verif Require Import Base Collect.
Import ListNotations.
Open Scope nat_scope.

Section Copies.
Variable T : Type.

(** The databases ever made, and the slot traces of each object (None: NIL). *)
Record objects := mkO { o_dbs : list (list T); o_slots : list (option nat) }.

(** What the traces of an object are: the accessor traces, line 35. *)
Definition slot_content (st : objects) (s : option nat) : option (list T) :=
  match s with Some r => nth_error (o_dbs st) r | None => None end.
Definition traces_of (st : objects) (o : nat) : option (option (list T)) :=
  option_map (slot_content st) (nth_error (o_slots st) o).

Definition case_fun := tcase T -> option Z -> world T -> world T * ending.

(** Operations on objects: make and copy of software objects (class at lines
    34-38), collect-traces (102-132), collect-test-case-traces (134-266).  [bin]: does the file of the compiled program exist before? *)
Inductive op :=
| Make
| Copy (o : nat)
| Collect (o : nat) (one : case_fun) (bin : bool) (ph : phenome) (num : option nat) (ts : list (tcase T))
| CollectCase (o : nat) (one : case_fun) (bin : bool) (t : tcase T) (num : option Z).

Fixpoint put {A} (l : list A) (i : nat) (x : A) : list A :=
  match l, i with
  | [], _ => []
  | _ :: r, O => x :: r
  | y :: r, S j => y :: put r j x
  end.

Definition contents (w : world T) : list T := match w_db w with Some d => d | None => [] end.

(** Does collect-traces get as far as reset-traces (line 126)? *)
Definition resets (bin : bool) (ph : phenome) : bool :=
  bin || match ph with PhOk _ => true | PhErr _ _ => false end.

Definition step_op (st : objects) (x : op) : objects :=
  match x with
  | Make => mkO (o_dbs st) (o_slots st ++ [None])                    (* line 35: :initform nil *)
  | Copy o =>
      match nth_error (o_slots st) o with
      | Some s => mkO (o_dbs st) (o_slots st ++ [s])                 (* line 35: :copier :direct *)
      | None => st
      end
  | Collect o one bin ph num ts =>
      match nth_error (o_slots st) o with
      | None => st
      | Some s =>
          if resets bin ph then                                      (* lines 95-100, 126-132 *)
            let w := fst (collect_traces one ph num ts (mkW bin (slot_content st s) 0)) in
            mkO (o_dbs st ++ [contents w]) (put (o_slots st) o (Some (length (o_dbs st))))
          else match ph with
               | PhErr _ ChNil => mkO (o_dbs st) (put (o_slots st) o None)     (* lines 122-125 *)
               | _ => st                                                       (* lines 119-121 *)
               end
      end
  | CollectCase o one bin t num =>
      match nth_error (o_slots st) o with
      | Some (Some r) =>
          let w := fst (one t num (mkW bin (nth_error (o_dbs st) r) 0)) in
          mkO (put (o_dbs st) r (contents w)) (o_slots st)
      | _ => st
      end
  end.
Definition run_ops (st : objects) (l : list op) : objects := fold_left step_op l st.
Definition no_objects : objects := mkO [] [].

(** ** Specification: every object has traces of its own.  The flag says
    whether the object has not been copied, and is not a copy, since its last
    collection of traces. *)
Definition values := list (option (list T) * bool).

Definition spec_op (vs : values) (x : op) : values :=
  match x with
  | Make => vs ++ [(None, true)]
  | Copy o =>
      match nth_error vs o with
      | Some (v, _) => put vs o (v, false) ++ [(v, false)]
      | None => vs
      end
  | Collect o one bin ph num ts =>
      match nth_error vs o with
      | Some (v, f) =>
          put vs o (w_db (fst (collect_traces one ph num ts (mkW bin v 0))), f || resets bin ph)
      | None => vs
      end
  | CollectCase o one bin t num =>
      match nth_error vs o with
      | Some (Some d, f) => put vs o (w_db (fst (one t num (mkW bin (Some d) 0))), f)
      | _ => vs
      end
  end.
Definition spec_run (vs : values) (l : list op) : values := fold_left spec_op l vs.

(** Single test cases are collected only for objects with the flag. *)
Fixpoint cases_own (vs : values) (l : list op) : Prop :=
  match l with
  | [] => True
  | x :: r =>
      match x with
      | CollectCase o _ _ _ _ => forall v f, nth_error vs o = Some (v, f) -> f = true
      | _ => True
      end /\ cases_own (spec_op vs x) r
  end.

(** The collections are those of the code. *)
Definition op_known (x : op) : Prop :=
  match x with
  | Collect _ one _ _ _ _ | CollectCase _ one _ _ _ => one = binary_case \/ one = sexp_case
  | _ => True
  end.
Definition whole_only (x : op) : Prop := match x with CollectCase _ _ _ _ _ => False | _ => True end.

End Copies.
Arguments mkO {T}. Arguments o_dbs {T}. Arguments o_slots {T}. Arguments traces_of {T}. Arguments slot_content {T}.
Arguments Make {T}. Arguments Copy {T}. Arguments Collect {T}. Arguments CollectCase {T}.
Arguments step_op {T}. Arguments run_ops {T}. Arguments no_objects {T}. Arguments spec_op {T}. Arguments spec_run {T}.
Arguments cases_own {T}. Arguments op_known {T}. Arguments whole_only {T}. Arguments contents {T}. Arguments put {A}.
