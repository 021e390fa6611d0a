(** Specification: what a Lisp object with databases in it is after it was stored
    and restored. *)
From Verif Require Import Base Types CApi CApiSpec ArchiveSpec CLStore.

(** [comes_back o o']: o' is o with databases of the same traces in the place of
    its databases and nil in the place of each view restricted to a file (the source
    says that views are not stored). *)
Inductive comes_back : lobj -> lobj -> Prop :=
| BSym s : comes_back (LSym s) (LSym s)
| BText s : comes_back (LText s) (LText s)
| BCons a a' d d' : comes_back a a' -> comes_back d d' -> comes_back (LCons a d) (LCons a' d')
| BStd c l l' : comes_back l l' -> comes_back (LStd c l) (LStd c l')
| BDb d d' m m' : traces d' = traces d -> comes_back m m' -> comes_back (LDb d m) (LDb d' m')
| BView : comes_back LView lnil
| BSexpView : comes_back LSexpView lnil.

(** The members of all databases are within their types (C31). *)
Fixpoint dbs_storable (o : lobj) : Prop :=
  match o with
  | LCons a d => dbs_storable a /\ dbs_storable d
  | LStd _ l => dbs_storable l
  | LDb d m => storable (traces d) /\ dbs_storable m
  | _ => True
  end.
(** Does a view of a binary database occur? *)
Fixpoint has_view (o : lobj) : bool :=
  match o with
  | LCons a d => has_view a || has_view d
  | LStd _ l => has_view l
  | LDb _ m => has_view m
  | LView => true
  | _ => false
  end.
