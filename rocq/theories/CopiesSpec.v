(** Specification of the traces of software objects for all histories, without
    references: objects are in families.  A copy is in the family of its
    original; an object leaves its family when its traces are collected anew
    with collect-traces (traceable.lisp:95-132) or set to NIL; the traces of a
    single test case (lines 134-266) are added for the whole family. *)
From Coq Require Import List Bool Arith ZArith.
From Verif Require Import Base Collect Copies.
Import ListNotations.
Open Scope nat_scope.

Section Families.
Variable T : Type.

(** The number of the next family; family and traces of each object. *)
Record families := mkF { f_next : nat; f_objs : list (nat * option (list T)) }.

Definition family_op (fs : families) (x : op T) : families :=
  match x with
  | Make => mkF (S (f_next fs)) (f_objs fs ++ [(f_next fs, None)])
  | Copy o =>
      match nth_error (f_objs fs) o with
      | Some gv => mkF (f_next fs) (f_objs fs ++ [gv])
      | None => fs
      end
  | Collect o one bin ph num ts =>
      match nth_error (f_objs fs) o with
      | Some (g, v) =>
          match bin, ph with
          | false, PhErr _ ChSkip | false, PhErr _ ChUnwind => fs
          | _, _ => mkF (S (f_next fs))
                      (put (f_objs fs) o (f_next fs, w_db (fst (collect_traces one ph num ts (mkW bin v 0)))))
          end
      | None => fs
      end
  | CollectCase o one bin t num =>
      match nth_error (f_objs fs) o with
      | Some (g, Some d) =>
          let v := w_db (fst (one t num (mkW bin (Some d) 0))) in
          mkF (f_next fs) (map (fun gv => if fst gv =? g then (g, v) else gv) (f_objs fs))
      | _ => fs
      end
  end.
Definition family_run (fs : families) (l : list (op T)) : families := fold_left family_op l fs.
Definition no_families : families := mkF 0 [].
End Families.
Arguments mkF {T}. Arguments f_next {T}. Arguments f_objs {T}.
Arguments family_op {T}. Arguments family_run {T}. Arguments no_families {T}.
