(** The same operations without sharing: every object holds its own copy. *)
From Verif Require Import Base Types Flyweight.

Record plain := mkPl { pl_vars : list var; pl_data : list sdval }.

Definition step_plain (s : plain) (o : fop) : option plain :=
  match o with
  | NewVar v => Some (mkPl (pl_vars s ++ [v]) (pl_data s))
  | CopyVar i => match nth_error (pl_vars s) i with Some v => Some (mkPl (pl_vars s ++ [v]) (pl_data s)) | None => None end
  | DropVar i => match nth_error (pl_vars s) i with Some _ => Some (mkPl (remove_at (pl_vars s) i) (pl_data s)) | None => None end
  | NewData sizes is aux =>
      match pick_all (pl_vars s) is with Some l => Some (mkPl (pl_vars s) (pl_data s ++ [mkDV sizes l aux])) | None => None end
  | CopyData i => match nth_error (pl_data s) i with Some d => Some (mkPl (pl_vars s) (pl_data s ++ [d])) | None => None end
  | DropData i => match nth_error (pl_data s) i with Some _ => Some (mkPl (pl_vars s) (remove_at (pl_data s) i)) | None => None end
  | VarOfData i j =>
      match nth_error (pl_data s) i with
      | Some d => match nth_error (dv_vars d) j with Some v => Some (mkPl (pl_vars s ++ [v]) (pl_data s)) | None => None end
      | None => None
      end
  end.
Fixpoint run_plain (s : plain) (l : list fop) : option plain :=
  match l with
  | [] => Some s
  | o :: r => match step_plain s o with Some s' => run_plain s' r | None => None end
  end.

(** The variables created by a program. *)
Definition created (l : list fop) : list var := flat_map (fun o => match o with NewVar v => [v] | _ => [] end) l.
