(** Model of the sharing of variables and point data: boost::flyweight with
    its default configuration (hashed factory, reference counted, no
    intermodule holder).  TraceVarInfo.hpp:29-30 (FlyweightTraceVarInfo),
    TracePoint.hpp:37-38 (FlyweightTracePointData), 60 (m_vars), 236 (m_data).

    A pool holds the distinct values with their reference counts.  A flyweight
    object is the address of its pool entry. *)
From Verif Require Import Base Types Compare Order.

Section Pool.
Context {T : Type}.
Variable eq : T -> T -> bool.      (* operator== *)
Variable h : T -> N.               (* hash_value *)

Record fentry := mkF { f_adr : N; f_val : T; f_cnt : N }.

(** Lookup in the hashed container: only elements with the same hash code are compared. *)
Definition pool_find (pool : list fentry) (v : T) : option fentry :=
  find (fun e => (h (f_val e) =? h v) && eq (f_val e) v) pool.

(** flyweight::get *)
Fixpoint pool_get (pool : list fentry) (a : N) : option T :=
  match pool with
  | [] => None
  | e :: r => if f_adr e =? a then Some (f_val e) else pool_get r a
  end.

(** Copy construction of a flyweight: add_ref. *)
Fixpoint retain (pool : list fentry) (a : N) : outcome (list fentry) :=
  match pool with
  | [] => UB UDangling
  | e :: r => if f_adr e =? a then Ok (mkF (f_adr e) (f_val e) (f_cnt e + 1) :: r)
              else r' <- retain r a ;; Ok (e :: r')
  end.

(** Destruction of a flyweight: release; the entry is erased with the last
    reference.  Returns the value that is destroyed, if any. *)
Fixpoint release (pool : list fentry) (a : N) : outcome (list fentry * option T) :=
  match pool with
  | [] => UB UDangling
  | e :: r =>
      if f_adr e =? a then
        if f_cnt e =? 1 then Ok (r, Some (f_val e))
        else Ok (mkF (f_adr e) (f_val e) (f_cnt e - 1) :: r, None)
      else ' (r', d) <- release r a ;; Ok (e :: r', d)
  end.

(** flyweight(value): find or insert.  [new used] is the address of a new
    entry when the addresses [used] are occupied. *)
Definition intern (new : list N -> N) (pool : list fentry) (v : T) : outcome (list fentry * N * bool) :=
  match pool_find pool v with
  | Some e => pool' <- retain pool (f_adr e) ;; Ok (pool', f_adr e, false)
  | None => let a := new (map f_adr pool) in Ok (mkF a v 1 :: pool, a, true)
  end.
End Pool.
Arguments fentry : clear implicits.

Fixpoint retain_all {T} (pool : list (fentry T)) (l : list N) : outcome (list (fentry T)) :=
  match l with
  | [] => Ok pool
  | a :: r => p <- retain pool a ;; retain_all p r
  end.
Fixpoint release_all {T} (pool : list (fentry T)) (l : list N) : outcome (list (fentry T)) :=
  match l with
  | [] => Ok pool
  | a :: r => ' (p, _) <- release pool a ;; release_all p r
  end.

(** Point data in the pool: its variables are flyweights.  TracePointData::operator==
    (TracePoint.hpp:137-141) compares them, i.e. their addresses. *)
Record sdata := mkSD { sd_sizes : list bufsz; sd_vars : list N; sd_aux : list N }.
Definition sdata_eqb (a b : sdata) : bool :=
  list_eqb bufsz_eqb (sd_sizes a) (sd_sizes b) && list_eqb N.eqb (sd_vars a) (sd_vars b) && list_eqb N.eqb (sd_aux a) (sd_aux b).

(** The two pools and the flyweights that the program holds. *)
Record shared := mkSh {
  sh_vp : list (fentry var);
  sh_dp : list (fentry sdata);
  sh_vars : list N;
  sh_data : list N
}.

(** What the program can do. *)
Inductive fop :=
| NewVar (v : var)                                        (* FlyweightTraceVarInfo(v) *)
| CopyVar (i : nat) | DropVar (i : nat)
| NewData (sizes : list bufsz) (vars : list nat) (aux : list N)   (* FlyweightTracePointData(sizes, vars, aux) *)
| CopyData (i : nat) | DropData (i : nat)
| VarOfData (i j : nat).                                  (* copy of getVars()[j] of data i *)

Fixpoint remove_at {A} (l : list A) (i : nat) : list A :=
  match l, i with
  | [], _ => []
  | _ :: r, O => r
  | x :: r, S j => x :: remove_at r j
  end.

Fixpoint pick_all {A} (l : list A) (is : list nat) : option (list A) :=
  match is with
  | [] => Some []
  | i :: r => match nth_error l i, pick_all l r with Some x, Some xs => Some (x :: xs) | _, _ => None end
  end.

Section Machine.
Variables (new : list N -> N) (hv : var -> N) (hd : sdata -> N).

(** An index out of range is an error of the caller ([Abort]). *)
Definition step_shared (s : shared) (o : fop) : outcome shared :=
  match o with
  | NewVar v =>
      ' (vp, a, _) <- intern var_eqb hv new (sh_vp s) v ;;
      Ok (mkSh vp (sh_dp s) (sh_vars s ++ [a]) (sh_data s))
  | CopyVar i =>
      match nth_error (sh_vars s) i with
      | Some a => vp <- retain (sh_vp s) a ;; Ok (mkSh vp (sh_dp s) (sh_vars s ++ [a]) (sh_data s))
      | None => Abort
      end
  | DropVar i =>
      match nth_error (sh_vars s) i with
      | Some a => ' (vp, _) <- release (sh_vp s) a ;; Ok (mkSh vp (sh_dp s) (remove_at (sh_vars s) i) (sh_data s))
      | None => Abort
      end
  | NewData sizes is aux =>
      match pick_all (sh_vars s) is with
      | Some l =>
          let d := mkSD sizes l aux in
          ' (dp, a, fresh) <- intern sdata_eqb hd new (sh_dp s) d ;;
          (* a new entry holds copies of the variables *)
          vp <- (if fresh : bool then retain_all (sh_vp s) l else Ok (sh_vp s)) ;;
          Ok (mkSh vp dp (sh_vars s) (sh_data s ++ [a]))
      | None => Abort
      end
  | CopyData i =>
      match nth_error (sh_data s) i with
      | Some a => dp <- retain (sh_dp s) a ;; Ok (mkSh (sh_vp s) dp (sh_vars s) (sh_data s ++ [a]))
      | None => Abort
      end
  | DropData i =>
      match nth_error (sh_data s) i with
      | Some a =>
          ' (dp, dead) <- release (sh_dp s) a ;;
          vp <- match dead with Some d => release_all (sh_vp s) (sd_vars d) | None => Ok (sh_vp s) end ;;
          Ok (mkSh vp dp (sh_vars s) (remove_at (sh_data s) i))
      | None => Abort
      end
  | VarOfData i j =>
      match nth_error (sh_data s) i with
      | Some a =>
          match pool_get (sh_dp s) a with
          | Some d =>
              match nth_error (sd_vars d) j with
              | Some b => vp <- retain (sh_vp s) b ;; Ok (mkSh vp (sh_dp s) (sh_vars s ++ [b]) (sh_data s))
              | None => Abort
              end
          | None => UB UDangling
          end
      | None => Abort
      end
  end.

Fixpoint run_shared (s : shared) (l : list fop) : outcome shared :=
  match l with
  | [] => Ok s
  | o :: r => s' <- step_shared s o ;; run_shared s' r
  end.
End Machine.

(** What the program sees: the values its flyweights refer to. *)
Record sdval := mkDV { dv_sizes : list bufsz; dv_vars : list var; dv_aux : list N }.
Definition see_vars (vp : list (fentry var)) (l : list N) : outcome (list var) :=
  fold_right (fun a o => vs <- o ;; match pool_get vp a with Some v => Ok (v :: vs) | None => UB UDangling end) (Ok []) l.
Definition see_data (s : shared) (a : N) : outcome sdval :=
  match pool_get (sh_dp s) a with
  | Some d => vs <- see_vars (sh_vp s) (sd_vars d) ;; Ok (mkDV (sd_sizes d) vs (sd_aux d))
  | None => UB UDangling
  end.
