(** Model of several threads that query traces at the same time: the cache of
    selected points, Trace.hpp:45 and 282-299, is shared and not locked.  Each
    operation on a map or a vector is one step (on a real machine operations
    that overlap can do worse).  Evaluation works on a copy of the points
    (Trace.hpp:333) and is one step, without the predicate cache (see C30). *)
From Verif Require Import Base Types Compare Predicate Query.

(** A cache entry: number of the trace, mask and statement. *)
Definition qkey : Type := nat * (N * N).
Definition qkey_eqb (a b : qkey) : bool :=
  Nat.eqb (fst a) (fst b) && ((fst (snd a) =? fst (snd b)) && (snd (snd a) =? snd (snd b))).

(** A std::vector: the number of its buffer, its size and capacity. *)
Record vec := mkVec { vc_buf : nat; vc_len : nat; vc_cap : nat }.

(** The caches of all traces; the buffers allocated so far with their elements
    ([None]: deallocated). *)
Record cshared := mkCS { cs_map : list (qkey * vec); cs_bufs : list (option (list pt)) }.

(** m_getpoints_cache.find(key), m_getpoints_cache[key] for a key that is there *)
Fixpoint map_find (m : list (qkey * vec)) (k : qkey) : option vec :=
  match m with
  | [] => None
  | (k', v) :: r => if qkey_eqb k' k then Some v else map_find r k
  end.
Fixpoint map_set (m : list (qkey * vec)) (k : qkey) (v : vec) : list (qkey * vec) :=
  match m with
  | [] => [(k, v)]
  | (k', v') :: r => if qkey_eqb k' k then (k', v) :: r else (k', v') :: map_set r k v
  end.
Fixpoint set_at {A} (l : list A) (i : nat) (x : A) : list A :=
  match l, i with
  | [], _ => []
  | _ :: r, O => x :: r
  | y :: r, S i' => y :: set_at r i' x
  end.
Definition buffer (sh : cshared) (b : nat) : option (list pt) :=
  match nth_error (cs_bufs sh) b with Some (Some l) => Some l | _ => None end.

(** Where a thread is in Trace::query. *)
Inductive qstate :=
| QFind                          (* before the test, Trace.hpp:289 *)
| QInsert                        (* not found; before m_getpoints_cache[key] = TracePoints(), line 290 *)
| QFill (rest : list pt)         (* in the loop, lines 291-295: points still to be looked at *)
| QRef                           (* before line 298 *)
| QCopy (b n i : nat) (got : list pt)  (* copying n elements of buffer b, i done, Trace.hpp:333 *)
| QEval (ps : list pt)           (* points copied *)
| QDone (o : outcome (list pt))  (* query returned or threw *)
| QCrash (u : ub).

Section ConcQuery.
Variable grow : nat -> nat.               (* capacity after a reallocation *)
Variable points : nat -> list pt.         (* m_points of each trace *)
Variable ok : N -> bool.
Variable pick : N -> N -> N.
Variable O : fops.

(** A call: number of the trace and arguments. *)
Definition qcall : Type := nat * qargs.
Definition key_of (c : qcall) : qkey := (fst c, (q_mask (snd c), q_stmt (snd c))).

(** Trace.hpp:335-361, on the copy of the points *)
Definition on_points (q : qargs) (ps : list pt) : outcome (list pt) :=
  if q_seed q =? 0 then
    ' (rs, _) <- collect_all unit (direct O) ok tt ps (q_fvs q) (q_hard q) (q_soft q) ;; Ok rs
  else
    match ps with
    | [] => Ok []
    | _ => match nthN ps (pick (q_seed q) (lenN ps)) with
           | Some p => ' (rs, _) <- collect unit (direct O) ok tt p (q_fvs q) (q_hard q) (q_soft q) ;; Ok rs
           | None => UB UOob
           end
    end.

(** m_getpoints_cache[key].push_back(point), Trace.hpp:293 *)
Definition push_point (sh : cshared) (k : qkey) (p : pt) : option cshared :=
  match map_find (cs_map sh) k with
  | None => None
  | Some v =>
      match buffer sh (vc_buf v) with
      | None => None
      | Some l =>
          let l' := firstn (vc_len v) l ++ [p] in
          if Nat.ltb (vc_len v) (vc_cap v) then
            Some (mkCS (map_set (cs_map sh) k (mkVec (vc_buf v) (S (vc_len v)) (vc_cap v)))
                       (set_at (cs_bufs sh) (vc_buf v) (Some l')))
          else
            Some (mkCS (map_set (cs_map sh) k (mkVec (length (cs_bufs sh)) (S (vc_len v)) (grow (vc_cap v))))
                       (set_at (cs_bufs sh) (vc_buf v) None ++ [Some l']))
      end
  end.

(** One step of a thread; [None]: it has ended. *)
Definition qstep (c : qcall) (sh : cshared) (s : qstate) : option (cshared * qstate) :=
  let k := key_of c in
  match s with
  | QFind => Some (sh, match map_find (cs_map sh) k with Some _ => QRef | None => QInsert end)
  | QInsert =>
      (* an entry made meanwhile by another thread loses its buffer *)
      let bufs := match map_find (cs_map sh) k with
                  | Some v => set_at (cs_bufs sh) (vc_buf v) None
                  | None => cs_bufs sh
                  end in
      Some (mkCS (map_set (cs_map sh) k (mkVec (length bufs) 0 0)) (bufs ++ [Some []]), QFill (points (fst c)))
  | QFill [] => Some (sh, QRef)
  | QFill (p :: rest) =>
      if N.land (p_stmt p) (q_mask (snd c)) =? q_stmt (snd c) then
        match push_point sh k p with
        | Some sh' => Some (sh', QFill rest)
        | None => Some (sh, QCrash UDangling)
        end
      else Some (sh, QFill rest)
  | QRef =>
      match map_find (cs_map sh) k with
      | Some v => Some (sh, QCopy (vc_buf v) (vc_len v) 0 [])
      | None => Some (sh, QCrash UDangling)
      end
  | QCopy b n i got =>
      if Nat.ltb i n then
        match buffer sh b with
        | Some l => match nth_error l i with
                    | Some p => Some (sh, QCopy b n (S i) (got ++ [p]))
                    | None => Some (sh, QCrash UOob)
                    end
        | None => Some (sh, QCrash UDangling)
        end
      else Some (sh, QEval got)
  | QEval ps => Some (sh, QDone (on_points (snd c) ps))
  | QDone _ | QCrash _ => None
  end.

Definition qsystem : Type := cshared * list (qcall * qstate).

(** Thread [i] makes a step, if it can. *)
Definition qpick (i : nat) (st : qsystem) : qsystem :=
  let '(sh, ts) := st in
  match nth_error ts i with
  | None => st
  | Some (c, s) => match qstep c sh s with
                   | None => st
                   | Some (sh', s') => (sh', set_at ts i (c, s'))
                   end
  end.
Fixpoint qexec (sched : list nat) (st : qsystem) : qsystem :=
  match sched with
  | [] => st
  | i :: r => qexec r (qpick i st)
  end.
Definition qstart (sh : cshared) (cs : list qcall) : qsystem := (sh, map (fun c => (c, QFind)) cs).
End ConcQuery.
