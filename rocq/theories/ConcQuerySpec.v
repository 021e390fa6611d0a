(** Specification of queries by several threads. *)
From Verif Require Import Base Types Compare Predicate Query ConcQuery.

(** The points of a trace that a query is about. *)
Definition selected (points : nat -> list pt) (c : qcall) : list pt :=
  filter (fun p => N.land (p_stmt p) (q_mask (snd c)) =? q_stmt (snd c)) (points (fst c)).

(** What a query returns on a fresh copy of the trace when nothing else runs. *)
Definition alone (ok : N -> bool) (pick : N -> N -> N) (O : fops) (points : nat -> list pt) (c : qcall) : outcome (list pt) :=
  ' (rs, _, _) <- run_query unit (direct O) ok pick (points (fst c)) [] tt (snd c) ;; Ok rs.

(** A cache left by earlier queries: every entry has a buffer of its own with
    the points that its key selects. *)
Definition cache_good (points : nat -> list pt) (sh : cshared) : Prop :=
  (forall c v, map_find (cs_map sh) (key_of c) = Some v ->
     buffer sh (vc_buf v) = Some (selected points c) /\ vc_len v = length (selected points c)) /\
  (forall k k' v v', map_find (cs_map sh) k = Some v -> map_find (cs_map sh) k' = Some v' -> vc_buf v = vc_buf v' -> k = k').

(** Calls with the same trace, mask and statement find their entry made. *)
Definition separate (sh : cshared) (cs : list qcall) : Prop :=
  forall i j c d, nth_error cs i = Some c -> nth_error cs j = Some d -> i <> j -> key_of c = key_of d ->
    map_find (cs_map sh) (key_of c) <> None.

(** The thread is making a cache entry, or reading one. *)
Definition making (s : qstate) : Prop := s = QInsert \/ exists r, s = QFill r.
Definition reading (s : qstate) : Prop := s = QRef \/ exists b n i g, s = QCopy b n i g.

(** While a thread makes an entry, no other thread makes or uses it. *)
Definition calm_now (ts : list (qcall * qstate)) : Prop :=
  forall i j c d s t, nth_error ts i = Some (c, s) -> nth_error ts j = Some (d, t) -> i <> j -> key_of c = key_of d ->
    making s -> ~ making t /\ ~ reading t.
Fixpoint calm (grow : nat -> nat) (points : nat -> list pt) (ok : N -> bool) (pick : N -> N -> N) (O : fops)
  (sched : list nat) (st : qsystem) : Prop :=
  calm_now (snd st) /\
  match sched with [] => True | i :: r => calm grow points ok pick O r (qpick grow points ok pick O i st) end.
