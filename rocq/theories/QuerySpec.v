(** Specification of queries. *)
From Verif Require Import Base Types Predicate PredSpec Query.


(** The points a query looks at. *)
Definition selected (mask stmt : N) (p : pt) : Prop := N.land (p_stmt p) mask = stmt.

(** [bs] assigns to each free variable (given by its allowed types) the
    position of a variable of point [p] with an allowed type. *)
Definition assignment (p : pt) (fvs : list (list N)) (bs : list N) : Prop :=
  Forall2 (fun fv b => exists v, nthN (p_vars p) b = Some v /\ In (v_type v) fv) fvs bs.

(** The variables at the positions [bs]. *)
Definition bound (p : pt) (bs : list N) : list var :=
  flat_map (fun b => match nthN (p_vars p) b with Some v => [v] | None => [] end) bs.

(** The result for an assignment. *)
Definition result (p : pt) (bs : list N) : pt :=
  mkP (p_counter p) (p_stmt p) (p_sizes p) (bound p bs) (p_aux p).

(** Order of assignments of the same length: compared at the last position
    where they differ (so the first free variable varies fastest). *)
Inductive before : list N -> list N -> Prop :=
| before_tail : forall a b l l', before l l' -> before (a :: l) (b :: l')
| before_head : forall a b l, a < b -> before (a :: l) (b :: l).

Fixpoint ascending (l : list (list N)) : Prop :=
  match l with
  | [] => True
  | x :: r => Forall (before x) r /\ ascending r
  end.

(** All combinations of one element of each list, the first varying fastest. *)
Fixpoint product {A} (vs : list (list A)) : list (list A) :=
  match vs with
  | [] => [[]]
  | v :: r => flat_map (fun t => map (fun x => x :: t) v) (product r)
  end.

(** Number of combinations. *)
Fixpoint prod_len {A} (vs : list (list A)) : N :=
  match vs with [] => 1 | v :: r => lenN v * prod_len r end.

(** Number of variables of a point with a type allowed for a free variable. *)
Definition n_allowed (p : pt) (fv : list N) : N :=
  lenN (filter (fun v => if in_dec N.eq_dec (v_type v) fv then true else false) (p_vars p)).

Fixpoint n_assignments (p : pt) (fvs : list (list N)) : N :=
  match fvs with [] => 1 | fv :: r => n_allowed p fv * n_assignments p r end.

(** The number of assignments at a point fits into size_t, and memory for
    their vector (24 bytes each) is available. *)
Definition fits (ok : N -> bool) (p : pt) (fvs : list (list N)) : Prop :=
  n_assignments p fvs < 2 ^ 64 /\ ok (24 * n_assignments p fvs) = true.

(** What the cache of points of a trace may contain. *)
Definition coherent (points : list pt) (c : list ((N * N) * list pt)) : Prop :=
  Forall (fun e => snd e = filter (fun p => N.land (p_stmt p) (fst (fst e)) =? snd (fst e)) points) c.

(** Number of soft predicates that hold. *)
Definition score (O : fops) (soft : list pred) (vs : list var) : N :=
  lenN (filter (fun s => match satisfied O vs s with Ok true => true | _ => false end) soft).

(** Keys for duplicate removal. *)
Definition key (p : pt) : N * list (N * N) := (p_stmt p, map (fun v => (v_name v, v_type v)) (p_vars p)).

(** [firsts seen l r]: r is l without the elements whose key is in [seen] or
    is the key of an earlier element. *)
Inductive firsts : list (N * list (N * N)) -> list pt -> list pt -> Prop :=
| first_nil : forall seen, firsts seen [] []
| first_new : forall seen x l r, ~ In (key x) seen -> firsts (key x :: seen) l r -> firsts seen (x :: l) (x :: r)
| first_dup : forall seen x l r, In (key x) seen -> firsts seen l r -> firsts seen (x :: l) r.

(** ** Sessions with a predicate cache *)
Definition session_ok (Q : pred -> Prop) (l : list (list pt * gp_cache * qargs)) : Prop :=
  Forall (fun x => let '(points, c, q) := x in coherent points c /\ Forall (fun p : pt => Forall var_ok (p_vars p)) points /\
                     Q (q_hard q) /\ Forall Q (q_soft q)) l.

(** Hash codes determine the answer on the pairs that satisfy D. *)
Definition no_collision (O : fops) (h : pred -> list var -> N) (D : pred -> list var -> Prop) : Prop :=
  forall p vs q ws, D p vs -> D q ws -> h p vs = h q ws -> satisfied O vs p = satisfied O ws q.
