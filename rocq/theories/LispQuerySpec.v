(** Specification of the answers of query-trace with predicates. *)
From Verif Require Import Base Types Predicate PredSpec Query QuerySpec Lisp LispSpec.

(** [asks names e x]: the argument e of :predicate, or an element of that of
    :soft-predicates, is the condition x; without predicate it always holds. *)
Definition asks (names : list N) (e : option sexp) (x : bexp) : Prop :=
  match e with Some e => says names e x | None => x = BTrue end.

(** [numbers tys ts fv]: fv are the positions of the type names ts. *)
Definition numbers (tys : list name) (ts : list name) (fv : list N) : Prop :=
  Forall2 (fun t i => nthN tys i = Some t /\ forall j, j < i -> nthN tys j <> Some t) ts fv.

(** [held vars xs n]: n of the conditions xs hold. *)
Inductive held (vars : list var) : list bexp -> N -> Prop :=
| held_nil : held vars [] 0
| held_yes : forall x xs n, means vars x -> held vars xs n -> held vars (x :: xs) (n + 1)
| held_no : forall x xs n, ~ means vars x -> held vars xs n -> held vars (x :: xs) n.

(** The choice bs of variables of p is wanted: the condition x holds, and for
    no other such choice more of the conditions xs hold. *)
Definition candidate (fvs : list (list N)) (x : bexp) (p : point N) (bs : list N) : Prop :=
  assignment p fvs bs /\ means (bound p bs) x.
Definition wanted (fvs : list (list N)) (x : bexp) (xs : list bexp) (p : point N) (bs : list N) : Prop :=
  candidate fvs x p bs /\
  forall bs' n n', candidate fvs x p bs' -> held (bound p bs) xs n -> held (bound p bs') xs n' -> n' <= n.

(** [shows names types r s]: s is the point r as Lisp data. *)
Inductive shows_value (v : var) : lval -> Prop :=
| shows_int : forall z, int_value v = Some z -> shows_value v (LInt z)
| shows_single : forall u, v_fmt v = FLOAT -> v_val v = VBits u -> v_size v = 4 -> shows_value v (LFloat 4 (u mod 2 ^ 32))
| shows_double : forall u, v_fmt v = FLOAT -> v_val v = VBits u -> v_size v <> 4 -> shows_value v (LFloat 8 u)
| shows_blob : forall bs rest, v_fmt v = BLOB -> v_val v = VBlob (bs ++ rest) -> lenN bs = v_size v -> shows_value v (LBlob bs).
Definition shows_var (names : list name) (types : list tdesc) (v : var) (w : lvar) : Prop :=
  nthN names (v_name v) = Some (lv_name w) /\
  (exists t, nthN types (v_type v) = Some t /\ nthN names (t_name t) = Some (lv_type w)) /\
  shows_value v (lv_value w) /\
  lv_size w = (if v_has v =? 0 then None else Some (v_bsz v)).
Definition shows (names : list name) (types : list tdesc) (r : point N) (s : lpoint) : Prop :=
  (p_stmt r < 2 ^ 63 -> lp_f s = None /\ lp_c s = p_stmt r) /\
  (2 ^ 63 <= p_stmt r < 2 ^ 64 -> lp_f s = Some ((p_stmt r / 2 ^ 40) mod 2 ^ 23) /\ lp_c s = p_stmt r mod 2 ^ 40) /\
  Forall2 (shows_var names types) (p_vars r) (lp_scopes s) /\ lp_aux s = p_aux r.
