(** Model of queries on a trace (Trace.hpp, TracePoint.hpp, trace-db.cpp). *)
From Verif Require Import Base Types Compare Predicate.

Fixpoint mapO {A B} (f : A -> outcome B) (l : list A) : outcome (list B) :=
  match l with
  | [] => Ok []
  | x :: r => y <- f x ;; ys <- mapO f r ;; Ok (y :: ys)
  end.

(** The numbers below n. *)
Definition below (n : N) : list N := map N.of_nat (seq 0 (N.to_nat n)).

(** Trace::cartesian, Trace.hpp:126-150.  [ok]: outcome of the reserve of
    n_results vectors of 24 bytes. n_results is a size_t and wraps. *)
Definition n_results (vs : list (list N)) : N :=
  fold_left (fun n v => (n * lenN v) mod two64) vs 1.

Fixpoint combo (vs : list (list N)) (quotient : N) : outcome (list N) :=
  match vs with
  | [] => Ok []
  | v :: r =>
      match nthN v (quotient mod lenN v) with
      | Some x => xs <- combo r (quotient / lenN v) ;; Ok (x :: xs)
      | None => UB UOob
      end
  end.

Definition cartesian (ok : N -> bool) (vs : list (list N)) : outcome (list (list N)) :=
  let n := n_results vs in
  if ok (24 * n) then mapO (combo vs) (below n) else Throw EBadAlloc.

(** class FreeVariable, QueryObjects.hpp:249-293: the allowed types.
    Trace::typeCompatible, Trace.hpp:152-159. *)
Definition free_var := list N.
Definition compatible (fv : free_var) (v : var) : bool := existsb (fun t => t =? v_type v) fv.

(** Possible bindings of one free variable, Trace.hpp:183-189. *)
Definition matching (vars : list var) (fv : free_var) : list N :=
  flat_map (fun i => match nthN vars i with
                     | Some v => if compatible fv v then [i] else []
                     | None => []
                     end) (below (lenN vars)).

Notation pt := (point N).

(** m_vars[bindings[i]], TracePoint.hpp:63-67, Trace.hpp:198 *)
Definition lookup_vars (p : pt) (bindings : list N) : outcome (list var) :=
  mapO (fun b => match nthN (p_vars p) b with Some v => Ok v | None => UB UOob end) bindings.

Section Query.
(** How predicates are evaluated: a step of some cache (see below). *)
Variable St : Type.
Variable sat : St -> pred -> list var -> outcome (bool * St).

(** TracePointData::satisfiesPredicate, TracePoint.hpp:117-126 *)
Definition satisfies (st : St) (p : pt) (pr : pred) (bindings : list N) : outcome (bool * St) :=
  vars <- lookup_vars p bindings ;; sat st pr vars.

(** Trace.hpp:192-208 *)
Fixpoint hard_results (st : St) (p : pt) (hard : pred) (bss : list (list N)) : outcome (list pt * St) :=
  match bss with
  | [] => Ok ([], st)
  | bs :: r =>
      ' (b, st) <- satisfies st p hard bs ;;
      if b : bool then
        vars <- lookup_vars p bs ;;
        ' (ps, st) <- hard_results st p hard r ;;
        Ok (mkP (p_counter p) (p_stmt p) (p_sizes p) vars (p_aux p) :: ps, st)
      else hard_results st p hard r
  end.

(** Trace.hpp:223-228; the count is an unsigned int. *)
Fixpoint count_soft (st : St) (p : pt) (soft : list pred) (bs : list N) (n : N) : outcome (N * St) :=
  match soft with
  | [] => Ok (n, st)
  | s :: r =>
      ' (b, st) <- satisfies st p s bs ;;
      count_soft st p r bs (if b : bool then (n + 1) mod two32 else n)
  end.

(** Trace.hpp:222-231 *)
Fixpoint sat_counts (st : St) (rs : list pt) (soft : list pred) (bs : list N) : outcome (list N * St) :=
  match rs with
  | [] => Ok ([], st)
  | r :: rest =>
      ' (n, st) <- count_soft st r soft bs 0 ;;
      ' (ns, st) <- sat_counts st rest soft bs ;;
      Ok (n :: ns, st)
  end.

Definition max_count (ns : list N) : N := fold_left N.max ns 0.

(** Trace.hpp:233-236 *)
Fixpoint select {A} (m : N) (ns : list N) (rs : list A) : list A :=
  match ns, rs with
  | n :: ns, r :: rs => if n =? m then r :: select m ns rs else select m ns rs
  | _, _ => []
  end.

(** Trace::collectResultsAtPoint, Trace.hpp:161-243 *)
Definition collect (ok : N -> bool) (st : St) (p : pt) (fvs : list free_var) (hard : pred) (soft : list pred)
  : outcome (list pt * St) :=
  first <- match fvs with
           | [] => match hard with
                   | Pred NULL_PREDICATE _ _ => Ok [mkP (p_counter p) (p_stmt p) [] [] []]
                   | _ => Abort
                   end
           | _ => Ok []
           end ;;
  bss <- cartesian ok (map (matching (p_vars p)) fvs) ;;
  ' (more, st) <- hard_results st p hard bss ;;
  let rs := first ++ more in
  match soft with
  | [] => Ok (rs, st)
  | _ =>
      ' (ns, st) <- sat_counts st rs soft (below (lenN fvs)) ;;
      Ok (select (max_count ns) ns rs, st)
  end.

(** The cache m_getpoints_cache, Trace.hpp:45, and
    Trace::getPoints(mask, statement), Trace.hpp:282-299. *)
Definition gp_cache := list ((N * N) * list pt).
Definition cache_find (c : gp_cache) (k : N * N) : option (list pt) :=
  match find (fun e => (fst (fst e) =? fst k) && (snd (fst e) =? snd k)) c with
  | Some e => Some (snd e)
  | None => None
  end.
Definition get_points (points : list pt) (c : gp_cache) (mask stmt : N) : list pt * gp_cache :=
  match cache_find c (mask, stmt) with
  | Some l => (l, c)
  | None =>
      let l := filter (fun p => N.land (p_stmt p) mask =? stmt) points in
      (l, ((mask, stmt), l) :: c)
  end.

Fixpoint collect_all (ok : N -> bool) (st : St) (ps : list pt) (fvs : list free_var) (hard : pred) (soft : list pred)
  : outcome (list pt * St) :=
  match ps with
  | [] => Ok ([], st)
  | p :: r =>
      ' (a, st) <- collect ok st p fvs hard soft ;;
      ' (b, st) <- collect_all ok st r fvs hard soft ;;
      Ok (a ++ b, st)
  end.

(** Trace::query, Trace.hpp:326-362.  [pick seed n]: the first number that
    std::uniform_int_distribution(0, n-1) draws from mt19937(seed). *)
Definition query (ok : N -> bool) (pick : N -> N -> N) (points : list pt) (c : gp_cache) (st : St)
  (fvs : list free_var) (hard : pred) (soft : list pred) (seed mask stmt : N)
  : outcome (list pt * gp_cache * St) :=
  let '(ps, c) := get_points points c mask stmt in
  if seed =? 0 then
    ' (rs, st) <- collect_all ok st ps fvs hard soft ;; Ok (rs, c, st)
  else
    match ps with
    | [] => Ok ([], c, st)
    | _ => match nthN ps (pick seed (lenN ps)) with
           | Some p => ' (rs, st) <- collect ok st p fvs hard soft ;; Ok (rs, c, st)
           | None => UB UOob
           end
    end.

(** Arguments of a query. *)
Record qargs := mkQ { q_fvs : list free_var; q_hard : pred; q_soft : list pred; q_seed : N; q_mask : N; q_stmt : N }.
Definition run_query ok pick points c st q :=
  query ok pick points c st (q_fvs q) (q_hard q) (q_soft q) (q_seed q) (q_mask q) (q_stmt q).

(** Queries on one Trace object, one after the other. *)
Fixpoint history ok pick points c st (qs : list qargs) : outcome (list (list pt)) :=
  match qs with
  | [] => Ok []
  | q :: r =>
      ' (rs, c, st) <- run_query ok pick points c st q ;;
      rss <- history ok pick points c st r ;; Ok (rs :: rss)
  end.

(** Queries on different traces, one after the other, in one process. *)
Fixpoint session ok pick st (l : list (list pt * gp_cache * qargs)) : outcome (list (list pt)) :=
  match l with
  | [] => Ok []
  | (points, c, q) :: r =>
      ' (rs, _, st) <- run_query ok pick points c st q ;;
      rss <- session ok pick st r ;; Ok (rs :: rss)
  end.
End Query.

(** Evaluation without a cache. *)
Definition direct (O : fops) (st : unit) (p : pred) (vs : list var) : outcome (bool * unit) :=
  b <- satisfied O vs p ;; Ok (b, tt).

(** ** deduplicate_results, trace-db.cpp:264-303 *)

Definition dedup_key_eqb (a b : pt) : bool :=
  (p_stmt a =? p_stmt b) &&
  Nat.eqb (length (p_vars a)) (length (p_vars b)) &&
  forallb (fun vw => (v_name (fst vw) =? v_name (snd vw)) && (v_type (fst vw) =? v_type (snd vw)))
          (combine (p_vars a) (p_vars b)).

(** The hash function sees the statement and the (name, type) pairs in order.
    std::unordered_set::find compares only elements with the same hash code. *)
Definition hash_key (p : pt) : N * list (N * N) :=
  (p_stmt p, map (fun v => (v_name v, v_type v)) (p_vars p)).

Fixpoint dedup (h : N * list (N * N) -> N) (set : list pt) (rs : list pt) : list pt :=
  match rs with
  | [] => []
  | r :: rest =>
      if existsb (fun x => (h (hash_key x) =? h (hash_key r)) && dedup_key_eqb x r) set
      then dedup h set rest            (* insert: already there *)
      else r :: dedup h (r :: set) rest
  end.

(** ** The predicate cache, TracePoint.hpp:69-80 *)

(** Predicate::operator==, QueryObjects.hpp:128-132 (boolean). *)
Definition pkind_code (k : pkind) : N :=
  match k with
  | NULL_PREDICATE => 0 | VAR_REFERENCE => 1 | VAR_SIZE => 2 | VAR_VALUE => 3 | DISTINCT_VARS => 4
  | SIGNED_VALUE => 5 | UNSIGNED_VALUE => 6 | FLOAT_VALUE => 7
  | AND => 8 | OR => 9 | NOT => 10
  | GREATER_THAN => 11 | GREATER_THAN_OR_EQUAL => 12 | LESS_THAN => 13 | LESS_THAN_OR_EQUAL => 14 | EQUAL => 15
  | ADD => 16 | SUBTRACT => 17 | MULTIPLY => 18 | DIVIDE => 19
  end.
Fixpoint pred_eqb (a b : pred) : bool :=
  let 'Pred k d cs := a in let 'Pred k' d' cs' := b in
  (pkind_code k =? pkind_code k') && (d =? d') &&
  (fix go l l' := match l, l' with
                  | [], [] => true
                  | x :: r, y :: r' => pred_eqb x y && go r r'
                  | _, _ => false
                  end) cs cs'.

(** == of vectors of flyweights: addresses of pool entries, i.e. values by == (Flyweight.v). *)
Fixpoint vars_eqb (a b : list var) : bool :=
  match a, b with
  | [], [] => true
  | x :: r, y :: r' => var_eqb x y && vars_eqb r r'
  | _, _ => false
  end.

Record centry := mkC { c_hash : N; c_pred : pred; c_vars : list var; c_res : bool }.

Section Cache.
Variable O : fops.
(** EvaluatePredicate's hash (QueryObjects.hpp:512-519). *)
Variable h : pred -> list var -> N.

(** If the key owned copies of the predicate and the variables. *)
Definition by_value (st : list centry) (p : pred) (vs : list var) : outcome (bool * list centry) :=
  match find (fun e => (c_hash e =? h p vs) && (pred_eqb (c_pred e) p && vars_eqb (c_vars e) vs)) st with
  | Some e => Ok (c_res e, st)
  | None => b <- satisfied O vs p ;; Ok (b, mkC (h p vs) p vs b :: st)
  end.

(** The key holds references: EvaluatePredicate::m_predicate and m_variables
    refer to the objects of the call that made the entry, of which at least
    [variables] (TracePoint.hpp:119) is destroyed when that call returns.  The
    comparison of two keys with equal hash codes dereferences them. *)
Definition by_reference (st : list centry) (p : pred) (vs : list var) : outcome (bool * list centry) :=
  if existsb (fun e => c_hash e =? h p vs) st then UB UDangling
  else b <- satisfied O vs p ;; Ok (b, mkC (h p vs) p vs b :: st).

(** What happens if the memory of the dead objects has been reused for the
    corresponding objects of the current call (as is likely for [variables],
    which is a local variable, and for the predicate, which lives in the frame
    of query_trace): the stored references denote the objects looked up, and
    only the stored hash code distinguishes the keys. *)
Definition by_alias (st : list centry) (p : pred) (vs : list var) : outcome (bool * list centry) :=
  match find (fun e => c_hash e =? h p vs) st with
  | Some e => Ok (c_res e, st)
  | None => b <- satisfied O vs p ;; Ok (b, mkC (h p vs) p vs b :: st)
  end.
End Cache.
