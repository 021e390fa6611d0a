(** Specification of the C interface. *)
From Verif Require Import Base Types Stream Reader Compare Predicate Query QuerySpec FormatSpec CHeap CApi.

(** ** Arrays of points *)

(** [sees h a n l]: a C program that reads the array of n points at address a,
    with the arrays its elements point to, finds the points l. *)
Definition sees_point (h : heap pcell) (c : cpoint) (p : ipoint) : Prop :=
  cp_stmt c = ip_stmt p /\ cp_nvars c = lenN (ip_vars p) /\ cp_naux c = lenN (ip_aux p) /\
  (forall j v, nthN (ip_vars p) j = Some v -> load h (cp_vars c) j = Ok (CellVar v)) /\
  (forall j u, nthN (ip_aux p) j = Some u -> load h (cp_aux c) j = Ok (CellWord u)).
Definition sees (h : heap pcell) (a n : N) (l : list ipoint) : Prop :=
  lenN l = n /\
  forall i p, nthN l i = Some p -> exists c, load h a i = Ok (CellPoint c) /\ sees_point h c p.

(** How a variable and a point of a trace with the given types are presented. *)
Definition exported_var (types : list tdesc) (v : var) (c : cvar) : Prop :=
  cv_value c = v_val v /\ cv_format c = v_fmt v /\ cv_name c = v_name v /\ cv_size c = v_size v /\
  cv_bsz c = v_bsz v /\ cv_has c = v_has v /\
  exists t, nthN types (v_type v) = Some t /\ cv_tname c = t_name t.
Definition exported (types : list tdesc) (p : point N) (q : ipoint) : Prop :=
  ip_stmt q = p_stmt p /\ ip_aux q = p_aux p /\ Forall2 (exported_var types) (p_vars p) (ip_vars q).

(** Type indices are valid; counts fit into 32 bits; memory is available. *)
Definition type_indices_ok (types : list tdesc) (ps : list (point N)) : Prop :=
  Forall (fun p => Forall (fun v => v_type v < lenN types) (p_vars p)) ps.
Definition counts_ok (ps : list (point N)) : Prop :=
  Forall (fun p => lenN (p_vars p) < 2 ^ 32 /\ lenN (p_aux p) < 2 ^ 32) ps.
Definition room (al : allocator pcell) (ps : list (point N)) : Prop :=
  40 * lenN ps < 2 ^ 64 /\ al_ok al (40 * lenN ps) = true /\
  Forall (fun p => al_ok al (40 * lenN (p_vars p)) = true /\ al_ok al (8 * lenN (p_aux p)) = true) ps.

(** ** Predicates *)

(** The C tree [c] describes the predicate tree [p]: same kinds, constants and
    children, where children of kind NULL_PREDICATE are left out. *)
Definition kind_of (c : cpred) : pkind := let 'CPred k _ _ _ _ _ _ := c in k.
Inductive describes : cpred -> pred -> Prop :=
| d_ref : forall n vi u s f cs ps, children_of cs n ps -> describes (CPred VAR_REFERENCE n vi u s f cs) (Pred VAR_REFERENCE vi ps)
| d_unsigned : forall n vi u s f cs ps, children_of cs n ps -> describes (CPred UNSIGNED_VALUE n vi u s f cs) (Pred UNSIGNED_VALUE u ps)
| d_signed : forall n vi u s f cs ps, children_of cs n ps -> describes (CPred SIGNED_VALUE n vi u s f cs) (Pred SIGNED_VALUE s ps)
| d_float : forall n vi u s f cs ps, children_of cs n ps -> describes (CPred FLOAT_VALUE n vi u s f cs) (Pred FLOAT_VALUE f ps)
| d_op : forall k n vi u s f cs ps,
    ~ In k [VAR_REFERENCE; UNSIGNED_VALUE; SIGNED_VALUE; FLOAT_VALUE] ->
    children_of cs n ps -> describes (CPred k n vi u s f cs) (Pred k n ps)
with children_of : option (list cpred) -> N -> list pred -> Prop :=
| c_none : forall n, children_of None n []
| c_some : forall l n ps, lenN l = n -> describes_list l ps -> children_of (Some l) n ps
with describes_list : list cpred -> list pred -> Prop :=
| dl_nil : describes_list [] []
| dl_null : forall c l ps p, kind_of c = NULL_PREDICATE -> describes c p -> describes_list l ps -> describes_list (c :: l) ps
| dl_cons : forall c l p ps, kind_of c <> NULL_PREDICATE -> describes c p -> describes_list l ps -> describes_list (c :: l) (p :: ps).

(** In the tree every child count is the length of its array, below 2^32. *)
Fixpoint counts_match (c : cpred) : Prop :=
  let 'CPred _ n _ _ _ _ cs := c in
  match cs with
  | None => True
  | Some l => lenN l = n /\ n < 2 ^ 32 /\
      (fix all l := match l with [] => True | c :: r => counts_match c /\ all r end) l
  end.

(** The tree a client builds for a predicate: unused members are 0, a leaf has
    no array. *)
Fixpoint client (p : pred) : cpred :=
  let 'Pred k d cs := p in
  let n := lenN cs in
  CPred k n (match k with VAR_REFERENCE => d | _ => 0 end) (match k with UNSIGNED_VALUE => d | _ => 0 end)
        (match k with SIGNED_VALUE => d | _ => 0 end) (match k with FLOAT_VALUE => d | _ => 0 end)
        (match cs with [] => None | _ => Some (map client cs) end).

(** The data member is the constant or the number of children, there are fewer
    than 2^32 children, and NULL_PREDICATE occurs nowhere below the root. *)
Fixpoint plain_pred (p : pred) : Prop :=
  let 'Pred k d cs := p in
  (~ In k [VAR_REFERENCE; UNSIGNED_VALUE; SIGNED_VALUE; FLOAT_VALUE] -> d = lenN cs) /\ lenN cs < 2 ^ 32 /\
  (fix all l := match l with
                | [] => True
                | c :: r => (match c with Pred NULL_PREDICATE _ _ => False | _ => plain_pred c end) /\ all r
                end) cs.

(** A predicate tree in memory: kind, address of the array of children,
    children. *)
Inductive ctree := CT (k : pkind) (addr : N) (cs : list ctree).

(** Blocks that belong to the tree (without the root struct). *)
Fixpoint blocks (t : ctree) : list N :=
  let 'CT k a cs := t in
  if is_leaf_kind k then [] else (if a =? 0 then [] else [a]) ++ flat_map blocks cs.

(** Element i of the array at address a is the root of the tree. *)
Fixpoint in_memory (h : heap cpnode) (a i : N) (t : ctree) : Prop :=
  let 'CT k addr cs := t in
  load h a i = Ok (mkCN k (lenN cs) addr) /\
  (is_leaf_kind k = true -> cs = []) /\ (addr = 0 -> cs = []) /\
  (is_leaf_kind k = false -> addr <> 0 -> h_find h addr <> None) /\
  (fix all l j := match l with [] => True | c :: r => in_memory h addr j c /\ all r (j + 1) end) cs 0.

Fixpoint depth (t : ctree) : nat :=
  let 'CT _ _ cs := t in
  S ((fix go l := match l with [] => O | c :: r => Nat.max (depth c) (go r) end) cs).

(** ** add_trace_points *)

(** The formats of the inferred types. *)
Definition type_used (ps : list ipoint) (nm : N) : Prop :=
  exists p v, In p ps /\ In v (ip_vars p) /\ cv_tname v = nm.
Definition has_negative (ps : list ipoint) (nm : N) : Prop :=
  exists p v u, In p ps /\ In v (ip_vars p) /\ cv_tname v = nm /\ cv_value v = VBits u /\ (s64 u < 0)%Z.

Fixpoint increasing (l : list N) : Prop :=
  match l with
  | [] => True
  | x :: r => Forall (fun y => x < y) r /\ increasing r
  end.

Definition inferred_types (ps : list ipoint) (types : list tdesc) : Prop :=
  increasing (map t_name types) /\
  (forall nm, In nm (map t_name types) <-> type_used ps nm) /\
  Forall (fun t => t_size t = 8 /\ (t_fmt t = SIGNED /\ has_negative ps (t_name t) \/
                                    t_fmt t = UNSIGNED /\ ~ has_negative ps (t_name t))) types.

Definition imported_var (types : list tdesc) (c : cvar) (v : var) : Prop :=
  v_val v = cv_value c /\ v_name v = cv_name c /\ v_bsz v = cv_bsz c /\ v_has v = cv_has c /\ v_size v = 8 /\
  exists t, nthN types (v_type v) = Some t /\ t_name t = cv_tname c /\ v_fmt v = t_fmt t.

Inductive imported (types : list tdesc) : N -> list ipoint -> list (point N) -> Prop :=
| im_nil : forall i, imported types i [] []
| im_cons : forall i p q ps qs,
    p_counter q = i -> p_stmt q = ip_stmt p -> p_sizes q = [] -> p_aux q = [] ->
    Forall2 (imported_var types) (ip_vars p) (p_vars q) ->
    imported types (i + 1) ps qs -> imported types i (p :: ps) (q :: qs).

(** The values of the variables are 64-bit words. *)
Definition words_ok (ps : list ipoint) : Prop :=
  Forall (fun p => Forall (fun v => exists u, cv_value v = VBits u /\ u < 2 ^ 64) (ip_vars p)) ps.

Definition imports (names : list name) (ps : list ipoint) (tr : trace N) : Prop :=
  tr_names tr = map c_string names /\ inferred_types ps (tr_types tr) /\ imported (tr_types tr) 0 ps (tr_points tr).

(** ** Histories *)

(** The traces of a database. *)
Definition traces (d : db) : list (trace N) := map fst (db_traces d).

(** [effect ok ts c a new]: on a database with the traces ts, call c gives the
    answer a and appends the traces new. *)
Definition effect (ok : N -> bool) (ts : list (trace N)) (c : call) (a : answer_) (new : list (trace N)) : Prop :=
  match c with
  | CAdd file max garbage =>
      (a = ARet true /\ exists bs t tr, file = Ok (bs, t) /\ accepted ok max bs tr /\ new = [settle garbage tr]) \/
      (a = ARet false /\ new = [] /\ forall bs t, file = Ok (bs, t) -> ~ exists tr, accepted ok max bs tr)
  | CAddPoints names ps =>
      a = ARet true /\ exists tr, new = [tr] /\ (words_ok ps -> imports names ps tr)
  | CQuery i q => new = [] /\ i < lenN ts /\ exists rs, a = AResults rs
  | CGet i => new = [] /\ i < lenN ts /\ exists p, a = APtr p
  | CCount => new = [] /\ a = ANum (lenN ts mod 2 ^ 32)
  end.

Inductive effects (ok : N -> bool) : list (trace N) -> list call -> list answer_ -> list (trace N) -> Prop :=
| ef_nil : forall ts, effects ok ts [] [] ts
| ef_cons : forall ts c a new cs l ts',
    effect ok ts c a new -> effects ok (ts ++ new) cs l ts' -> effects ok ts (c :: cs) (a :: l) ts'.

(** Number of successful additions. *)
Fixpoint additions (cs : list call) (l : list answer_) : N :=
  match cs, l with
  | (CAdd _ _ _ | CAddPoints _ _) :: cs, ARet true :: l => 1 + additions cs l
  | _ :: cs, _ :: l => additions cs l
  | _, _ => 0
  end.

(** The tree with its NULL_PREDICATE children. *)
Fixpoint verbatim (c : cpred) : pred :=
  let 'CPred k n vi u s f cs := c in
  Pred k (pred_data k n vi u s f) (match cs with None => [] | Some l => map verbatim l end).

(** NULL_PREDICATE occurs only as the root and as an operand of AND. *)
Fixpoint nulls_ok (c : cpred) : Prop :=
  let 'CPred k _ _ _ _ _ cs := c in
  match cs with
  | None => True
  | Some l => (fix all l := match l with [] => True | c :: r => (kind_of c = NULL_PREDICATE -> k = AND) /\ nulls_ok c /\ all r end) l
  end.

(** In a call of add_trace_points all values are 64-bit words. *)
Definition call_ok (c : call) : Prop := match c with CAddPoints _ ps => words_ok ps | _ => True end.

(** What a query returns, without the database. *)
Definition results_of {St} (o : outcome (list (point N) * db * St)) : outcome (list (point N) * St) :=
  ' (rs, _, st) <- o ;; Ok (rs, st).

(** The struct of a point, with 32-bit counts. *)
Definition sees_modulo (h : heap pcell) (types : list tdesc) (p : point N) (c : cpoint) : Prop :=
  cp_stmt c = p_stmt p /\ cp_nvars c = lenN (p_vars p) mod 2 ^ 32 /\ cp_naux c = lenN (p_aux p) mod 2 ^ 32 /\
  (forall j u, nthN (p_aux p) j = Some u -> load h (cp_aux c) j = Ok (CellWord u)) /\
  (forall j v, nthN (p_vars p) j = Some v -> exists x, load h (cp_vars c) j = Ok (CellVar x) /\ exported_var types v x).
