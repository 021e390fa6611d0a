(** Specification of the Lisp clients. *)
From Verif Require Import Base Types Stream Reader FormatSpec Predicate PredSpec Query CHeap CApi CApiSpec Lisp.

(** ** Statement ids *)

(** A 64-bit statement id carries a file id if its top bit is set; the file id
    is in the next 23 bits. *)
Definition has_file (f s : N) : Prop := 2 ^ 63 <= s < 2 ^ 64 /\ (s / 2 ^ 40) mod 2 ^ 23 = f.
Definition has_fileb (f s : N) : bool := (2 ^ 63 <=? s) && (s <? 2 ^ 64) && ((s / 2 ^ 40) mod 2 ^ 23 =? f).

(** The trace without the points of other files. *)
Definition only_file (f : N) (tr : trace N) : trace N :=
  mkTr (tr_names tr) (tr_types tr) (filter (fun p => has_fileb f (p_stmt p)) (tr_points tr)).

(** The same query without :file-id. *)
Definition no_file (q : lquery) : lquery :=
  mkLQ (lq_names q) (lq_types q) (lq_pick q) None (lq_pred q) (lq_soft q) (lq_filter q).

(** The same query without :pick, and the trace with a single point. *)
Definition no_pick (q : lquery) : lquery :=
  mkLQ (lq_names q) (lq_types q) None (lq_file q) (lq_pred q) (lq_soft q) (lq_filter q).
Definition only_point (p : point N) (tr : trace N) : trace N := mkTr (tr_names tr) (tr_types tr) [p].

(** A database with a single trace. *)
Definition single {A} (tr : trace N) (m : A) : ldb A := mkL (mkDB [(tr, [])] 1 0) [m].

(** What a query returns, without the database. *)
Definition lresults {A St} (o : outcome (list lpoint * option A * ldb A * St)) : outcome (list lpoint * option A * St) :=
  ' (ls, m, _, st) <- o ;; Ok (ls, m, st).

(** ** Additions *)
Inductive ladd (A : Type) :=
| LFile (file : opened) (max : N) (garbage : N -> N) (m : A)
| LPoints (ps : list lpoint) (m : A).
Arguments LFile {A}. Arguments LPoints {A}.

Definition do_ladd {A} (ok : alloc) (M : map_ops) (grow : N -> N) (l : ldb A) (a : ladd A) : outcome (bool * ldb A) :=
  match a with
  | LFile file max garbage m => lisp_add_trace A ok M garbage grow l file max m
  | LPoints ps m => l' <- lisp_add_points A grow l ps m ;; Ok (true, l')
  end.
Fixpoint do_ladds {A} (ok : alloc) (M : map_ops) (grow : N -> N) (l : ldb A) (hs : list (ladd A)) : outcome (list bool * ldb A) :=
  match hs with
  | [] => Ok ([], l)
  | a :: r =>
      ' (b, l1) <- do_ladd ok M grow l a ;;
      ' (bs, l2) <- do_ladds ok M grow l1 r ;;
      Ok (b :: bs, l2)
  end.

Definition meta_of {A} (a : ladd A) : A := match a with LFile _ _ _ m => m | LPoints _ m => m end.
Definition is_file {A} (a : ladd A) : bool := match a with LFile _ _ _ _ => true | _ => false end.

(** The additions that were successful. *)
Fixpoint successful {X} (hs : list X) (bs : list bool) : list X :=
  match hs, bs with
  | a :: r, b :: s => if b : bool then a :: successful r s else successful r s
  | _, _ => []
  end.

(** [stores ok a tr]: addition a stores the trace tr. *)
Definition stores {A} (ok : N -> bool) (a : ladd A) (tr : trace N) : Prop :=
  match a with
  | LFile file max garbage _ => exists bs t x, file = Ok (bs, t) /\ accepted ok max bs x /\ tr = settle garbage x
  | LPoints ps _ => exists ips, mapO (encode_point (names_of ps)) ps = Ok ips /\ import_trace (names_of ps) ips = Ok tr
  end.

(** ** Duplicates *)

(** Names that differ at most in the case of ASCII letters. *)
Definition lower (b : N) : N := if (65 <=? b) && (b <=? 90) then b + 32 else b.
Definition same_name (a b : name) : Prop := Forall2 (fun x y => lower (N_of_byte x) = lower (N_of_byte y)) a b.

(** Results that bind variables of the same names and types at the same
    statement. *)
Definition same_binding (p q : lpoint) : Prop :=
  lp_f p = lp_f q /\ lp_c p = lp_c q /\
  Forall2 (fun v w => same_name (lv_name v) (lv_name w) /\ same_name (lv_type v) (lv_type w)) (lp_scopes p) (lp_scopes q).

(** [lasts R l r]: r is l without the elements that are R-related to a later
    element. *)
Inductive lasts {X} (R : X -> X -> Prop) : list X -> list X -> Prop :=
| last_nil : lasts R [] []
| last_drop : forall x l r, Exists (R x) l -> lasts R l r -> lasts R (x :: l) r
| last_keep : forall x l r, ~ Exists (R x) l -> lasts R l r -> lasts R (x :: l) (x :: r).

(** ** Predicates *)

(** Position of the first occurrence. *)
Definition first_at (l : list N) (s i : N) : Prop := nthN l i = Some s /\ forall j, j < i -> nthN l j <> Some s.

(** [says_i names e x]: the s-expression e is an expression x over integers. *)
Inductive says_i (names : list N) : sexp -> iexp -> Prop :=
| si_int : forall z, (- 2 ^ 63 <= z < 2 ^ 64)%Z -> says_i names (SInt z) (IConst z)
| si_value : forall s i, first_at names s i -> says_i names (SList OValue [SSym s]) (IValue i)
| si_size : forall s i, first_at names s i -> says_i names (SList OSize [SSym s]) (ISize i)
| si_add : forall a b x y, says_i names a x -> says_i names b y -> says_i names (SList OAdd [a; b]) (IAdd x y)
| si_sub : forall a b x y, says_i names a x -> says_i names b y -> says_i names (SList OSub [a; b]) (ISub x y)
| si_mul : forall a b x y, says_i names a x -> says_i names b y -> says_i names (SList OMul [a; b]) (IMul x y).

Inductive says_cmp : lop -> cmpop -> Prop :=
| sc_lt : says_cmp OLt CLt | sc_le : says_cmp OLe CLe | sc_gt : says_cmp OGt CGt | sc_ge : says_cmp OGe CGe
| sc_eq : says_cmp OEq CEq | sc_equal : says_cmp OEqual CEq.

Inductive says (names : list N) : sexp -> bexp -> Prop :=
| sy_cmp : forall o c a b x y, says_cmp o c -> says_i names a x -> says_i names b y -> says names (SList o [a; b]) (BCmp c x y)
| sy_distinct : forall s t i j, first_at names s i -> first_at names t j ->
    says names (SList ODistinct [SSym s; SSym t]) (BDistinct i j)
| sy_not : forall a x, says names a x -> says names (SList ONot [a]) (BNot x)
| sy_and : forall l xs, lenN l < 2 ^ 32 -> Forall2 (says names) l xs -> says names (SList OAnd l) (BAnd xs)
| sy_or : forall l xs, lenN l < 2 ^ 32 -> Forall2 (says names) l xs -> says names (SList OOr l) (BOr xs).

(** Every symbol in the s-expression is in the list, every operator is known. *)
Fixpoint all_known (names : list N) (e : sexp) : Prop :=
  match e with
  | SSym s => In s names
  | SInt _ | SFloat _ => True
  | SList o args => o <> OOther /\ (fix all l := match l with [] => True | a :: r => all_known names a /\ all r end) args
  end.

(** ** Points from Lisp *)

(** Points that fit the structs: ids in range, integers of 64 bits with
    sign, names without NUL, no aux values. *)
Definition good_lvar (v : lvar) : Prop :=
  Forall (fun b => N_of_byte b <> 0) (lv_name v) /\ Forall (fun b => N_of_byte b <> 0) (lv_type v) /\
  (exists z, lv_value v = LInt z /\ (- 2 ^ 63 <= z < 2 ^ 63)%Z) /\
  (forall s, lv_size v = Some s -> s < 2 ^ 64).
Definition good_id (p : lpoint) : Prop :=
  match lp_f p with Some f => f < 2 ^ 23 /\ lp_c p < 2 ^ 40 | None => lp_c p < 2 ^ 63 end.
Definition good_lpoint (p : lpoint) : Prop := good_id p /\ Forall good_lvar (lp_scopes p) /\ lp_aux p = [].

(** ** sexp-trace-db *)
Inductive sadd (A : Type) :=
| SFile (objs : list (option lpoint)) (max : option N) (m : A)
| SPoints (t : list lpoint) (m : A).
Arguments SFile {A}. Arguments SPoints {A}.
Definition do_sadd {A} (s : sdb A) (a : sadd A) : sdb A :=
  match a with
  | SFile objs max m => sexp_add_trace A s objs max m
  | SPoints t m => sexp_add_points A s t m
  end.

(** The points before the first NIL, at most max. *)
Fixpoint before_nil (objs : list (option lpoint)) : list lpoint :=
  match objs with Some p :: r => p :: before_nil r | _ => [] end.
Definition limit (max : option N) (l : list lpoint) : list lpoint := match max with Some m => takeN m l | None => l end.
(** The trace an addition stores, if any: a file without points is ignored. *)
Definition sadded {A} (a : sadd A) : list (list lpoint * A) :=
  match a with
  | SFile objs max m => match limit max (before_nil objs) with [] => [] | t => [(t, m)] end
  | SPoints t m => [(t, m)]
  end.
