(** Specification of predicates: expressions over integers and their meaning. *)
From Verif Require Import Base Types Predicate.

(** Integer expressions.  Variables are numbered. *)
Inductive iexp :=
| IConst (z : Z)
| IValue (i : N)             (* the value of variable i *)
| ISize (i : N)              (* the buffer size of variable i *)
| IAdd (a b : iexp) | ISub (a b : iexp) | IMul (a b : iexp).

Inductive cmpop := CLt | CLe | CGt | CGe | CEq.

Inductive bexp :=
| BTrue
| BCmp (c : cmpop) (a b : iexp)
| BDistinct (i j : N)
| BNot (a : bexp)
| BAnd (l : list bexp)
| BOr (l : list bexp).

(** ** Which trees represent an expression *)


Inductive repr_i : iexp -> pred -> Prop :=
| ri_unsigned : forall d cs, d < 2 ^ 64 -> repr_i (IConst (Z.of_N d)) (Pred UNSIGNED_VALUE d cs)
| ri_signed : forall d cs, d < 2 ^ 64 -> repr_i (IConst (s64 d)) (Pred SIGNED_VALUE d cs)
| ri_value : forall i d cs, repr_i (IValue i) (Pred VAR_VALUE d [Pred VAR_REFERENCE i cs])
| ri_size : forall i d cs, repr_i (ISize i) (Pred VAR_SIZE d [Pred VAR_REFERENCE i cs])
| ri_add : forall a b p q d, repr_i a p -> repr_i b q -> repr_i (IAdd a b) (Pred ADD d [p; q])
| ri_sub : forall a b p q d, repr_i a p -> repr_i b q -> repr_i (ISub a b) (Pred SUBTRACT d [p; q])
| ri_mul : forall a b p q d, repr_i a p -> repr_i b q -> repr_i (IMul a b) (Pred MULTIPLY d [p; q]).

Definition cmp_kind (c : cmpop) : pkind :=
  match c with CLt => LESS_THAN | CLe => LESS_THAN_OR_EQUAL | CGt => GREATER_THAN
             | CGe => GREATER_THAN_OR_EQUAL | CEq => EQUAL end.

Inductive repr_b : bexp -> pred -> Prop :=
| rb_true : forall d cs, repr_b BTrue (Pred NULL_PREDICATE d cs)
| rb_cmp : forall c a b p q d, repr_i a p -> repr_i b q -> repr_b (BCmp c a b) (Pred (cmp_kind c) d [p; q])
| rb_distinct : forall i j d cs cs',
    repr_b (BDistinct i j) (Pred DISTINCT_VARS d [Pred VAR_REFERENCE i cs; Pred VAR_REFERENCE j cs'])
| rb_not : forall a p d, repr_b a p -> repr_b (BNot a) (Pred NOT d [p])
| rb_and : forall l ps d, Forall2 repr_b l ps -> repr_b (BAnd l) (Pred AND d ps)
| rb_or : forall l ps d, Forall2 repr_b l ps -> repr_b (BOr l) (Pred OR d ps).

(** ** Meaning *)

(** The integer a variable holds. *)
Definition int_value (v : var) : option Z :=
  match v_fmt v, v_val v with
  | (UNSIGNED | POINTER), VBits u => Some (Z.of_N u)
  | SIGNED, VBits u => Some (s64 u)
  | _, _ => None
  end.
Definition size_of (v : var) : option Z := if v_has v =? 0 then None else Some (Z.of_N (v_bsz v)).

(** [means_i vars e z]: expression e has the value z. *)
Inductive means_i (vars : list var) : iexp -> Z -> Prop :=
| mi_const : forall z, means_i vars (IConst z) z
| mi_value : forall i v z, nthN vars i = Some v -> int_value v = Some z -> means_i vars (IValue i) z
| mi_size : forall i v z, nthN vars i = Some v -> size_of v = Some z -> means_i vars (ISize i) z
| mi_add : forall a b x y, means_i vars a x -> means_i vars b y -> means_i vars (IAdd a b) (x + y)%Z
| mi_sub : forall a b x y, means_i vars a x -> means_i vars b y -> means_i vars (ISub a b) (x - y)%Z
| mi_mul : forall a b x y, means_i vars a x -> means_i vars b y -> means_i vars (IMul a b) (x * y)%Z.

Definition holds_cmp (c : cmpop) (x y : Z) : Prop :=
  match c with CLt => x < y | CLe => x <= y | CGt => x > y | CGe => x >= y | CEq => x = y end%Z.

(** Two variables are the same: they agree in all recorded fields. *)
Definition same_var (a b : var) : Prop := a = b.

(** [means vars e]: the statement e is true.  A comparison is true if both
    sides have values and these compare. *)
Fixpoint means (vars : list var) (e : bexp) : Prop :=
  match e with
  | BTrue => True
  | BCmp c a b => exists x y, means_i vars a x /\ means_i vars b y /\ holds_cmp c x y
  | BDistinct i j => exists v w, nthN vars i = Some v /\ nthN vars j = Some w /\ ~ same_var v w
  | BNot a => ~ means vars a
  | BAnd l => (fix all l := match l with [] => True | a :: r => means vars a /\ all r end) l
  | BOr l => (fix any l := match l with [] => False | a :: r => means vars a \/ any r end) l
  end.

(** ** Hypotheses *)

(** Variables occurring in an expression are numbered below n, and those whose
    value is used are not floats. *)
Fixpoint closed_i (vars : list var) (e : iexp) : Prop :=
  match e with
  | IConst _ => True
  | IValue i => exists v, nthN vars i = Some v /\ v_fmt v <> FLOAT
  | ISize i => i < lenN vars
  | IAdd a b | ISub a b | IMul a b => closed_i vars a /\ closed_i vars b
  end.
Fixpoint closed_b (vars : list var) (e : bexp) : Prop :=
  match e with
  | BTrue => True
  | BCmp _ a b => closed_i vars a /\ closed_i vars b
  | BDistinct i j => i < lenN vars /\ j < lenN vars
  | BNot a => closed_b vars a
  | BAnd l | BOr l => (fix all l := match l with [] => True | a :: r => closed_b vars a /\ all r end) l
  end.

(** A variable as it occurs in accepted traces: bits fit the size for
    unsigned/float/pointer, are a sign extension for signed, bytes match for
    blobs. *)
Definition var_ok (v : var) : Prop :=
  match v_fmt v with
  | UNSIGNED | FLOAT | POINTER => v_size v <= 8 /\ exists u, v_val v = VBits u /\ u < 2 ^ (8 * v_size v)
  | SIGNED => In (v_size v) [1; 2; 4; 8] /\ exists u, v_val v = VBits u /\ u < 2 ^ 64 /\
      (- 2 ^ (8 * Z.of_N (v_size v) - 1) <= s64 u < 2 ^ (8 * Z.of_N (v_size v) - 1))%Z
  | BLOB => exists bs, v_val v = VBlob bs /\ lenN bs = v_size v
  | INVALID_FORMAT => False
  end.

(** ** Well-typed trees *)
Inductive wt_num (n : N) : pred -> Prop :=
| wn_size : forall i d cs, i < n -> wt_num n (Pred VAR_SIZE d [Pred VAR_REFERENCE i cs])
| wn_value : forall i d cs, i < n -> wt_num n (Pred VAR_VALUE d [Pred VAR_REFERENCE i cs])
| wn_const : forall k d cs, In k [UNSIGNED_VALUE; SIGNED_VALUE; FLOAT_VALUE] -> wt_num n (Pred k d cs)
| wn_arith : forall k d a b, In k [ADD; SUBTRACT; MULTIPLY; DIVIDE] -> wt_num n a -> wt_num n b ->
    wt_num n (Pred k d [a; b]).

Inductive wt_bool (n : N) : pred -> Prop :=
| wb_null : forall d cs, wt_bool n (Pred NULL_PREDICATE d cs)
| wb_cmp : forall k d a b, In k [LESS_THAN; LESS_THAN_OR_EQUAL; GREATER_THAN; GREATER_THAN_OR_EQUAL; EQUAL] ->
    wt_num n a -> wt_num n b -> wt_bool n (Pred k d [a; b])
| wb_distinct : forall d i j cs cs', i < n -> j < n ->
    wt_bool n (Pred DISTINCT_VARS d [Pred VAR_REFERENCE i cs; Pred VAR_REFERENCE j cs'])
| wb_not : forall d a, wt_bool n a -> wt_bool n (Pred NOT d [a])
| wb_and : forall d l, Forall (wt_bool n) l -> wt_bool n (Pred AND d l)
| wb_or : forall d l, Forall (wt_bool n) l -> wt_bool n (Pred OR d l).

(** All variable references below n (in any position). *)
Fixpoint refs_below (n : N) (p : pred) : Prop :=
  let 'Pred k d cs := p in
  (k = VAR_REFERENCE -> d < n) /\ (fix all l := match l with [] => True | c :: r => refs_below n c /\ all r end) cs.

(** The tree contains neither AND nor OR (evaluation never skips a part). *)
Fixpoint no_and_or (p : pred) : Prop :=
  let 'Pred k d cs := p in
  k <> AND /\ k <> OR /\ (fix all l := match l with [] => True | c :: r => no_and_or c /\ all r end) cs.

(** ** Invalid numbers *)
Definition is_zero (O : fops) (x : pval O) : Prop :=
  match x with PInt z => z = 0%Z | PFloat f => f_is_zero O f = true | PInvalid => False end.

(** The number expression has no value: a missing buffer size, the value of a
    blob, a division by zero, or arithmetic on such. *)
Inductive invalid (O : fops) (vars : list var) : pred -> Prop :=
| inv_size : forall d i cs v, nthN vars i = Some v -> v_has v = 0 -> invalid O vars (Pred VAR_SIZE d [Pred VAR_REFERENCE i cs])
| inv_blob : forall d i cs v, nthN vars i = Some v -> v_fmt v = BLOB -> invalid O vars (Pred VAR_VALUE d [Pred VAR_REFERENCE i cs])
| inv_div0 : forall d a b x, evaluate O vars b = Ok x -> is_zero O x -> invalid O vars (Pred DIVIDE d [a; b])
| inv_left : forall k d a b, In k [ADD; SUBTRACT; MULTIPLY; DIVIDE] -> invalid O vars a -> invalid O vars (Pred k d [a; b])
| inv_right : forall k d a b, In k [ADD; SUBTRACT; MULTIPLY; DIVIDE] -> invalid O vars b -> invalid O vars (Pred k d [a; b]).
