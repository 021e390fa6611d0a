(** Specification of predicates with fractions: expressions over integers and
    floating point numbers, and what they mean, (a) for any floating point
    arithmetic and (b) in rational numbers. *)
From Verif Require Import Base Types Predicate PredSpec FloatQ.
From Coq Require Import QArith.
Open Scope N_scope.

Inductive aop := OAdd | OSub | OMul | ODiv.

(** Numeric expressions.  Variables are numbered. *)
Inductive nexp :=
| NInt (z : Z)
| NDouble (bits : N)         (* a double, by its 64 bits *)
| NValue (i : N)             (* the value of variable i *)
| NSize (i : N)              (* the buffer size of variable i *)
| NOp (o : aop) (a b : nexp).

Inductive mexp :=
| MTrue
| MCmp (c : cmpop) (a b : nexp)
| MDistinct (i j : N)
| MNot (a : mexp)
| MAnd (l : list mexp)
| MOr (l : list mexp).

(** ** Which trees represent an expression *)

Definition op_kind (o : aop) : pkind :=
  match o with OAdd => ADD | OSub => SUBTRACT | OMul => MULTIPLY | ODiv => DIVIDE end.

Inductive repr_n : nexp -> pred -> Prop :=
| rn_unsigned : forall d cs, d < 2 ^ 64 -> repr_n (NInt (Z.of_N d)) (Pred UNSIGNED_VALUE d cs)
| rn_signed : forall d cs, d < 2 ^ 64 -> repr_n (NInt (s64 d)) (Pred SIGNED_VALUE d cs)
| rn_double : forall d cs, repr_n (NDouble d) (Pred FLOAT_VALUE d cs)
| rn_value : forall i d cs, repr_n (NValue i) (Pred VAR_VALUE d [Pred VAR_REFERENCE i cs])
| rn_size : forall i d cs, repr_n (NSize i) (Pred VAR_SIZE d [Pred VAR_REFERENCE i cs])
| rn_op : forall o a b p q d, repr_n a p -> repr_n b q -> repr_n (NOp o a b) (Pred (op_kind o) d [p; q]).

Inductive repr_m : mexp -> pred -> Prop :=
| rm_true : forall d cs, repr_m MTrue (Pred NULL_PREDICATE d cs)
| rm_cmp : forall c a b p q d, repr_n a p -> repr_n b q -> repr_m (MCmp c a b) (Pred (cmp_kind c) d [p; q])
| rm_distinct : forall i j d cs cs',
    repr_m (MDistinct i j) (Pred DISTINCT_VARS d [Pred VAR_REFERENCE i cs; Pred VAR_REFERENCE j cs'])
| rm_not : forall a p d, repr_m a p -> repr_m (MNot a) (Pred NOT d [p])
| rm_and : forall l ps d, Forall2 repr_m l ps -> repr_m (MAnd l) (Pred AND d ps)
| rm_or : forall l ps d, Forall2 repr_m l ps -> repr_m (MOr l) (Pred OR d ps).

(** ** Meaning of statements, given the meaning of numeric expressions and
    comparisons of numbers *)
Section M.
Variables (X : Type) (num : nexp -> X -> Prop) (cmp : cmpop -> X -> X -> Prop) (vars : list var).
Fixpoint means_m (e : mexp) : Prop :=
  match e with
  | MTrue => True
  | MCmp c a b => exists x y, num a x /\ num b y /\ cmp c x y
  | MDistinct i j => exists v w, nthN vars i = Some v /\ nthN vars j = Some w /\ ~ same_var v w
  | MNot a => ~ means_m a
  | MAnd l => (fix all l := match l with [] => True | a :: r => means_m a /\ all r end) l
  | MOr l => (fix any l := match l with [] => False | a :: r => means_m a \/ any r end) l
  end.
End M.

(** ** (a) Any floating point arithmetic O *)
Section G.
Variables (O : fops) (vars : list var).

(** A number is an integer (unbounded) or a floating point number. *)
Inductive number := Int (z : Z) | Flo (x : F O).

Definition as_float (n : number) : F O := match n with Int z => f_of_Z O z | Flo x => x end.

Definition zop (o : aop) (x y : Z) : option Z :=
  match o with OAdd => Some (x + y)%Z | OSub => Some (x - y)%Z | OMul => Some (x * y)%Z | ODiv => None end.
Definition fop (o : aop) : F O -> F O -> F O :=
  match o with OAdd => f_add O | OSub => f_sub O | OMul => f_mul O | ODiv => f_div O end.
Definition fcmp (c : cmpop) : F O -> F O -> bool :=
  match c with CLt => f_lt O | CLe => f_le O | CGt => f_gt O | CGe => f_ge O | CEq => f_eq O end.

Definition nonzero (n : number) : Prop := match n with Int z => z <> 0%Z | Flo x => f_is_zero O x = false end.

(** The number a variable holds; floats of four bytes. *)
Definition num_value (v : var) : option number :=
  match v_fmt v, v_val v with
  | FLOAT, VBits u => Some (Flo (f_of_float O u))
  | _, _ => match int_value v with Some z => Some (Int z) | None => None end
  end.

(** +, -, * of two integers are exact; every other operation is that of O on
    both numbers converted to floats; the quotient of a division by zero does
    not exist. *)
Inductive means_n : nexp -> number -> Prop :=
| mn_int : forall z, means_n (NInt z) (Int z)
| mn_double : forall d, means_n (NDouble d) (Flo (f_of_double O d))
| mn_value : forall i v x, nthN vars i = Some v -> num_value v = Some x -> means_n (NValue i) x
| mn_size : forall i v z, nthN vars i = Some v -> size_of v = Some z -> means_n (NSize i) (Int z)
| mn_exact : forall o a b x y z, means_n a (Int x) -> means_n b (Int y) -> zop o x y = Some z ->
    means_n (NOp o a b) (Int z)
| mn_float : forall o a b x y, means_n a x -> means_n b y ->
    (forall z z', x = Int z -> y = Int z' -> o = ODiv) -> (o = ODiv -> nonzero y) ->
    means_n (NOp o a b) (Flo (fop o (as_float x) (as_float y))).

Definition cmp_n (c : cmpop) (x y : number) : Prop :=
  match x, y with
  | Int a, Int b => holds_cmp c a b
  | _, _ => fcmp c (as_float x) (as_float y) = true
  end.

Definition means_any : mexp -> Prop := means_m number means_n cmp_n vars.
End G.
Arguments Int {O}.
Arguments Flo {O}.

(** Variables occurring exist; a float whose value is used has four bytes. *)
Fixpoint closed_n (vars : list var) (e : nexp) : Prop :=
  match e with
  | NInt _ | NDouble _ => True
  | NValue i => exists v, nthN vars i = Some v /\ (v_fmt v = FLOAT -> v_size v = 4)
  | NSize i => i < lenN vars
  | NOp _ a b => closed_n vars a /\ closed_n vars b
  end.
Fixpoint closed_m (vars : list var) (e : mexp) : Prop :=
  match e with
  | MTrue => True
  | MCmp _ a b => closed_n vars a /\ closed_n vars b
  | MDistinct i j => i < lenN vars /\ j < lenN vars
  | MNot a => closed_m vars a
  | MAnd l | MOr l => (fix all l := match l with [] => True | a :: r => closed_m vars a /\ all r end) l
  end.

(** ** (b) Rational numbers *)
Definition rat_value (v : var) : option Q :=
  match v_fmt v, v_val v with
  | FLOAT, VBits u => Some (decode_float u)
  | _, _ => match int_value v with Some z => Some (inject_Z z) | None => None end
  end.

Definition holds_q (c : cmpop) (x y : Q) : Prop :=
  match c with CLt => x < y | CLe => x <= y | CGt => y < x | CGe => y <= x | CEq => x == y end%Q.

Definition qop (o : aop) (x y : Q) : Q :=
  match o with OAdd => x + y | OSub => x - y | OMul => x * y | ODiv => x / y end%Q.

Inductive means_q (vars : list var) : nexp -> Q -> Prop :=
| mq_int : forall z, means_q vars (NInt z) (inject_Z z)
| mq_double : forall d, means_q vars (NDouble d) (decode_double d)
| mq_value : forall i v q, nthN vars i = Some v -> rat_value v = Some q -> means_q vars (NValue i) q
| mq_size : forall i v z, nthN vars i = Some v -> size_of v = Some z -> means_q vars (NSize i) (inject_Z z)
| mq_op : forall o a b x y, means_q vars a x -> means_q vars b y -> (o = ODiv -> ~ y == 0)%Q ->
    means_q vars (NOp o a b) (qop o x y).

Definition means_rat (vars : list var) : mexp -> Prop := means_m Q (means_q vars) holds_q vars.

(** The operations of O are exact: [val x] is the rational number x stands for. *)
Record exact_ops (O : fops) (val : F O -> Q) : Prop := {
  ex_float : forall u, (val (f_of_float O u) == decode_float u)%Q;
  ex_double : forall u, (val (f_of_double O u) == decode_double u)%Q;
  ex_int : forall z, (val (f_of_Z O z) == inject_Z z)%Q;
  ex_op : forall o x y, (o = ODiv -> ~ val y == 0)%Q -> (val (fop O o x y) == qop o (val x) (val y))%Q;
  ex_cmp : forall c x y, fcmp O c x y = true <-> holds_q c (val x) (val y);
  ex_zero : forall x, f_is_zero O x = true <-> (val x == 0)%Q
}.
