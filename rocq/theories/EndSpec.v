(** Specification of end-to-end queries: questions about a run of an
    instrumented program, in terms of the values its variables had.  A run is a
    list of events (InstrSpec.v): passes through sites, with the values of the
    variables; each site logs a list of variables [site_vars]. *)
From Verif Require Import Base Types PredSpec QuerySpec CApi CApiSpec Instr InstrRun InstrSpec.

(** A logged variable: whether strings are logged as such, its name, its type. *)
Definition lvar : Type := bool * name * ctype.
Definition lv_name (y : lvar) : name := snd (fst y).
Definition lv_type (y : lvar) : ctype := snd y.
Definition lv_strings (y : lvar) : bool := fst (fst y).

(** The integer such a variable held: the value of an integer, the address of a
    pointer; none for floats and for texts logged as strings. *)
Inductive int_of (env : name -> rvalue) (y : lvar) : Z -> Prop :=
| io_int : forall sg n z, has_kind (lv_type y) (CInt sg n) -> env (lv_name y) = RInt z -> int_of env y z
| io_ptr : forall a s, has_kind (lv_type y) CPointer -> env (lv_name y) = RPtr a s -> int_of env y (Z.of_N a)
| io_char : forall a s, has_kind (lv_type y) CCharPointer -> lv_strings y = false ->
    env (lv_name y) = RPtr a s -> int_of env y (Z.of_N a).

(** ** Questions *)

(** [choice W l bs]: [bs] gives for each variable of the question the position
    of a logged variable; [W] lists the texts of the types allowed for each. *)
Definition choice (W : list (list name)) (l : list lvar) (bs : list N) : Prop :=
  Forall2 (fun w b => exists y, nthN l b = Some y /\ In (type_text (lv_type y)) w) W bs.

(** The logged variable chosen for variable [i] of the question. *)
Definition chosen (l : list lvar) (bs : list N) (i : N) (y : lvar) : Prop :=
  exists b, nthN bs i = Some b /\ nthN l b = Some y.

(** The value of an expression in the program. *)
Inductive value_in (env : name -> rvalue) (l : list lvar) (bs : list N) : iexp -> Z -> Prop :=
| vi_const : forall z, value_in env l bs (IConst z) z
| vi_value : forall i y z, chosen l bs i y -> int_of env y z -> value_in env l bs (IValue i) z
| vi_add : forall a b x y, value_in env l bs a x -> value_in env l bs b y -> value_in env l bs (IAdd a b) (x + y)%Z
| vi_sub : forall a b x y, value_in env l bs a x -> value_in env l bs b y -> value_in env l bs (ISub a b) (x - y)%Z
| vi_mul : forall a b x y, value_in env l bs a x -> value_in env l bs b y -> value_in env l bs (IMul a b) (x * y)%Z.

(** The condition is true in the program; a comparison is if both sides have
    values and these compare. *)
Fixpoint true_in (env : name -> rvalue) (l : list lvar) (bs : list N) (e : bexp) : Prop :=
  match e with
  | BTrue => True
  | BCmp c a b => exists x y, value_in env l bs a x /\ value_in env l bs b y /\ holds_cmp c x y
  | BDistinct _ _ => False
  | BNot a => ~ true_in env l bs a
  | BAnd es => (fix all l' := match l' with [] => True | a :: r => true_in env l bs a /\ all r end) es
  | BOr es => (fix any l' := match l' with [] => False | a :: r => true_in env l bs a \/ any r end) es
  end.

(** The condition is about values of variables numbered below [n] only. *)
Fixpoint on_values_i (n : N) (e : iexp) : Prop :=
  match e with
  | IConst _ => True
  | IValue i => i < n
  | ISize _ => False
  | IAdd a b | ISub a b | IMul a b => on_values_i n a /\ on_values_i n b
  end.
Fixpoint on_values (n : N) (e : bexp) : Prop :=
  match e with
  | BTrue => True
  | BCmp _ a b => on_values_i n a /\ on_values_i n b
  | BDistinct _ _ => False
  | BNot a => on_values n a
  | BAnd l | BOr l => (fix all l := match l with [] => True | a :: r => on_values n a /\ all r end) l
  end.

(** The condition uses the value of variable [i]. *)
Fixpoint uses_i (i : N) (e : iexp) : Prop :=
  match e with
  | IConst _ | ISize _ => False
  | IValue j => i = j
  | IAdd a b | ISub a b | IMul a b => uses_i i a \/ uses_i i b
  end.
Fixpoint uses (i : N) (e : bexp) : Prop :=
  match e with
  | BTrue | BDistinct _ _ => False
  | BCmp _ a b => uses_i i a \/ uses_i i b
  | BNot a => uses i a
  | BAnd l | BOr l => (fix any l := match l with [] => False | a :: r => uses i a \/ any r end) l
  end.

(** No variable of the program that may be chosen for a variable whose value is
    used is a float or double. *)
Definition no_floats (sites : list site) (W : list (list name)) (e : bexp) : Prop :=
  forall s l i w y, In s sites -> site_vars (snd s) l -> uses i e -> nthN W i = Some w -> In y l ->
  In (type_text (lv_type y)) w -> ~ has_kind (lv_type y) CFloat /\ ~ has_kind (lv_type y) CDouble.

(** The vector of all choices (24 bytes each) does not exceed the address space. *)
Definition few_choices (sites : list site) (W : list (list name)) : Prop :=
  forall s l, In s sites -> site_vars (snd s) l -> 24 * lenN l ^ lenN W < 2 ^ 64.

(** The free variables a client passes: the indices of the types with these texts. *)
Definition asks (names : list name) (types : list tdesc) (W : list (list name)) (fvs : list (list N)) : Prop :=
  Forall2 (fun w fv => forall i d nm, nthN types i = Some d -> nthN names (t_name d) = Some nm ->
                         (In i fv <-> In nm w)) W fvs.

(** The arguments of query_trace ask for the choices that make [e] true, at the
    statements whose id has the bits [cq_stmt q] under [cq_mask q]: the predicate
    tree represents [e], no soft predicates, no seed, duplicates are kept. *)
Definition question (names : list name) (types : list tdesc) (W : list (list name)) (e : bexp) (q : cquery) : Prop :=
  W <> [] /\ on_values (lenN W) e /\ asks names types W (cq_fvs q) /\
  (exists p, repr_b e p /\ plain_pred p /\ cq_hard q = Some (client p)) /\
  cq_soft q = [] /\ cq_seed q = 0 /\ cq_keep q <> 0.

(** ** Answers *)

(** The event passes a site whose id has the bits [stmt] under [mask]. *)
Definition passes (sites : list site) (mask stmt : N) (ev : event) : bool :=
  match nth_error sites (fst ev) with Some s => N.land (fst s) mask =? stmt | None => false end.

(** The result shows the choice: the number of the event, the id of the site,
    and the variables chosen, with their names, type texts and values. *)
Definition shows_choice (names : list name) (types : list tdesc) (s : site) (env : name -> rvalue) (l : list lvar)
  (k : N) (bs : list N) (r : point N) : Prop :=
  p_counter r = k /\ p_stmt r = fst s /\ p_sizes r = [] /\ p_aux r = [] /\
  Forall2 (fun b x => exists y, nthN l b = Some y /\
             var_shows (mkTr names types []) (lv_strings y) (lv_name y) (lv_type y) (env (lv_name y)) x) bs (p_vars r).

(** The answers for event number [k]: one for each choice that makes the
    condition true, in ascending order of the positions. *)
Definition answered (names : list name) (types : list tdesc) (sites : list site) (W : list (list name)) (e : bexp)
  (k : N) (ev : event) (g : list (point N)) : Prop :=
  exists s l bss, nth_error sites (fst ev) = Some s /\ site_vars (snd s) l /\ NoDup bss /\ ascending bss /\
    (forall bs, In bs bss <-> choice W l bs /\ true_in (snd ev) l bs e) /\
    Forall2 (shows_choice names types s (snd ev) l k) bss g.

Fixpoint numbered {A} (k : N) (l : list A) : list (N * A) :=
  match l with [] => [] | x :: r => (k, x) :: numbered (k + 1) r end.

(** The answers for the run: those for the events at the wanted sites, in the
    order of the run. *)
Definition answers_run (names : list name) (types : list tdesc) (sites : list site) (W : list (list name)) (e : bexp)
  (mask stmt : N) (order : list event) (rs : list (point N)) : Prop :=
  exists groups, Forall2 (fun x g => answered names types sites W e (fst x) (snd x) g)
                   (filter (fun x => passes sites mask stmt (snd x)) (numbered 0 order)) groups /\
    rs = concat groups.

(** It happened: at some event at a wanted site, some choice made the condition true. *)
Definition happened (sites : list site) (W : list (list name)) (e : bexp) (mask stmt : N) (order : list event) : Prop :=
  exists ev s l bs, In ev order /\ nth_error sites (fst ev) = Some s /\ N.land (fst s) mask = stmt /\
    site_vars (snd s) l /\ choice W l bs /\ true_in (snd ev) l bs e.

(** ** Which conditions can be asked *)

(** Constants fit into 64 bits, fewer than 2^32 parts, the trivial condition is
    not nested. *)
Fixpoint constants_ok (e : iexp) : Prop :=
  match e with
  | IConst z => (- 2 ^ 63 <= z < 2 ^ 64)%Z
  | IValue _ | ISize _ => True
  | IAdd a b | ISub a b | IMul a b => constants_ok a /\ constants_ok b
  end.
Fixpoint expressible (e : bexp) : Prop :=
  match e with
  | BTrue | BDistinct _ _ => True
  | BCmp _ a b => constants_ok a /\ constants_ok b
  | BNot a => a <> BTrue /\ expressible a
  | BAnd l | BOr l => lenN l < 2 ^ 32 /\
      (fix all l := match l with [] => True | a :: r => (a <> BTrue /\ expressible a) /\ all r end) l
  end.
