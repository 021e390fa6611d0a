(** Specification: which variables of a C program are logged. *)
From Coq Require Import Strings.String.
From Verif Require Import Base Types Compare PrintPred Instr CRead Vars.

(** ** Declarators of C *)

(** The declared name (or nothing), [*d], [d[...]], [(d)], [d = value] and
    [d(parameters)]; a parameter is given by its declarator. *)
Inductive dtor :=
| Name
| Pointer (d : dtor)
| Array (d : dtor)
| Paren (d : dtor)
| Init (d : dtor)
| Func (d : dtor) (params : list dtor).

(** Their ASTs. *)
Definition leaf : ast := Ast AOther [].
Fixpoint tree_of (d : dtor) : ast :=
  match d with
  | Name => leaf
  | Pointer d | Array d | Paren d | Init d => Ast AOther [tree_of d; leaf]
  | Func d ps => Ast AFunctionDeclarator [tree_of d; Ast AParameterList (map (fun q => Ast AParameter [leaf; tree_of q]) ps)]
  end.

(** A function definition: type, declarator and body.  A declaration: type and
    declarators, and the names declared. *)
Definition function_definition (rt : ast) (d : dtor) (body : ast) : ast := Ast AOther [rt; tree_of d; body].
Definition declaration (t : ast) (l : list (name * dtor)) : ast :=
  Ast (ADeclaration (map fst l)) (t :: map (fun x => tree_of (snd x)) l).

(** The parameters that are mentioned anywhere in a declarator, by the path of
    their declaration. *)
Inductive param_at : dtor -> path -> Prop :=
| pa_here : forall d ps i, (i < length ps)%nat -> param_at (Func d ps) [1%nat; i]
| pa_inside : forall d ps i q p, nth_error ps i = Some q -> param_at q p -> param_at (Func d ps) (1 :: i :: 1 :: p)%nat
| pa_func : forall d ps p, param_at d p -> param_at (Func d ps) (0 :: p)%nat
| pa_pointer : forall d p, param_at d p -> param_at (Pointer d) (0 :: p)%nat
| pa_array : forall d p, param_at d p -> param_at (Array d) (0 :: p)%nat
| pa_paren : forall d p, param_at d p -> param_at (Paren d) (0 :: p)%nat
| pa_init : forall d p, param_at d p -> param_at (Init d) (0 :: p)%nat.

(** The parameters of the function that is declared: those next to its name.
    In [int *( *f(int a))(int b)], [a] is a parameter of [f]; [b] is one of the
    functions that [f] returns. *)
Inductive bare : dtor -> Prop :=
| ba_name : bare Name
| ba_paren : forall d, bare d -> bare (Paren d).
Inductive own : dtor -> path -> Prop :=
| own_here : forall d ps i, bare d -> (i < length ps)%nat -> own (Func d ps) [1%nat; i]
| own_func : forall d ps p, own d p -> own (Func d ps) (0 :: p)%nat
| own_pointer : forall d p, own d p -> own (Pointer d) (0 :: p)%nat
| own_array : forall d p, own d p -> own (Array d) (0 :: p)%nat
| own_paren : forall d p, own d p -> own (Paren d) (0 :: p)%nat
| own_init : forall d p, own d p -> own (Init d) (0 :: p)%nat.

(** ** Names *)

(** A name that can be logged: an identifier that does not begin like
    __attribute__. *)
Definition plain_name (x : name) : Prop := identifier x /\ forall r, x <> text "__attribute" ++ r.

(** ** The choice in general *)

Definition declares (root : ast) (decl : path) : Prop :=
  exists d, at_path root decl = Some d /\ ((exists l, cls d = ADeclaration l) \/ cls d = AParameter).

(** An AST of the class is above the declaration and at least two levels below
    the scope. *)
Definition under (root : ast) (scope decl : path) (c : acls) : Prop :=
  exists i q r b, q <> [] /\ r <> [] /\ decl = scope ++ i :: q ++ r /\ at_path root (scope ++ i :: q) = Some b /\ cls b = c.

Definition chosen (root : ast) (e : entry) : Prop :=
  plain_name (e_name e) /\ declares root (e_decl e) /\
  ~ (under root (e_scope e) (e_decl e) AFunctionDeclarator /\ under root (e_scope e) (e_decl e) AParameterList).

(** The scope of a variable is above its declaration. *)
Definition scoped (e : entry) : Prop := exists r, r <> [] /\ e_decl e = e_scope e ++ r.

(** The type of a variable: that of its declarator (the first with its name). *)
Inductive has_type (canon : path -> option nat -> ctype) (root : ast) (e : entry) : ctype -> Prop :=
| ht_declarator : forall l ch i, at_path root (e_decl e) = Some (Ast (ADeclaration l) ch) ->
    nth_error l i = Some (e_name e) -> ~ In (e_name e) (firstn i l) ->
    has_type canon root e (canon (e_decl e) (Some i))
| ht_other : forall d, at_path root (e_decl e) = Some d -> (forall l, cls d <> ADeclaration l) ->
    has_type canon root e (canon (e_decl e) None).

(** The chosen variables with their types, in order. *)
Inductive chosen_vars (canon : path -> option nat -> ctype) (root : ast) : list entry -> list (name * ctype) -> Prop :=
| cv_nil : chosen_vars canon root [] []
| cv_take : forall e l t r, chosen root e -> has_type canon root e t -> chosen_vars canon root l r ->
    chosen_vars canon root (e :: l) ((e_name e, t) :: r)
| cv_skip : forall e l r, ~ chosen root e \/ (forall t, ~ has_type canon root e t) -> chosen_vars canon root l r ->
    chosen_vars canon root (e :: l) r.
