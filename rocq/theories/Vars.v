(** Model of the choice of the variables that are logged at a place:
    var-instrument, get-canonicalized-type and var-instrument-p,
    instrumentation/c-cpp.lisp:842-905.
    Parameters: the variables in scope at a place (get-vars-in-scope of the AST
    library, given as the function KEY of var-instrument) and canonical types
    (canonicalize-type of the AST library). *)
From Coq Require Import Strings.String.
From Verif Require Import Base Types Compare PrintPred Instr.

(** ** ASTs *)

(** AST classes that are told apart: c/cpp-declaration (with the names of its
    declarators), parameter-declaration, c/cpp-enumerator, function declarators,
    parameter lists, everything else. *)
Inductive acls :=
| ADeclaration (names : list name)
| AParameter
| AEnumerator
| AFunctionDeclarator
| AParameterList
| AOther.

Inductive ast := Ast (c : acls) (children : list ast).
Definition cls (a : ast) : acls := let 'Ast c _ := a in c.

(** An AST object in a tree, by its path from the root. *)
Definition path := list nat.
Fixpoint at_path (a : ast) (p : path) : option ast :=
  match p with
  | [] => Some a
  | i :: r => let 'Ast _ l := a in match nth_error l i with Some b => at_path b r | None => None end
  end.

(** get-parent-asts: the ASTs from the one at [p] up to the root, nearest first.
    Every AST comes with its path; [here] is the path of [a].  The AST library
    has two versions, with and without the AST itself: [parent_asts]. *)
Fixpoint chain_up (here : path) (a : ast) (p : path) : list (path * acls) :=
  match p with
  | [] => [(here, cls a)]
  | i :: r =>
      let 'Ast c l := a in
      match nth_error l i with
      | Some b => chain_up (here ++ [i]) b r
      | None => []
      end ++ [(here, c)]
  end.
Definition parent_asts (self : bool) (root : ast) (p : path) : list (path * acls) :=
  if self then chain_up [] root p else tl (chain_up [] root p).

(** {eq scope}: ASTs in a tree are the same object if they have the same path *)
Fixpoint path_eqb (p q : path) : bool :=
  match p, q with
  | [], [] => true
  | i :: p', j :: q' => Nat.eqb i j && path_eqb p' q'
  | _, _ => false
  end.

(** serapeum: take-until *)
Fixpoint take_until {A} (f : A -> bool) (l : list A) : list A :=
  match l with
  | [] => []
  | x :: r => if f x then [] else x :: take_until f r
  end.

(** ** var-instrument-p *)

Definition between (a b : N) (x : byte) : bool := (a <=? N_of_byte x) && (N_of_byte x <=? b).
(** [A-Za-z_] and [A-Za-z0-9_] *)
Definition re_first (b : byte) : bool := between 65 90 b || between 97 122 b || between 95 95 b.
Definition re_rest (b : byte) : bool := re_first b || between 48 57 b.

(** +identifier-regex+, c-cpp.lisp:842-843; $ also matches before a newline at
    the end of the text *)
Fixpoint rest_matches (l : name) : bool :=
  match l with
  | [] => true
  | b :: r => match b, r with
              | x0a, [] => true
              | _, _ => re_rest b && rest_matches r
              end
  end.
Definition valid_identifier_p (x : name) : bool :=
  match x with
  | [] => false
  | b :: r => re_first b && rest_matches r
  end.

(** starts-with-subseq *)
Fixpoint starts_with (p x : name) : bool :=
  match p, x with
  | [], _ => true
  | a :: p', b :: x' => (N_of_byte a =? N_of_byte b) && starts_with p' x'
  | _, _ => false
  end.
(** lines 884-885 and 886-887 *)
Definition has_name_p (x : name) : bool := match x with [] => false | _ => true end.
Definition attribute_p (x : name) : bool := starts_with (text "__attribute") x.

(** lines 890-891 and 892-893: the classes under variable-declaration-ast are
    declarations, parameter declarations and enumerators *)
Definition variable_declaration_p (c : acls) : bool :=
  match c with ADeclaration _ | AParameter | AEnumerator => true | _ => false end.
Definition enumerator_p (c : acls) : bool := match c with AEnumerator => true | _ => false end.

Definition function_declarator_p (c : acls) : bool := match c with AFunctionDeclarator => true | _ => false end.
Definition parameter_list_p (c : acls) : bool := match c with AParameterList => true | _ => false end.

Section Vars.
(** does get-parent-asts return the AST itself too? *)
Variable self : bool.

(** lines 894-899, function-pointer-parameter-p *)
Definition function_pointer_parameter_p (root : ast) (scope decl : path) : bool :=
  let parents := removelast (take_until (fun x => path_eqb scope (fst x)) (parent_asts self root decl)) in
  existsb (fun x => function_declarator_p (snd x)) parents && existsb (fun x => parameter_list_p (snd x)) parents.

(** lines 881-905, var-instrument-p *)
Definition var_instrument_p (x : name) (decl scope : path) (root : ast) : bool :=
  match at_path root decl with
  | None => false
  | Some d =>
      has_name_p x && valid_identifier_p x && variable_declaration_p (cls d) && negb (enumerator_p (cls d)) &&
      negb (attribute_p x) && negb (function_pointer_parameter_p root scope decl)
  end.

(** ** get-canonicalized-type, lines 867-879 *)

(** canonicalize-type of a declaration and, if given, of one of its declarators
    (by number) *)
Variable canon : path -> option nat -> ctype.

(** (find name declarators :key declarator-name), as a position *)
Fixpoint find_declarator (x : name) (l : list name) : option nat :=
  match l with
  | [] => None
  | y :: r => if bytes_eqb y x then Some 0%nat else match find_declarator x r with Some i => Some (S i) | None => None end
  end.
Definition get_canonicalized_type (root : ast) (decl : path) (x : name) : option ctype :=
  match at_path root decl with
  | Some (Ast (ADeclaration l) _) =>
      match find_declarator x l with
      | Some i => Some (canon decl (Some i))
      | None => None
      end
  | Some _ => Some (canon decl None)
  | None => None
  end.

(** ** var-instrument, lines 845-865 *)

(** An entry of the list of variables: :name, :decl and :scope. *)
Record entry := mkEntry { e_name : name; e_decl : path; e_scope : path }.

Definition names_and_types (root : ast) (l : list entry) : list (name * ctype) :=
  concat (map (fun e =>
    if var_instrument_p (e_name e) (e_decl e) (e_scope e) root then
      match get_canonicalized_type root (e_decl e) (e_name e) with
      | Some t => [(e_name e, t)]
      | None => []
      end
    else []) l).

Definition var_instrument (test : name -> name -> bool) (root : ast) (vars : list entry) (print_strings : bool) (st : istate)
  : list istmt * istate :=
  instrument_c_exprs test (names_and_types root vars) print_strings st.

End Vars.
