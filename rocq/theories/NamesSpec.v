(** Specification of C98: the names that C declarations declare at file scope,
    and the names that the code of a place may use. *)
From Coq Require Import Strings.String.
From Verif Require Import Base Types Compare PrintPred Instr InstrSpec CRead Emit Names.

(** ** Names that declarations declare (functions, variables, type names and
    enumerators; not the tags of structures and enumerations) *)

(** __attribute__((...)) is left out. *)
Fixpoint without_attributes (depth : nat) (skip : bool) (l : list ctok) : list ctok :=
  match l with
  | [] => []
  | k :: r =>
      if skip then
        if opens k then without_attributes (S depth) true r
        else if closes k then without_attributes (pred depth) (negb (Nat.eqb depth 1)) r
        else without_attributes depth true r
      else match k with
           | KId x => if bytes_eqb x (text "__attribute__") then without_attributes 0 true r
                      else k :: without_attributes 0 false r
           | _ => k :: without_attributes 0 false r
           end
  end.
(** The name before the parameters. *)
Fixpoint function_name (l : list ctok) : option name :=
  match l with
  | KId x :: KPunct x28 :: _ => Some x
  | _ :: r => function_name r
  | [] => None
  end.
Fixpoint last_name (l : list ctok) (found : list name) : list name :=
  match l with
  | [] => found
  | KId x :: r => last_name r [x]
  | _ :: r => last_name r found
  end.
Definition first_name (l : list ctok) : list name := match l with KId x :: _ => [x] | _ => [] end.
Fixpoint braces (l : list ctok) : option (list ctok) :=
  match l with
  | [] => None
  | k :: r => if is x7b k then inside 0 r else braces r
  end.
(** One declaration: an enumeration with its enumerators; a tag alone (declares
    no such name); a function; a variable or type name. *)
Definition names_of_declaration (l : list ctok) : list name :=
  match without_attributes 0 false l with
  | [KId s; KId _] => if bytes_eqb s (text "struct") then [] else last_name l []
  | d => match braces d with
         | Some b => flat_map first_name (split x2c 0 [] b)
         | None => match function_name d with
                   | Some x => [x]
                   | None => last_name d []
                   end
         end
  end.
Definition declared (l : name) : list name :=
  match lex l with
  | Some ts => flat_map names_of_declaration (split x3b 0 [] ts)
  | None => []
  end.

(** ** Functions and their parameters *)
Fixpoint parameters (l : list ctok) : list (name * list (list ctok)) :=
  match l with
  | KId x :: KPunct x28 :: r => match inside 0 r with Some q => [(x, split x2c 0 [] q)] | None => [] end
  | _ :: r => parameters r
  | [] => []
  end.
Definition prototypes (l : name) : list (name * list (list ctok)) :=
  match lex l with
  | Some ts => flat_map (fun d => parameters (without_attributes 0 false d)) (split x3b 0 [] ts)
  | None => []
  end.
(** A call with [n] arguments of a function with parameters [ps]: one for each,
    and any number for three dots at the end. *)
Definition dots : list ctok := [KPunct x2e; KPunct x2e; KPunct x2e].
Definition accepts (ps : list (list ctok)) (n : nat) : Prop :=
  (~ In dots ps /\ n = List.length ps) \/ (exists qs, ps = qs ++ [dots] /\ ~ In dots qs /\ (List.length qs <= n)%nat).

(** ** Names that the code of a place may use

    Those of the declarations at the top of the file; keywords of C; the
    program's variables and the words of their types; members of C++ strings
    that are logged.  [strlen] is used when a C string is logged. *)
Inductive uses (s : site) : name -> Prop :=
| u_declared : forall x, In x (declared forward_declarations) -> uses s x
| u_keyword : forall x, In x [text "sizeof"; text "void"] -> uses s x
| u_variable : forall g n t, In g (snd s) -> In (n, t) (snd g) -> uses s n
| u_type : forall g n t x, In g (snd s) -> In (n, t) (snd g) -> In x (words t) -> uses s x
| u_member : forall g n t x, In g (snd s) -> In (n, t) (snd g) -> fst g = true -> has_kind t CString ->
    In x [text "length"; text "c_str"] -> uses s x
| u_strlen : forall g n t, In g (snd s) -> In (n, t) (snd g) -> fst g = true -> has_kind t CCharPointer ->
    uses s (text "strlen").

(** A C string is logged at a place. *)
Definition logs_c_string (s : site) : Prop :=
  exists g n t, In g (snd s) /\ In (n, t) (snd g) /\ fst g = true /\ has_kind t CCharPointer.

(** Names that programs must not define (C11 7.1.3). *)
Definition reserved (x : name) : Prop := exists r, x = text "__" ++ r.
