(** Model of type-from-trace-string, instrumentation/c-cpp.lisp:714-736 and
    773-838: the type a type text of a trace stands for. *)
From Coq Require Import Strings.String.
From Verif Require Import Base Types Compare PrintPred Instr.

(** AST classes of specifiers created at lines 803-829; for a modifier the class is
    named by the word. *)
Inductive pclass := PQualifier | PStorage | PModifier | PPrimitive | PIdentifier.
(** Elements of the declarator list, lines 791-802: (:pointer), (:array), (:array
    ast) with the class (true: number literal, false: identifier) and text of the ast. *)
Inductive pdecl := PPointer | PArray (size : option (bool * name)).
Record ptype := mkPT { pt_decl : list pdecl; pt_spec : list (pclass * name) }.

(** lines 714-724 *)
Definition qualifiers : list name := [text "const"; text "volatile"; text "restrict"].
Definition storage_classes : list name := [text "extern"; text "static"; text "auto"; text "register"].
Definition modifiers : list name := [text "signed"; text "unsigned"; text "short"; text "long"].
Definition primitives : list name := [text "char"; text "int"; text "float"; text "double"].

(** (split-sequence #\Space s), line 784 *)
Fixpoint split_space (s : name) : list name :=
  match s with
  | [] => [[]]
  | b :: r => match b with
              | x20 => [] :: split_space r
              | _ => match split_space r with w :: l => (b :: w) :: l | [] => [[b]] end
              end
  end.

(** The part of a text up to the first "]", if no bracket is before it; and the rest:
    a match of [^\[\]]*\] *)
Fixpoint to_bracket (s : name) : option (name * name) :=
  match s with
  | [] => None
  | b :: r => match b with
              | x5d => Some ([], r)
              | x5b => None
              | _ => match to_bracket r with Some (a, q) => Some (b :: a, q) | None => None end
              end
  end.
(** A match of +c/cpp-array-or-pointer-regex+ at the start is removed, line 790. *)
Fixpoint strip (fuel : nat) (s : name) : name :=
  match fuel with
  | O => s
  | S f => match s with
           | x2a :: r => strip f r
           | x5b :: r => match to_bracket r with Some (_, q) => strip f q | None => s end
           | _ => s
           end
  end.
Definition strip_array_or_pointer (s : name) : name := strip (length s) s.
(** (all-matches-as-strings +c/cpp-array-regex+ s), the text between the brackets *)
Fixpoint array_matches (fuel : nat) (s : name) : list name :=
  match fuel with
  | O => []
  | S f => match s with
           | [] => []
           | x5b :: r => match to_bracket r with
                         | Some (a, q) => a :: array_matches f q
                         | None => array_matches f r
                         end
           | _ :: r => array_matches f r
           end
  end.

(** lines 791-792 *)
Definition pointer_component (s : name) : list pdecl :=
  repeat PPointer (count_occ Byte.byte_eq_dec s x2a).
(** lines 793-802 *)
Definition array_component (s : name) : list pdecl :=
  map (fun size => match size with
                   | [] => PArray None
                   | _ => PArray (Some (integer_text size, size))
                   end) (array_matches (length s) s).
(** lines 803-829 *)
Definition base_class (w : name) : pclass :=
  if member w modifiers then PModifier else if member w primitives then PPrimitive else PIdentifier.
Definition from_trace_string (s : name) : ptype :=
  let ws := map strip_array_or_pointer (split_space s) in
  mkPT (pointer_component s ++ array_component s)
       (map (pair PQualifier) (filter (fun w => member w qualifiers) ws) ++
        map (pair PStorage) (filter (fun w => member w storage_classes) ws) ++
        map (fun w => (base_class w, w))
          (filter (fun w => negb (member w qualifiers || member w storage_classes)) ws)).

(** The cache, lines 735-736 and 830-838: an equal hash table, keyed by the text and
    the language (true: C, false: C++).  The objects made for both languages have
    the same contents up to the language of the ASTs. *)
Definition cache : Type := list ((name * bool) * ptype).
Definition from_trace_cached (c : cache) (s : name) (lang : bool) : ptype * cache :=
  match find (fun e => bytes_eqb (fst (fst e)) s && Bool.eqb (snd (fst e)) lang) c with
  | Some e => (snd e, c)
  | None => let p := from_trace_string s in (p, ((s, lang), p) :: c)
  end.

(** The specifiers and declarators of the result, as a canonical type (Instr.v); the
    identities of the new ASTs are [ids]. *)
Definition as_ctype (ids : nat -> N) (p : ptype) : ctype :=
  mkC (map (fun x => match snd x with
                     | PPointer => DPointer
                     | PArray None => DArray None
                     | PArray (Some (_, s)) => DArray (Some (s, ids (fst x)))
                     end) (combine (seq 0 (length (pt_decl p))) (pt_decl p)))
      (map (fun x => mkSpec (match fst x with PQualifier => KQualifier | PStorage => KStorage | _ => KOther end) (snd x))
           (pt_spec p)).
