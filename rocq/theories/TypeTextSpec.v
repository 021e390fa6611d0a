(** Specification: the type that is found in a type text. *)
From Coq Require Import Strings.String Permutation.
From Verif Require Import Base Types Compare PrintPred Instr InstrSpec TypeText.

(** Which words are qualifiers and storage classes in C. *)
Definition c_kind (w : name) : skind :=
  if existsb (bytes_eqb w) [text "const"; text "volatile"; text "restrict"] then KQualifier
  else if existsb (bytes_eqb w) [text "extern"; text "static"; text "auto"; text "register"] then KStorage
  else KOther.

(** Pointers and arrays of a type; sizes of arrays as texts, empty if not a number. *)
Definition pointers (t : ctype) : nat :=
  length (filter (fun d => match d with DPointer => true | _ => false end) (c_decl t)).
Definition sizes (t : ctype) : list name :=
  flat_map (fun d => match d with
                     | DPointer => []
                     | DArray (Some (s, _)) => [if integer_text s then s else []]
                     | DArray None => [[]]
                     end) (c_decl t).
Definition of_kind (k : skind) (t : ctype) : list spec :=
  filter (fun s => match sp_kind s, k with
                   | KStorage, KStorage | KQualifier, KQualifier | KOther, KOther => true
                   | _, _ => false
                   end) (c_spec t).

(** Pointers before arrays, all array sizes are numbers or missing; qualifiers,
    storage classes, other specifiers. *)
Definition in_order (t : ctype) : Prop :=
  (exists n l, c_decl t = repeat DPointer n ++ l /\
     Forall (fun d => match d with DPointer => False | DArray None => True | DArray (Some (s, _)) => integer_text s = true end) l) /\
  c_spec t = of_kind KQualifier t ++ of_kind KStorage t ++ of_kind KOther t.

(** Equal up to the identity of the ASTs of array sizes. *)
Definition same_text (t u : ctype) : Prop :=
  map (fun d => match d with DArray (Some (s, _)) => DArray (Some (s, 0)) | _ => d end) (c_decl t) =
  map (fun d => match d with DArray (Some (s, _)) => DArray (Some (s, 0)) | _ => d end) (c_decl u) /\
  c_spec t = c_spec u.

(** The type read back from the text of a type. *)
Definition back (ids : nat -> N) (t : ctype) : ctype := as_ctype ids (from_trace_string (type_trace_string t)).

(** Requests one after the other. *)
Fixpoint requests (c : cache) (l : list (name * bool)) : list ptype :=
  match l with
  | [] => []
  | (s, lang) :: r => let '(p, c') := from_trace_cached c s lang in p :: requests c' r
  end.
