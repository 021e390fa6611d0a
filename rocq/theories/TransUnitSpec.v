(** Specification for translation units of instrumented files (TransUnit.v). *)
From Coq Require Import List Bool Arith NArith.
From Verif Require Import Base Types Instr Splice SetupSpec TransUnit.
Import ListNotations.
Open Scope nat_scope.

(** The text at the two ends of a file, outside its first and its last AST that is not
    a parse error: comments, headers of parse errors. *)
Fixpoint above (t : ast) : list content :=
  let 'Node k c _ b ks _ := t in
  flat_map texts b ++ match k, ks with KError, x :: _ => c :: above x | _, _ => [] end.
Definition top (t : ast) : list content :=
  let 'Node _ c _ b ks _ := t in
  flat_map texts b ++ c :: match ks with x :: _ => above x | [] => [] end.
Fixpoint below (t : ast) : list content :=
  let 'Node k _ _ _ ks af := t in
  match k, ks with
  | KError, _ :: _ =>
      (fix last_of (l : list ast) : list content :=
         match l with [] => [] | [x] => below x | _ :: r => last_of r end) ks ++ flat_map texts af
  | _, _ => []
  end.
Definition bottom (t : ast) : list content :=
  let 'Node _ _ _ _ ks af := t in
  match rev ks with x :: _ => below x | [] => [] end ++ flat_map texts af.

(** No directive there: all groups of the program open and close between the
    first and the last AST of the file. *)
Definition quiet (directives : N -> list directive) (l : list content) : Prop :=
  forall a, In (Txt a) l -> directives a = [].

(** The files of a project that can be instrumented; [Txt 0] is the (empty) text of ASTs
    without own text; each declarator of main has its own text. *)
Record project (is_main : ast -> bool) (m : content -> bool) (directives : N -> list directive)
               (src : N -> option (bool * software)) : Prop := {
  pr_main : recognises is_main m;
  pr_empty : m (Txt 0) = false /\ directives 0%N = [];
  pr_plain : forall f o, src f = Some (false, o) -> Forall of_program (texts (sw_genome o));
  pr_file : forall f o, src f = Some (true, o) ->
    source_file (sw_genome o) /\
    quiet directives (top (sw_genome o)) /\ quiet directives (bottom (sw_genome o)) /\
    length (filter m (texts (sw_genome o))) = mains is_main (sw_genome o) }.

(** Counting what the compiler gets to see. *)
Definition is_decl (t : token) : bool := match t with TDecl => true | _ => false end.
Definition is_impl (t : token) : bool := match t with TImpl => true | _ => false end.
Definition is_init (t : token) : bool := match t with TInit => true | _ => false end.
Definition is_entry (t : token) : bool := match t with TMain _ => true | _ => false end.
Definition is_call (t : token) : bool := match t with TCall _ => true | _ => false end.
Definition many (p : token -> bool) (l : list token) : nat := length (filter p l).

(** The program's own text. *)
Definition own (t : token) : bool := match t with TText a => negb (N.eqb a 0) | TMain _ => true | _ => false end.

(** Is file [f] instrumented?  Does it have a declarator of main? *)
Definition is_instrumented (src : N -> option (bool * software)) (f : N) : bool :=
  match src f with Some (b, _) => b | None => false end.
Definition has_main (m : content -> bool) (src : N -> option (bool * software)) (f : N) : bool :=
  match src f with Some (_, o) => existsb m (texts (sw_genome o)) | None => false end.
