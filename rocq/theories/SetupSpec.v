(** Specification for the support code of instrumented files (Splice.v): the text of
    a file from top to bottom, and what counts as text of the program. *)
From Coq Require Import List Bool Arith NArith.
From Verif Require Import Base Types Instr Splice.
Import ListNotations.
Open Scope nat_scope.

(** The pieces of text of an AST in the order in which they are printed: what stands
    before it, its own text, its children, what stands after it. *)
Fixpoint texts (t : ast) : list content :=
  let 'Node _ c _ b ks af := t in flat_map texts b ++ c :: flat_map texts ks ++ flat_map texts af.

(** Text of the program, inserted calls. *)
Definition of_program (c : content) : Prop := match c with Txt _ => True | _ => False end.
Definition a_call (c : content) : Prop := match c with Ins _ => True | _ => False end.

(** The support code: declarations, implementation, entry macro, initialisation. *)
Definition declarations : content := Setup 1.
Definition implementation : content := Setup 2.
Definition entry_macro : content := Setup 3.
Definition initialisation : content := Setup 4.

(** A source file as it is read: a root with children; nothing of it was inserted. *)
Definition source_file (t : ast) : Prop :=
  n_cls t = KRoot /\ n_kids t <> [] /\ Forall of_program (texts t).

(** Declarators of main: [m] recognises the text. *)
Definition recognises (is_main : ast -> bool) (m : content -> bool) : Prop :=
  (forall t, is_main t = cls_eqb (n_cls t) KExpr && m (n_content t)) /\
  (forall c, m c = true -> of_program c).
Fixpoint mains (is_main : ast -> bool) (t : ast) : nat :=
  let 'Node _ _ _ _ ks _ := t in
  (if is_main t then 1 else 0) + fold_right (fun x n => mains is_main x + n) 0 ks.
