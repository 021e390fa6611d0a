(** Model of what the compiler gets to see of instrumented files: translation units.

    The support code of an instrumented file is guarded by macros
    (instrumentation/c-cpp.lisp:31-97 forward declarations, 100-282 implementation,
    291-341 entry macro and initialisation), so what remains of it depends on
    which files a unit includes and which parts of them the preprocessor keeps.

    The preprocessor is not part of the repository; modelled from C11 6.10:
    conditional groups nest and are closed in the file in which they are opened,
    text in a skipped group is dropped, #include replaces itself by the file.
    Simplified: a condition is an unknown ([coin] says how the k-th condition
    met by the preprocessor comes out, so include guards, redefinitions and the
    like are all covered); directives of the program inside one piece of text come
    after the other text of the piece; the headers of the C library included by
    the support code are part of the support code. *)
From Coq Require Import List Bool Arith NArith.
From Verif Require Import Base Types Instr Splice SetupSpec.
Import ListNotations.
Open Scope nat_scope.

(** Directives of the program. *)
Inductive directive := DIf | DElif | DElse | DEndif | DInclude (f : N).

(** A file as the preprocessor reads it: text of the program, the text of a declarator
    of main, directives, inserted calls, pieces of support code. *)
Inductive item := IText (a : N) | IMain (a : N) | IDir (d : directive) | ICall (i : istmt) | ISetup (n : N).

(** What comes out: text of the program, a declarator of main, a call, the forward
    declarations, the implementation, the initialisation (log variable and
    constructor __bi_setup). *)
Inductive token := TText (a : N) | TMain (a : N) | TCall (i : istmt) | TDecl | TImpl | TInit.

Record pstate := mkPS {
  p_coins : nat;        (* conditions decided *)
  p_decl : bool;        (* __GT_TRACEDB_FORWARD_DECLARATIONS is defined *)
  p_impl : bool;        (* __GT_TRACEDB_IMPLEMENTATION *)
  p_entry : bool;       (* __GT_TRACEDB_ENTRY_POINT *)
  p_files : list N;     (* files entered *)
  p_out : list token }.
Definition ps0 : pstate := mkPS 0 false false false [] [].

(** Open conditional groups: has a branch been taken, is this one kept? *)
Definition frame := (bool * bool)%type.
Definition active (st : list frame) : bool := forallb snd st.

Definition put (t : token) (s : pstate) : pstate :=
  mkPS (p_coins s) (p_decl s) (p_impl s) (p_entry s) (p_files s) (p_out s ++ [t]).
Definition tick (s : pstate) : pstate :=
  mkPS (S (p_coins s)) (p_decl s) (p_impl s) (p_entry s) (p_files s) (p_out s).
Definition enter (f : N) (s : pstate) : pstate :=
  mkPS (p_coins s) (p_decl s) (p_impl s) (p_entry s) (p_files s ++ [f]) (p_out s).
Definition def_decl (s : pstate) : pstate :=
  mkPS (p_coins s) true (p_impl s) (p_entry s) (p_files s) (p_out s).
Definition def_impl (s : pstate) : pstate :=
  mkPS (p_coins s) (p_decl s) true (p_entry s) (p_files s) (p_out s).
Definition def_entry (s : pstate) : pstate :=
  mkPS (p_coins s) (p_decl s) (p_impl s) true (p_files s) (p_out s).

(** The support code in a group that is kept: +write-trace-forward-declarations+
    (#ifndef, lines 31-97), +write-trace-implementation+ (#ifndef, 100-282),
    +write-trace-entry-macro+ (291-297), +write-trace-initialization+ (#ifdef, 299-341). *)
Definition setup_code (n : N) (s : pstate) : pstate :=
  match n with
  | 1%N => if p_decl s then s else put TDecl (def_decl s)
  | 2%N => if p_impl s then s else put TImpl (def_impl s)
  | 3%N => def_entry s
  | 4%N => if p_entry s then put TInit s else s
  | _ => s
  end.

Section Preprocessor.
Variable coin : nat -> bool.
Variable inc : N -> pstate -> option pstate.     (* #include *)

Definition step (i : item) (st : list frame) (s : pstate) : option (list frame * pstate) :=
  let kept (s' : pstate) := Some (st, if active st then s' else s) in
  match i with
  | IText a => kept (put (TText a) s)
  | IMain a => kept (put (TMain a) s)
  | ICall c => kept (put (TCall c) s)
  | ISetup n => kept (setup_code n s)
  | IDir DIf => let b := coin (p_coins s) in Some ((b, b) :: st, tick s)
  | IDir DElif => match st with
                  | (t, _) :: r => let b := coin (p_coins s) in Some ((t || b, negb t && b) :: r, tick s)
                  | [] => None
                  end
  | IDir DElse => match st with (t, _) :: r => Some ((true, negb t) :: r, s) | [] => None end
  | IDir DEndif => match st with _ :: r => Some (r, s) | [] => None end
  | IDir (DInclude f) => if active st then option_map (fun s' => (st, s')) (inc f s) else Some (st, s)
  end.
Fixpoint lines (l : list item) (st : list frame) (s : pstate) : option (list frame * pstate) :=
  match l with
  | [] => Some (st, s)
  | i :: r => match step i st s with Some (st', s') => lines r st' s' | None => None end
  end.
End Preprocessor.

(** A file: its groups are closed at its end.  [fuel] bounds the nesting of includes
    (None: a file is missing, a group is not closed, or the nesting is deeper). *)
Fixpoint expand (coin : nat -> bool) (files : N -> option (list item)) (fuel : nat) (f : N) (s : pstate) : option pstate :=
  match fuel with
  | O => None
  | S n => match files f with
           | Some l => match lines coin (expand coin files n) l [] (enter f s) with
                       | Some ([], s') => Some s'
                       | _ => None
                       end
           | None => None
           end
  end.

(** From the text of a file to what the preprocessor reads; [directives] gives the
    directives in a piece of text, [m] recognises declarators of main. *)
Section Items.
Variable m : content -> bool.
Variable directives : N -> list directive.
Definition items_of (c : content) : list item :=
  match c with
  | Txt a => if m c then [IMain a] else IText a :: map IDir (directives a)
  | Ins i => [ICall i]
  | Setup n => [ISetup n]
  | Mark _ => []
  end.
Definition items (l : list content) : list item := flat_map items_of l.
End Items.

(** The files of a project before and after instrumentation: a file with [Some (true, o)]
    is instrumented (c-cpp.lisp:434-512, Splice.instrument) with its own filter and
    calls, one with [Some (false, o)] is left as it is. *)
Section Project.
Variable struct_like else_like : ast -> bool.
Variable keep : N -> path -> ast -> bool.
Variable bef aft : N -> path -> list istmt.
Variable is_main : ast -> bool.
Variable m : content -> bool.
Variable directives : N -> list directive.
Variable src : N -> option (bool * software).

Definition original (f : N) : option (list item) :=
  match src f with
  | Some (_, o) => Some (items m directives (texts (sw_genome o)))
  | None => None
  end.
Definition instrumented (f : N) : option (list item) :=
  match src f with
  | Some (true, o) => Some (items m directives (texts (sw_genome
      (instrument struct_like else_like (keep f) (bef f) (aft f) is_main o))))
  | Some (false, o) => Some (items m directives (texts (sw_genome o)))
  | None => None
  end.
End Project.
