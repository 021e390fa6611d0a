(** Model of how the instrumenter puts its calls into the program and takes them
    out again: instrumentation/c-cpp.lisp:417-539 and 609-712, 1136-1227.

    The AST library (software-evolution-library) is not part of the
    repository.  Assumed of it: an AST has a class, a source text, annotations,
    children, and lists of ASTs printed before and after it (before-asts,
    after-asts); (asts obj) lists the ASTs; ast-path, lookup and with name, find
    and replace an AST by its position; path-later-p orders positions such that
    later ones come first and the parts of an AST before the AST.
    Comments and other text that is no statement are kept in before/after lists
    or as children of class [KExpr].  The alternative of an if is its statement,
    the label of a labelled statement is part of its text. *)
From Coq Require Import List Bool Arith NArith.
From Verif Require Import Base Types Instr.
Import ListNotations.
Open Scope nat_scope.

(** Classes of ASTs, as far as the code distinguishes them. *)
Inductive cls :=
| KCompound            (* compound-ast *)
| KIf                  (* c/cpp-if-statement: condition, consequence, optional alternative *)
| KLoop                (* loop-ast, while and for: head, body *)
| KDo                  (* loop-ast, do: body, condition *)
| KSwitch              (* switch: value, body *)
| KCase                (* c/cpp-case-statement: label, statements up to the next label *)
| KLabel               (* c/cpp-labeled-statement: statement *)
| KSimple              (* other statement-ast: expression, declaration, jump *)
| KEmpty               (* expression statement ";" *)
| KFunction            (* c/cpp-function-definition: declarator, body *)
| KPreIf               (* c/cpp-preproc-if, -ifdef *)
| KPreElse             (* c/cpp-preproc-elif, -else *)
| KPreDef              (* c/cpp-preproc-def, -include *)
| KError               (* variation-point, parse-error-ast, source-text-fragment *)
| KExpr                (* no statement *)
| KFragment            (* text-fragment *)
| KMark                (* only in specifications (SpliceSpec.v) *)
| KRoot.

(** Source text: of the program (by an identity), an inserted call, or the
    support code of lines 505-507. *)
Inductive content := Txt (a : N) | Ins (i : istmt) | Setup (n : N) | Mark (p : list nat).

Inductive ast :=
  Node (k : cls) (c : content) (ann : bool) (before kids after : list ast).

Definition n_cls (t : ast) : cls := let 'Node k _ _ _ _ _ := t in k.
Definition n_content (t : ast) : content := let 'Node _ c _ _ _ _ := t in c.
Definition n_ann (t : ast) : bool := let 'Node _ _ a _ _ _ := t in a.
Definition n_kids (t : ast) : list ast := let 'Node _ _ _ _ l _ := t in l.

Definition cls_eqb (a b : cls) : bool :=
  match a, b with
  | KCompound, KCompound | KIf, KIf | KLoop, KLoop | KDo, KDo | KSwitch, KSwitch | KCase, KCase
  | KLabel, KLabel | KSimple, KSimple | KEmpty, KEmpty | KFunction, KFunction | KPreIf, KPreIf
  | KPreElse, KPreElse | KPreDef, KPreDef | KError, KError | KExpr, KExpr | KFragment, KFragment
  | KMark, KMark | KRoot, KRoot => true
  | _, _ => false
  end.

(** statement-ast *)
Definition statement (k : cls) : bool :=
  match k with
  | KCompound | KIf | KLoop | KDo | KSwitch | KCase | KLabel | KSimple | KEmpty => true
  | _ => false
  end.
(** +traceable-stmt-types+, lines 344-350 *)
Definition traceable_stmt_type (k : cls) : bool :=
  statement k || match k with KPreIf | KPreDef => true | _ => false end.
(** +traceable-parent-types+, lines 352-360 *)
Definition traceable_parent_type (k : cls) : bool :=
  match k with KCompound | KPreIf | KPreElse | KCase | KLabel => true | _ => false end.

(** possibly-incomplete-ast-p, lines 674-697, from the neighbours. *)
Definition error_ast_p (t : option ast) : bool :=
  match t with Some t => cls_eqb (n_cls t) KError | None => false end.
Definition possibly_incomplete_macro_p (t : option ast) : bool :=
  match t with
  | Some t => cls_eqb (n_cls t) KPreIf &&
              negb match rev (n_kids t) with x :: _ => statement (n_cls x) | [] => false end
  | None => false
  end.
Definition possibly_incomplete (prev next : option ast) : bool :=
  possibly_incomplete_macro_p prev || error_ast_p prev || error_ast_p next.

Section Splice.
(** misidentified-ast-p, lines 658-672: is this a function definition called struct,
    enum, class or namespace?  Does the text of the AST start with "else"? *)
Variable struct_like : ast -> bool.
Variable else_like : ast -> bool.

(** Where an AST stands: the classes of its ancestors (nearest first), whether
    the nearest enclosing function is misidentified, whether the parent is
    possibly incomplete, whether it is the body of a loop or a branch of an if
    (lines 626-632), whether it is possibly incomplete. *)
Record ctx := mkX { x_parents : list cls; x_odd : bool; x_pinc : bool; x_body : bool; x_inc : bool }.
Definition ctx0 : ctx := mkX [] false false false false.

Definition body_role (k : cls) (i : nat) : bool :=
  match k with
  | KLoop => i =? 1
  | KDo => i =? 0
  | KIf => (i =? 1) || (i =? 2)
  | _ => false
  end.

Definition child_ctx (x : ctx) (t : ast) (i : nat) (prev next : option ast) : ctx :=
  mkX (n_cls t :: x_parents x)
      (if cls_eqb (n_cls t) KFunction then struct_like t else x_odd x)
      (x_inc x) (body_role (n_cls t) i) (possibly_incomplete prev next).

(** traceable-stmt-p, lines 635-656 *)
Definition traceable_stmt_p (x : ctx) (t : ast) : bool :=
  negb (traceable_parent_type (n_cls t)) && traceable_stmt_type (n_cls t) &&
  negb (cls_eqb (n_cls t) KEmpty) && negb (x_inc x) &&
  match x_parents x with p :: _ => traceable_parent_type p | [] => false end &&
  existsb (cls_eqb KCompound) (x_parents x) &&
  negb (x_odd x || else_like t) && negb (x_pinc x).

(** can-be-made-traceable-p, lines 622-633 *)
Definition can_be_made_traceable_p (x : ctx) (t : ast) : bool :=
  traceable_stmt_p x t ||
  (negb (cls_eqb (n_cls t) KCompound) && x_body x && negb (x_inc x)).

(** The ASTs of the program: position, surroundings, AST.  A position lists the
    numbers of the children on the way. *)
Definition path := list nat.
Record place := mkPl { pl_path : path; pl_ctx : ctx; pl_ast : ast }.
Definition down (i : nat) (p : place) : place := mkPl (i :: pl_path p) (pl_ctx p) (pl_ast p).

Fixpoint asts (x : ctx) (t : ast) : list place :=
  let 'Node _ _ _ _ ks _ := t in
  mkPl [] x t ::
  (fix go (i : nat) (prev : option ast) (l : list ast) : list place :=
     match l with
     | [] => []
     | c :: r => map (down i) (asts (child_ctx x t i prev (hd_error r)) c) ++ go (S i) (Some c) r
     end) 0 None ks.

(** path-later-p *)
Fixpoint path_later (a b : path) : bool :=
  match a, b with
  | [], _ => false
  | _ :: _, [] => true
  | i :: a', j :: b' => if j <? i then true else if i <? j then false else path_later a' b'
  end.

(** (sort asts {path-later-p obj}), line 455 *)
Fixpoint insert_later (p : place) (l : list place) : list place :=
  match l with
  | [] => [p]
  | q :: r => if path_later (pl_path q) (pl_path p) then q :: insert_later p r else p :: l
  end.
Definition sort_asts (l : list place) : list place := fold_right insert_later [] l.

(** lookup and with *)
Fixpoint lookup (t : ast) (p : path) : option ast :=
  match p with
  | [] => Some t
  | i :: r => match nth_error (n_kids t) i with Some c => lookup c r | None => None end
  end.
Fixpoint set_nth (l : list ast) (i : nat) (c : ast) : list ast :=
  match l, i with
  | [], _ => []
  | _ :: r, O => c :: r
  | x :: r, S j => x :: set_nth r j c
  end.
Fixpoint with_at (t : ast) (p : path) (n : ast) : ast :=
  match p with
  | [] => n
  | i :: r => let 'Node k c a b ks af := t in
              match nth_error ks i with
              | Some x => Node k c a b (set_nth ks i (with_at x r n)) af
              | None => t
              end
  end.

(** create-instrumentation-ast, lines 1151-1158 *)
Definition fragment (c : content) : ast := Node KFragment c true [] [] [].
(** wrap-before-after-asts, lines 1215-1227 *)
Definition wrap_before_after (t : ast) (bef aft : list ast) : ast :=
  let 'Node k c a b ks af := t in Node k c a (b ++ bef) ks (af ++ aft).
(** wrap-in-compound-stmt-if-needed, lines 485-492 *)
Definition wrap_in_compound_if_needed (x : ctx) (t new : ast) : ast :=
  if traceable_stmt_p x t then new else Node KCompound (Txt 0) true [] [new] [].

(** The user's filter (line 437), and the calls inserted before and after the
    AST at a position (Instr.instrument_ast; after: none without
    functions-after). *)
Variable keep : path -> ast -> bool.
Variable bef aft : path -> list istmt.

(** instrument-asts, lines 471-484 *)
Definition chosen (root : ast) : list place :=
  sort_asts (filter (fun p => keep (pl_path p) (pl_ast p))
            (filter (fun p => can_be_made_traceable_p (pl_ctx p) (pl_ast p)) (asts ctx0 root))).

(** One round of the loop of lines 495-502. *)
Definition instrument_one (root : ast) (p : place) : ast :=
  match lookup root (pl_path p) with
  | Some t => with_at root (pl_path p)
      (wrap_in_compound_if_needed (pl_ctx p) (pl_ast p)
         (wrap_before_after t (map (fun i => fragment (Ins i)) (bef (pl_path p)))
                              (map (fun i => fragment (Ins i)) (aft (pl_path p)))))
  | None => root
  end.
Definition instrument_genome (root : ast) : ast := fold_left instrument_one (chosen root) root.

(** Support code, lines 505-507 and 1181-1212: attached to the first and the last
    child of the root; if that is an error node, to its first (last) child, and so
    on.  [pick] is first or lastcar. *)
Fixpoint concretize (fuel : nat) (pick : list ast -> option (nat * ast)) (t : ast) : path :=
  match fuel with
  | O => []
  | S f => if cls_eqb (n_cls t) KError then
             match pick (n_kids t) with Some (i, c) => i :: concretize f pick c | None => [] end
           else []
  end.
Definition pick_first (l : list ast) : option (nat * ast) :=
  match l with c :: _ => Some (0, c) | [] => None end.
Definition pick_last (l : list ast) : option (nat * ast) :=
  match rev l with c :: _ => Some (length l - 1, c) | [] => None end.
Fixpoint height (t : ast) : nat :=
  let 'Node _ _ _ _ ks _ := t in S (fold_right Nat.max 0 (map height ks)).
Definition setup_path (pick : list ast -> option (nat * ast)) (root : ast) : option path :=
  match pick (n_kids root) with
  | Some (i, c) => Some (i :: concretize (height root) pick c)
  | None => None
  end.
(** inject-instrumentation-setup-code, lines 1205-1212 *)
Definition inject (p : path) (bef aft : list ast) (root : ast) : ast :=
  match lookup root p with Some t => with_at root p (wrap_before_after t bef aft) | None => root end.
Definition inject_opt (p : option path) (bef aft : list ast) (root : ast) : ast :=
  match p with Some p => inject p bef aft root | None => root end.

(** main-declarators, lines 1141-1147; [is_main] recognises them. *)
Variable is_main : ast -> bool.
Definition main_paths (root : ast) : list path :=
  map pl_path (filter (fun p => is_main (pl_ast p)) (asts ctx0 root)).

(** A software object: genome and flags. *)
Record software := mkSW { sw_genome : ast; sw_flags : list N }.
Definition lpthread : N := 1.

(** instrument, lines 434-512: the calls, forward declarations (1), implementation
    (2), entry macro (3) before each declarator of main and the initialisation (4)
    after the rest, and the flag -lpthread. *)
Definition instrument (o : software) : software :=
  let r1 := instrument_genome (sw_genome o) in
  let r2 := inject_opt (setup_path pick_first r1) [fragment (Setup 1)] [] r1 in
  let r3 := inject_opt (setup_path pick_last r2) [] [fragment (Setup 2)] r2 in
  let mains := main_paths r3 in
  let r4 := fold_left (fun r p => inject p [fragment (Setup 3)] [] r) mains r3 in
  let r5 := match mains with
            | [] => r4
            | _ => inject_opt (setup_path pick_last r4) [] [fragment (Setup 4)] r4
            end in
  mkSW r5 (sw_flags o ++ [lpthread]).

End Splice.

(** uninstrument, lines 514-539: first every inserted block is replaced by its
    first child, then every inserted AST is removed.  The mutations go from the
    last AST to the first, so inner ones are done before outer ones. *)
Fixpoint unwrap (t : ast) : ast :=
  let 'Node k c a b ks af := t in
  let b' := map unwrap b in
  let ks' := map unwrap ks in
  let af' := map unwrap af in
  if a && cls_eqb k KCompound then match ks' with x :: _ => x | [] => Node k c a b' ks' af' end
  else Node k c a b' ks' af'.
Fixpoint cut (t : ast) : ast :=
  let 'Node k c a b ks af := t in
  Node k c a (filter (fun x => negb (n_ann x)) (map cut b))
             (filter (fun x => negb (n_ann x)) (map cut ks))
             (filter (fun x => negb (n_ann x)) (map cut af)).
Definition uninstrument (o : software) : software := mkSW (cut (unwrap (sw_genome o))) (sw_flags o).
