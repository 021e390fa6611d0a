(** What instrumented programs should do.  Specification for Splice.v: the text of
    function bodies as C tokens, the C grammar of statements, and an execution
    of statements with jumps, calls and a log.

    The program to compare with is the original one with marks: a mark has no
    width and no effect; when execution passes it, the log gets the entry of the
    marked statement. *)
From Coq Require Import List Bool Arith NArith.
From Verif Require Import Base Types Instr Splice.
Import ListNotations.
Open Scope nat_scope.

(** ** Tokens: headers, labels and simple statements are single tokens. *)
Inductive stm := SProg (a : N) | SEmpty | SIns (i : istmt).
Inductive tok :=
| TOpen | TClose | TIf (c : N) | TElse | TLoop (h : N) | TDo | TUntil (c : N) | TSwitch (c : N)
| TCase (v : N) | TLabel (l : N) | TStm (s : stm) | TMark (p : path) | TBad.

Definition cont (c : content) : N := match c with Txt a => a | _ => 0%N end.
Definition ex (t : ast) : N := cont (n_content t).
Definition is_else (t : ast) : bool := cls_eqb (n_cls t) KPreElse.

(** The text of an AST after the preprocessor; [mac a] says if the condition [a] holds.
    What has no place in a function body ([TBad]): parse errors; definitions of macros
    and inclusions are not modelled there either. *)
Fixpoint print (mac : N -> bool) (t : ast) : list tok :=
  let 'Node k c _ b ks af := t in
  flat_map (print mac) b ++
  match k, ks with
  | KCompound, _ => TOpen :: flat_map (print mac) ks ++ [TClose]
  | KIf, [e; s] => TIf (ex e) :: print mac s
  | KIf, [e; s; s2] => TIf (ex e) :: print mac s ++ TElse :: print mac s2
  | KLoop, [e; s] => TLoop (ex e) :: print mac s
  | KDo, [s; e] => TDo :: print mac s ++ [TUntil (ex e)]
  | KSwitch, [e; s] => TSwitch (ex e) :: print mac s
  | KCase, v :: ss => TCase (ex v) :: flat_map (print mac) ss
  | KLabel, [s] => TLabel (cont c) :: print mac s
  | KSimple, _ => [TStm (SProg (cont c))]
  | KEmpty, _ => [TStm SEmpty]
  | KPreIf, _ | KPreElse, _ =>
      flat_map (fun x => if Bool.eqb (is_else x) (mac (cont c)) then [] else print mac x) ks
  | KFragment, _ => match c with Ins i => [TStm (SIns i)] | _ => [] end
  | KMark, [s] => match c with Mark p => TMark p :: print mac s | _ => [TBad] end
  | KExpr, _ => []
  | _, _ => [TBad]
  end ++
  flat_map (print mac) af.

(** ** Statements and their grammar *)
Inductive cstmt :=
| CStm (s : stm)
| CMark (p : path) (s : cstmt)
| CBlock (l : list cstmt)
| CIf (c : N) (s : cstmt)
| CIfElse (c : N) (s e : cstmt)
| CLoop (h : N) (s : cstmt)
| CDo (s : cstmt) (c : N)
| CSwitch (c : N) (s : cstmt)
| CCase (v : N) (s : cstmt)
| CLabel (l : N) (s : cstmt).

(** Recursive descent; an else belongs to the nearest if; a label to the next statement. *)
Fixpoint parse_s (n : nat) (ts : list tok) : option (cstmt * list tok) :=
  match n with
  | O => None
  | S n =>
      match ts with
      | TStm s :: r => Some (CStm s, r)
      | TMark p :: r => match parse_s n r with Some (s, r) => Some (CMark p s, r) | None => None end
      | TOpen :: r => match parse_b n r with Some (l, r) => Some (CBlock l, r) | None => None end
      | TIf c :: r =>
          match parse_s n r with
          | Some (s, TElse :: r) =>
              match parse_s n r with Some (e, r) => Some (CIfElse c s e, r) | None => None end
          | Some (s, r) => Some (CIf c s, r)
          | None => None
          end
      | TLoop h :: r => match parse_s n r with Some (s, r) => Some (CLoop h s, r) | None => None end
      | TDo :: r =>
          match parse_s n r with Some (s, TUntil c :: r) => Some (CDo s c, r) | _ => None end
      | TSwitch c :: r => match parse_s n r with Some (s, r) => Some (CSwitch c s, r) | None => None end
      | TCase v :: r => match parse_s n r with Some (s, r) => Some (CCase v s, r) | None => None end
      | TLabel l :: r => match parse_s n r with Some (s, r) => Some (CLabel l s, r) | None => None end
      | _ => None
      end
  end
with parse_b (n : nat) (ts : list tok) : option (list cstmt * list tok) :=
  match n with
  | O => None
  | S n =>
      match ts with
      | TClose :: r => Some ([], r)
      | _ => match parse_s n ts with
             | Some (s, r) =>
                 match parse_b n r with Some (l, r) => Some (s :: l, r) | None => None end
             | None => None
             end
      end
  end.
Definition parse (ts : list tok) : option cstmt :=
  match parse_s (S (2 * length ts)) ts with Some (s, []) => Some s | _ => None end.

(** The body of the function called [f] among the top-level ASTs, as the compiler sees it. *)
Definition function_body (f : N) (t : ast) : option ast :=
  match t with
  | Node KFunction (Txt g) _ _ [_; b] _ => if (f =? g)%N then Some b else None
  | _ => None
  end.
Fixpoint find_body (f : N) (l : list ast) : option ast :=
  match l with
  | [] => None
  | t :: r => match function_body f t with Some b => Some b | None => find_body f r end
  end.
Definition program (mac : N -> bool) (root : ast) (f : N) : option cstmt :=
  match find_body f (n_kids root) with Some b => parse (print mac b) | None => None end.

(** ** Execution *)

(** The cases of a switch body, in the order of the text; those of an inner switch
    are not among them. *)
Fixpoint cases (s : cstmt) : list N :=
  match s with
  | CStm _ | CSwitch _ _ => []
  | CMark _ s | CIf _ s | CLoop _ s | CDo s _ | CLabel _ s => cases s
  | CBlock l => flat_map cases l
  | CIfElse _ s e => cases s ++ cases e
  | CCase v s => v :: cases s
  end.
Fixpoint has_label (l : N) (s : cstmt) : bool :=
  match s with
  | CStm _ => false
  | CMark _ s | CIf _ s | CLoop _ s | CDo s _ | CSwitch _ s | CCase _ s => has_label l s
  | CBlock ss => existsb (has_label l) ss
  | CIfElse _ s e => has_label l s || has_label l e
  | CLabel l' s => (l =? l')%N || has_label l s
  end.

(** How a statement is entered: at its start, at the [n]-th case, at a label. *)
Inductive entry := Start | AtCase (n : nat) | AtLabel (l : N).
Definition inside (m : entry) (s : cstmt) : bool :=
  match m with
  | Start => true
  | AtCase n => n <? length (cases s)
  | AtLabel l => has_label l s
  end.
(** The same entry seen from behind a statement that does not contain it. *)
Definition past (m : entry) (s : cstmt) : entry :=
  match m with AtCase n => AtCase (n - length (cases s)) | _ => m end.

Inductive jump := JNext | JBreak | JContinue | JReturn | JGoto (l : N).
Inductive out := Next | Break | Continue | Return | Goto (l : N) | Stuck.
Definition out_of (j : jump) : out :=
  match j with
  | JNext => Next | JBreak => Break | JContinue => Continue | JReturn => Return | JGoto l => Goto l
  end.

Section Exec.
Variable State : Type.

(** What the text of a simple statement or a header does: it changes the state and
    may call functions of the program on the way. *)
Inductive comp (A : Type) :=
| Done (a : A) (s : State)
| Call (f : N) (s : State) (k : State -> comp A).
Arguments Done {A}.
Arguments Call {A}.

Variable act : N -> State -> comp jump.            (* simple statement *)
Variable test : N -> State -> comp bool.           (* condition of if, while, for, do *)
Variable init step : N -> State -> comp unit.      (* parts of a for *)
Variable select : N -> list N -> State -> comp (option nat).  (* switch: which of the cases *)

(** What the log gets at a mark. *)
Variable bef aft : path -> list istmt.

Definition log := list (istmt * State).
Definition result := (out * State * log)%type.
Definition note (l : list istmt) (s : State) : log := map (fun i => (i, s)) l.

(** Running such a text; [call] is the effect of a call, false if it got stuck. *)
Variable call : N -> State -> bool * State * log.
Fixpoint run {A} (c : comp A) : option A * State * log :=
  match c with
  | Done a s => (Some a, s, [])
  | Call f s k =>
      let '(b, s1, l1) := call f s in
      if b then let '(a, s2, l2) := run (k s1) in (a, s2, l1 ++ l2) else (None, s1, l1)
  end.

Definition logged (l : log) (r : result) : result := let '(o, s, l') := r in (o, s, l ++ l').
Definition bind {A} (c : comp A) (k : A -> State -> result) : result :=
  match run c with
  | (Some a, s, l) => logged l (k a s)
  | (None, s, l) => (Stuck, s, l)
  end.
(** Continue with [k] after a normal end. *)
Definition next (r : result) (k : State -> result) : result :=
  match r with (Next, s, l) => logged l (k s) | _ => r end.

(** While loop: [body] and [again] are the effects of the body and of the step;
    [n] bounds the rounds. *)
Fixpoint rounds (n : nat) (c : N) (body again : State -> result) (s : State) : result :=
  match n with
  | O => (Stuck, s, [])
  | S n =>
      bind (test c s) (fun b s =>
      if b then
        match body s with
        | (Next, s, l) | (Continue, s, l) => logged l (next (again s) (rounds n c body again))
        | (Break, s, l) => (Next, s, l)
        | r => r
        end
      else (Next, s, []))
  end.
(** The rest of a loop after a round with result [r]. *)
Definition after_round (r : result) (k : State -> result) : result :=
  match r with
  | (Next, s, l) | (Continue, s, l) => logged l (k s)
  | (Break, s, l) => (Next, s, l)
  | r => r
  end.
Definition after_switch (r : result) : result :=
  match r with (Break, s, l) => (Next, s, l) | r => r end.
Definition stepping (h : N) (s : State) : result := bind (step h s) (fun _ s => (Next, s, [])).

Fixpoint exec (n : nat) (m : entry) (x : cstmt) (s : State) : result :=
  match x with
  | CStm (SProg a) => bind (act a s) (fun j s => (out_of j, s, []))
  | CStm SEmpty => (Next, s, [])
  | CStm (SIns i) => (Next, s, [(i, s)])
  | CMark p x =>
      next (match m with Start => logged (note (bef p) s) (exec n m x s) | _ => exec n m x s end)
           (fun s => (Next, s, note (aft p) s))
  | CBlock l =>
      (fix seq (m : entry) (l : list cstmt) (s : State) : result :=
         match l with
         | [] => (Next, s, [])
         | x :: r => if inside m x then next (exec n m x s) (seq Start r) else seq (past m x) r s
         end) m l s
  | CIf c x =>
      match m with
      | Start => bind (test c s) (fun b s => if b then exec n Start x s else (Next, s, []))
      | _ => exec n m x s
      end
  | CIfElse c x e =>
      match m with
      | Start => bind (test c s) (fun b s => if b then exec n Start x s else exec n Start e s)
      | _ => if inside m x then exec n m x s else exec n (past m x) e s
      end
  | CLoop h x =>
      let loop := rounds n h (exec n Start x) (stepping h) in
      match m with
      | Start => bind (init h s) (fun _ s => loop s)
      | _ => after_round (exec n m x s) (fun s => next (stepping h s) loop)
      end
  | CDo x c =>
      after_round (exec n m x s) (rounds n c (exec n Start x) (fun s => (Next, s, [])))
  | CSwitch c x =>
      after_switch
        match m with
        | Start => bind (select c (cases x) s) (fun k s =>
                   match k with
                   | Some i => if inside (AtCase i) x then exec n (AtCase i) x s else (Next, s, [])
                   | None => (Next, s, [])
                   end)
        | _ => exec n m x s
        end
  | CCase v x =>
      match m with
      | AtCase O => exec n Start x s
      | AtCase (S k) => exec n (AtCase k) x s
      | _ => exec n m x s
      end
  | CLabel l x =>
      match m with
      | AtLabel l' => exec n (if (l' =? l)%N then Start else m) x s
      | _ => exec n m x s
      end
  end.

(** A function: gotos leave the body and enter it again at the label. *)
Fixpoint gotos (j n : nat) (x : cstmt) (r : result) : result :=
  match r with
  | (Goto l, s, lg) =>
      match j with
      | O => (Stuck, s, lg)
      | S j => if has_label l x then logged lg (gotos j n x (exec n (AtLabel l) x s)) else (Stuck, s, lg)
      end
  | r => r
  end.
Definition body_run (n : nat) (x : cstmt) (s : State) : bool * State * log :=
  match gotos n n x (exec n Start x s) with
  | (Next, s, l) | (Return, s, l) => (true, s, l)
  | (_, s, l) => (false, s, l)
  end.
End Exec.

(** Calling [f] in a program; [d] bounds the depth of calls, [n] the rounds of each
    loop and the gotos of each call.  The result false says that a bound was too
    small, or that the program did something without meaning. *)
Fixpoint call {State} act test init step select (bef aft : path -> list istmt)
    (prog : N -> option cstmt) (d n : nat) (f : N) (s : State) : bool * State * log State :=
  match d with
  | O => (false, s, [])
  | S d =>
      match prog f with
      | Some x => body_run State act test init step select bef aft
                    (call act test init step select bef aft prog d n) n x s
      | None => (false, s, [])
      end
  end.

(** ** Programs with marks *)

Fixpoint path_eqb (a b : path) : bool :=
  match a, b with
  | [], [] => true
  | i :: a, j :: b => (i =? j) && path_eqb a b
  | _, _ => false
  end.
Definition selected (l : list place) (p : path) : bool := existsb (fun q => path_eqb (pl_path q) p) l.

(** The AST with a mark at each position of [S]. *)
Section Marking.
Variable S : path -> bool.
Fixpoint mark (p : path) (t : ast) : ast :=
  let 'Node k c a b ks af := t in
  let t' := Node k c a b
     ((fix go (i : nat) (l : list ast) : list ast :=
         match l with [] => [] | x :: r => mark (p ++ [i]) x :: go (Datatypes.S i) r end) 0 ks) af in
  if S p then Node KMark (Mark p) false [] [t'] [] else t'.
End Marking.

(** ** Well-formed ASTs *)

(** The statements an AST stands for: labels and statements in the order of the
    text; a label belongs to the next statement. *)
Inductive lab := LCase (v : N) | LLabel (l : N).
Inductive piece := PL (l : lab) | PS (s : cstmt).
Definition attach (l : lab) (s : cstmt) : cstmt :=
  match l with LCase v => CCase v s | LLabel x => CLabel x s end.
Fixpoint assemble (l : list piece) : option (list cstmt) :=
  match l with
  | [] => Some []
  | PS s :: r => match assemble r with Some m => Some (s :: m) | None => None end
  | PL x :: r => match assemble r with Some (s :: m) => Some (attach x s :: m) | _ => None end
  end.
Definition one (l : list piece) : option cstmt :=
  match assemble l with Some [s] => Some s | _ => None end.

(** May an else follow without being taken by an if inside? *)
Fixpoint closed (s : cstmt) : bool :=
  match s with
  | CIf _ _ => false
  | CIfElse _ _ e => closed e
  | CLoop _ s | CSwitch _ s | CCase _ s | CLabel _ s | CMark _ s => closed s
  | CStm _ | CBlock _ | CDo _ _ => true
  end.

Definition obind {A B} (o : option A) (f : A -> option B) : option B :=
  match o with Some a => f a | None => None end.
Definition is_expr (t : ast) : bool := cls_eqb (n_cls t) KExpr.
Section Oflat.
Context {A B : Type} (f : A -> option (list B)).
Fixpoint oflat (l : list A) : option (list B) :=
  match l with
  | [] => Some []
  | x :: r => obind (f x) (fun a => obind (oflat r) (fun b => Some (a ++ b)))
  end.
End Oflat.

(** May stand where the grammar wants one statement; conditional text there is not modelled. *)
Definition solid (t : ast) : bool := statement (n_cls t) || cls_eqb (n_cls t) KMark.

Fixpoint pieces (mac : N -> bool) (t : ast) : option (list piece) :=
  let 'Node k c _ b ks af := t in
  let stmt (t : ast) := if solid t then obind (pieces mac t) one else None in
  obind (oflat (pieces mac) b) (fun pb =>
  obind
    (match k, ks with
     | KCompound, _ => obind (oflat (pieces mac) ks) (fun l =>
                       obind (assemble l) (fun m => Some [PS (CBlock m)]))
     | KIf, [e; s] => if is_expr e then obind (stmt s) (fun x => Some [PS (CIf (ex e) x)]) else None
     | KIf, [e; s; s2] =>
         if is_expr e then
         obind (stmt s) (fun x => obind (stmt s2) (fun y =>
         if closed x then Some [PS (CIfElse (ex e) x y)] else None)) else None
     | KLoop, [e; s] => if is_expr e then obind (stmt s) (fun x => Some [PS (CLoop (ex e) x)]) else None
     | KDo, [s; e] => if is_expr e then obind (stmt s) (fun x => Some [PS (CDo x (ex e))]) else None
     | KSwitch, [e; s] => if is_expr e then obind (stmt s) (fun x => Some [PS (CSwitch (ex e) x)]) else None
     | KCase, v :: ss => if is_expr v then obind (oflat (pieces mac) ss) (fun l => Some (PL (LCase (ex v)) :: l)) else None
     | KLabel, [s] => obind (pieces mac s) (fun l => Some (PL (LLabel (cont c)) :: l))
     | KSimple, _ => Some [PS (CStm (SProg (cont c)))]
     | KEmpty, _ => Some [PS (CStm SEmpty)]
     | KPreIf, _ | KPreElse, _ =>
         oflat (fun x => if Bool.eqb (is_else x) (mac (cont c)) then Some [] else pieces mac x) ks
     | KFragment, _ => Some (match c with Ins i => [PS (CStm (SIns i))] | _ => [] end)
     | KMark, [s] => match c with
                     | Mark p => obind (stmt s) (fun x => Some [PS (CMark p x)])
                     | _ => None
                     end
     | KExpr, _ => Some []
     | _, _ => None
     end) (fun pc =>
  obind (oflat (pieces mac) af) (fun pa => Some (pb ++ pc ++ pa)))).
Definition statement_of (mac : N -> bool) (t : ast) : option cstmt :=
  if solid t then obind (pieces mac t) one else None.

(** An AST as the parser delivers it: nothing is annotated, no marks, no inserted
    calls; the before and after lists hold no statements; simple statements hold no
    other statements. *)
Fixpoint original (t : ast) : bool :=
  let 'Node k c a b ks af := t in
  negb a && negb (cls_eqb k KFragment) && negb (cls_eqb k KMark) &&
  forallb (fun x => is_expr x && original x) b &&
  forallb original ks &&
  forallb (fun x => is_expr x && original x) af &&
  match k with KSimple | KEmpty | KExpr => forallb is_expr ks | _ => true end.

(** No statement under an if or a loop is a label with a marked statement, unless
    the label is marked too. *)
Fixpoint ends_in_mark (s : cstmt) : bool :=
  match s with CMark _ _ => true | CCase _ s | CLabel _ s => ends_in_mark s | _ => false end.
Definition hang_ok (s : cstmt) : bool :=
  match s with CMark _ _ => true | _ => negb (ends_in_mark s) end.
Fixpoint tidy (s : cstmt) : bool :=
  match s with
  | CStm _ => true
  | CMark _ s | CCase _ s | CLabel _ s => tidy s
  | CBlock l => forallb tidy l
  | CIf _ s | CLoop _ s | CDo s _ | CSwitch _ s => hang_ok s && tidy s
  | CIfElse _ s e => hang_ok s && tidy s && hang_ok e && tidy e
  end.

(** Every switch has a body in braces. *)
Fixpoint braced (s : cstmt) : bool :=
  match s with
  | CStm _ => true
  | CMark _ s | CCase _ s | CLabel _ s | CIf _ s | CLoop _ s | CDo s _ => braced s
  | CBlock l => forallb braced l
  | CSwitch _ s => match s with CBlock _ => true | _ => false end && braced s
  | CIfElse _ s e => braced s && braced e
  end.

(** A file whose functions are statements of the grammar, written in braces. *)
Definition well_formed (mac : N -> bool) (root : ast) : Prop :=
  n_cls root = KRoot /\ original root = true /\
  forall f b, find_body f (n_kids root) = Some b -> exists l, statement_of mac b = Some (CBlock l).

(** Every statement except blocks, labels and ";" is marked, and [tx] gives the
    simple statements under the marks.  [m]: is there a mark directly above, and
    what does [tx] say about it? *)
Definition mute (m : option (option N)) : bool := match m with Some (Some _) => false | _ => true end.
Section Covered.
Variable tx : path -> option N.
Fixpoint covered (m : option (option N)) (s : cstmt) : bool :=
  match s with
  | CStm (SProg a) => match m with Some (Some b) => (a =? b)%N | _ => false end
  | CStm SEmpty => mute m
  | CStm (SIns _) => false
  | CMark p s => mute m && covered (Some (tx p)) s
  | CBlock l => mute m && forallb (covered None) l
  | CIf _ s | CLoop _ s | CDo s _ | CSwitch _ s =>
      match m with Some None => covered None s | _ => false end
  | CIfElse _ s e => match m with Some None => covered None s && covered None e | _ => false end
  | CCase _ s | CLabel _ s => mute m && covered None s
  end.
End Covered.

(** The simple statement at a position. *)
Definition simple_text (t : ast) : option N := match t with Node KSimple c _ _ _ _ => Some (cont c) | _ => None end.
Definition simple_at (root : ast) (p : path) : option N := obind (lookup root p) simple_text.

(** States that remember the simple statements executed so far. *)
Section History.
Context {State : Type}.
Fixpoint remember {A} (h : list N) (c : comp State A) : comp (State * list N) A :=
  match c with
  | Done _ _ a s => Done _ _ a (s, h)
  | Call _ _ f s k => Call _ _ f (s, h) (fun sh => remember (snd sh) (k (fst sh)))
  end.
Definition h_act (act : N -> State -> comp State jump) (a : N) (sh : State * list N) :=
  remember (snd sh ++ [a]) (act a (fst sh)).
Definition h_do {A} (f : N -> State -> comp State A) (a : N) (sh : State * list N) :=
  remember (snd sh) (f a (fst sh)).
Definition h_select (f : N -> list N -> State -> comp State (option nat)) (a : N) (l : list N) (sh : State * list N) :=
  remember (snd sh) (f a l (fst sh)).
End History.

(** No preprocessor directives and no parse errors in an AST. *)
Fixpoint no_directives (t : ast) : bool :=
  let 'Node k _ _ _ ks _ := t in
  match k with KPreIf | KPreElse | KPreDef | KError => false | _ => true end && forallb no_directives ks.

(** Nothing is annotated. *)
Fixpoint clean (t : ast) : bool :=
  let 'Node _ _ a b ks af := t in
  negb a && forallb clean b && forallb clean ks && forallb clean af.
