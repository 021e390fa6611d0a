(** Specification: how a C compiler reads the setup code that the instrumenter
    appends to a file: declarations of variables and a function with
    declarations, assignments, calls, if, while and do.  The tokens are those
    of CRead.v; anything else is rejected. *)
From Coq Require Import Strings.String.
From Verif Require Import Base Types Compare PrintPred CRead CParse.

(** ** Tokens *)
Definition word (w : string) (ts : list ctok) : option (list ctok) :=
  match ts with KId x :: r => if bytes_eqb x (text w) then Some r else None | _ => None end.
(** Tokens before the first [stop] outside of all brackets, and those after it. *)
Fixpoint until (stop : byte) (depth : nat) (acc : list ctok) (ts : list ctok) : option (list ctok * list ctok) :=
  match ts with
  | [] => None
  | k :: r =>
      if Nat.eqb depth 0 && is stop k then Some (rev acc, r)
      else until stop (if opens k then S depth else if closes k then pred depth else depth) (k :: acc) r
  end.
Definition in_parens (ts : list ctok) : option (list ctok * list ctok) := q <-- eat x28 ts ;; until x29 0 [] q.

(** ** Expressions *)
Inductive uexpr :=
| UVar (x : name) | UNum (n : N) | UStr (s : list byte) | UAddr (x : name) | UCast (e : uexpr)
| UCall (f : name) (l : list uexpr) | UEq (a b : uexpr) | UNe (a b : uexpr).

(** The two sides of == (or !=), if there is one outside of all brackets. *)
Fixpoint sides (o : byte) (depth : nat) (acc : list ctok) (ts : list ctok) : option (list ctok * list ctok) :=
  match ts with
  | [] => None
  | k :: r =>
      if Nat.eqb depth 0 && is o k then match eat x3d r with Some q => Some (rev acc, q) | None => None end
      else sides o (if opens k then S depth else if closes k then pred depth else depth) (k :: acc) r
  end.
Fixpoint parse_u (fuel : nat) (ts : list ctok) : option uexpr :=
  match fuel with
  | O => None
  | S n =>
      match sides x3d 0 [] ts, sides x21 0 [] ts with
      | Some (a, b), _ => x <-- parse_u n a ;; y <-- parse_u n b ;; Some (UEq x y)
      | None, Some (a, b) => x <-- parse_u n a ;; y <-- parse_u n b ;; Some (UNe x y)
      | None, None =>
          match ts with
          | [KId x] => Some (UVar x)
          | [KNum z] => match num_value z with Some (v, false) => Some (UNum v) | _ => None end
          | [KStr s] => Some (UStr s)
          | KPunct b :: r =>
              if is x26 (KPunct b) then match r with [KId x] => Some (UAddr x) | _ => None end
              else (* a cast to a pointer *)
                '(t, q) <-- in_parens ts ;;
                match t with
                | [KId _; s] => if is x2a s then e <-- parse_u n q ;; Some (UCast e) else None
                | _ => None
                end
          | KId f :: r =>
              '(a, q) <-- in_parens r ;;
              match q with
              | [] => l <-- mapM (parse_u n) (split x2c 0 [] a) ;; Some (UCall f l)
              | _ => None
              end
          | _ => None
          end
      end
  end.

(** ** Statements *)
(** T *x = e;   static pthread_mutex_t x;   char x[n] = "...";   const char *x[] =
    {"...", ...};   const __trace_type_description x[] = {{...}, ...};   x = e;
    x[e] = e;   e;   if (e) {...}   while (e) {...}   do {...} while (e); *)
Inductive ustmt :=
| UPointer (x : name) (e : uexpr) | UMutex (x : name) | UBuffer (x : name) (n : N) (s : list byte)
| UNames (x : name) (l : list name) | UTypes (x : name) (l : list tdesc)
| USet (x : name) (e : uexpr) | UStore (x : name) (i e : uexpr) | UExpr (e : uexpr)
| UIf (e : uexpr) (l : list ustmt) | UWhile (e : uexpr) (l : list ustmt) | UDo (l : list ustmt) (e : uexpr).

Definition depth : nat := 50.
(** const T or T *)
Definition type_name (ts : list ctok) : option (name * list ctok) :=
  match word "const" ts with
  | Some (KId t :: r) => Some (t, r)
  | Some _ => None
  | None => match ts with KId t :: r => Some (t, r) | _ => None end
  end.
(** The elements of {a, b, ... ,} *)
Definition elements (ts : list ctok) : option (list (list ctok)) :=
  q <-- eat x7b ts ;;
  '(l, r) <-- until x7d 0 [] q ;;
  match r with
  | [] => match rev (split x2c 0 [] l) with [] :: e => Some (rev e) | e => Some (rev e) end
  | _ => None
  end.
(** A declaration with an initialiser. *)
Definition parse_decl (ts : list ctok) : option ustmt :=
  '(t, q) <-- type_name ts ;;
  match eat x2a q with
  | Some q =>
      let q := match eat x2a q with Some q' => q' | None => q end in
      match q with
      | KId x :: q =>
          match eat x3d q with
          | Some q => e <-- parse_u depth q ;; Some (UPointer x e)
          | None => q <-- eat x5b q ;; q <-- eat x5d q ;; q <-- eat x3d q ;;
                    if bytes_eqb t (text "char") then l <-- elements q ;; l <-- mapM string_elem l ;; Some (UNames x l) else None
          end
      | _ => None
      end
  | None =>
      match q with
      | KId x :: q =>
          q <-- eat x5b q ;;
          match eat x5d q with
          | Some q => q <-- eat x3d q ;;
                      if bytes_eqb t (text "__trace_type_description") then l <-- elements q ;; l <-- mapM type_elem l ;; Some (UTypes x l) else None
          | None =>
              match q with
              | KNum z :: q =>
                  q <-- eat x5d q ;; q <-- eat x3d q ;;
                  match num_value z, q with
                  | Some (n, false), [KStr s] => if bytes_eqb t (text "char") then Some (UBuffer x n s) else None
                  | _, _ => None
                  end
              | _ => None
              end
          end
      | _ => None
      end
  end.
Definition parse_short (ts : list ctok) : option ustmt :=
  match word "static" ts with
  | Some [KId t; KId x] => if bytes_eqb t (text "pthread_mutex_t") then Some (UMutex x) else None
  | Some _ => None
  | None =>
      match parse_decl ts with
      | Some s => Some s
      | None =>
          match ts with
          | KId x :: r =>
              match sides x3d 0 [] ts, eat x3d r, eat x5b r with
              | None, Some q, _ => e <-- parse_u depth q ;; Some (USet x e)
              | None, None, Some q =>
                  '(i, q) <-- until x5d 0 [] q ;; q <-- eat x3d q ;;
                  i <-- parse_u depth i ;; e <-- parse_u depth q ;; Some (UStore x i e)
              | _, _, _ => e <-- parse_u depth ts ;; Some (UExpr e)
              end
          | _ => None
          end
      end
  end.
(** Statements up to the closing brace. *)
Fixpoint parse_block (fuel : nat) (ts : list ctok) : option (list ustmt * list ctok) :=
  match fuel with
  | O => None
  | S n =>
      match eat x7d ts with
      | Some q => Some ([], q)
      | None =>
          '(s, q) <--
            match word "if" ts, word "while" ts, word "do" ts with
            | Some q, _, _ => '(c, q) <-- in_parens q ;; e <-- parse_u depth c ;; q <-- eat x7b q ;;
                              '(l, q) <-- parse_block n q ;; Some (UIf e l, q)
            | _, Some q, _ => '(c, q) <-- in_parens q ;; e <-- parse_u depth c ;; q <-- eat x7b q ;;
                              '(l, q) <-- parse_block n q ;; Some (UWhile e l, q)
            | _, _, Some q => q <-- eat x7b q ;; '(l, q) <-- parse_block n q ;; q <-- word "while" q ;;
                              '(c, q) <-- in_parens q ;; e <-- parse_u depth c ;; q <-- eat x3b q ;; Some (UDo l e, q)
            | None, None, None => '(c, q) <-- until x3b 0 [] ts ;; s <-- parse_short c ;; Some (s, q)
            end ;;
          '(l, q) <-- parse_block n q ;; Some (s :: l, q)
      end
  end.

(** ** The whole text *)
(** The macro of #ifdef; variables void *x; the function: its attribute
    constructor(n), its name, its body. *)
Record unit_ := mkUnit { u_macro : name; u_globals : list name; u_priority : N; u_name : name; u_body : list ustmt }.

(** #include <x.h> *)
Fixpoint includes (fuel : nat) (ts : list ctok) : list ctok :=
  match fuel with
  | O => ts
  | S n => match (q <-- eat x23 ts ;; q <-- word "include" q ;; q <-- eat x3c q ;;
                  match q with KId _ :: q => q <-- eat x2e q ;; q <-- word "h" q ;; eat x3e q | _ => None end) with
           | Some q => includes n q
           | None => ts
           end
  end.
Fixpoint globals (fuel : nat) (ts : list ctok) : list name * list ctok :=
  match fuel with
  | O => ([], ts)
  | S n => match (q <-- word "void" ts ;; q <-- eat x2a q ;;
                  match q with KId x :: q => q <-- eat x3b q ;; Some (x, q) | _ => None end) with
           | Some (x, q) => let '(l, q) := globals n q in (x :: l, q)
           | None => ([], ts)
           end
  end.
Definition parse_unit (ts : list ctok) : option unit_ :=
  q <-- eat x23 ts ;; q <-- word "ifdef" q ;;
  match q with
  | KId m :: q =>
      let '(g, q) := globals depth (includes depth q) in
      q <-- word "void" q ;; q <-- word "__attribute__" q ;; '(a, q) <-- in_parens q ;; '(a, e) <-- in_parens a ;;
      match e, a, q with
      | [], [KId c; o; KNum z; p], KId f :: q =>
          if bytes_eqb c (text "constructor") && is x28 o && is x29 p then
            match num_value z with
            | Some (n, false) =>
                '(ps, q) <-- in_parens q ;; q <-- eat x7b q ;; '(b, q) <-- parse_block depth q ;;
                q <-- eat x23 q ;; q <-- word "endif" q ;;
                match ps, q with [], [] => Some (mkUnit m g n f b) | _, _ => None end
            | _ => None
            end
          else None
      | _, _, _ => None
      end
  | _ => None
  end.
Definition read_unit (l : list byte) : option unit_ := ts <-- lex l ;; parse_unit ts.
