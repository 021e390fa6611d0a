(** Specification of printed predicates: s-expressions as text. *)
From Coq Require Import Strings.String.
From Verif Require Import Base Types Predicate Dec PrintPred.

(** Splitting a text into parentheses and words separated by blanks. *)
Inductive token := TOpen | TClose | TWord (w : list byte).
Definition code (b : byte) : N := N_of_byte b.
Definition is_open (b : byte) : bool := (code b =? 40)%N.
Definition is_close (b : byte) : bool := (code b =? 41)%N.
Definition is_blank (b : byte) : bool := ((code b =? 32) || (code b =? 10))%N.
Definition word_end (w : list byte) : list token := match w with [] => [] | _ => [TWord w] end.
Fixpoint lex (w : list byte) (l : list byte) : list token :=
  match l with
  | [] => word_end w
  | b :: r =>
      if is_open b then word_end w ++ TOpen :: lex [] r
      else if is_close b then word_end w ++ TClose :: lex [] r
      else if is_blank b then word_end w ++ lex [] r
      else lex (w ++ [b]) r
  end.

(** S-expressions and their tokens. *)
Inductive sx := Word (w : list byte) | Group (l : list sx).
Fixpoint flat (t : sx) : list token :=
  match t with
  | Word w => [TWord w]
  | Group l => TOpen :: flat_map flat l ++ [TClose]
  end.

(** The text is a (single) s-expression. *)
Definition reads (txt : list byte) (t : sx) : Prop := lex [] txt = flat t.

(** Parentheses are balanced: the number of open ones never gets negative and
    is 0 at the end. *)
Fixpoint depth (d : N) (l : list byte) : option N :=
  match l with
  | [] => Some d
  | b :: r =>
      if is_open b then depth (d + 1) r
      else if is_close b then (if (d =? 0)%N then None else depth (d - 1)%N r)
      else depth d r
  end.
Definition balanced (l : list byte) : Prop := depth 0 l = Some 0%N.

(** A word: not empty, without blanks and parentheses. *)
Definition plain (b : byte) : bool := negb (is_open b) && negb (is_close b) && negb (is_blank b).
Definition is_word (w : list byte) : Prop := w <> [] /\ Forall (fun b => plain b = true) w.

(** The s-expression of a predicate; constants in decimal notation. *)
Definition operator (k : pkind) : option (list byte) :=
  match k with
  | VAR_SIZE => Some (text "v/size") | VAR_VALUE => Some (text "v/value") | DISTINCT_VARS => Some (text "distinct")
  | AND => Some (text "and") | OR => Some (text "or") | NOT => Some (text "not")
  | GREATER_THAN => Some (text ">") | LESS_THAN => Some (text "<") | EQUAL => Some (text "=")
  | ADD => Some (text "+") | SUBTRACT => Some (text "-") | MULTIPLY => Some (text "*") | DIVIDE => Some (text "/")
  | _ => None
  end.
Fixpoint form (show_float : N -> list byte) (p : pred) : list sx :=
  let 'Pred k d cs := p in
  match k with
  | NULL_PREDICATE => []
  | VAR_REFERENCE => [Word (text "<v" ++ show_N d ++ text ">")]
  | SIGNED_VALUE => [Word (show_Z (s64 d))]
  | UNSIGNED_VALUE => [Word (show_N d)]
  | FLOAT_VALUE => [Word (show_float d)]
  | _ => match operator k with
         | Some n => [Group (Word n :: flat_map (form show_float) cs)]
         | None => []
         end
  end.

(** Trees without the operators >= and <=, which are not supported. *)
Definition leaf_kind (k : pkind) : bool :=
  match k with VAR_REFERENCE | SIGNED_VALUE | UNSIGNED_VALUE | FLOAT_VALUE | NULL_PREDICATE => true | _ => false end.
Fixpoint supported (p : pred) : Prop :=
  let 'Pred k d cs := p in
  leaf_kind k = true \/
  (k <> GREATER_THAN_OR_EQUAL /\ k <> LESS_THAN_OR_EQUAL /\ lenN cs < 2 ^ 32 /\
   (fix all l := match l with [] => True | c :: r => supported c /\ all r end) cs)%N.
(** Every operator has an operand. *)
Fixpoint has_operands (p : pred) : Prop :=
  let 'Pred k d cs := p in
  leaf_kind k = true \/
  (cs <> [] /\ (fix all l := match l with [] => True | c :: r => has_operands c /\ all r end) cs).
(** Null predicates do not occur as operands. *)
Fixpoint no_null (p : pred) : Prop :=
  let 'Pred k d cs := p in
  k <> NULL_PREDICATE /\
  (leaf_kind k = true \/ (fix all l := match l with [] => True | c :: r => no_null c /\ all r end) cs).

(** Two predicates are the same up to constants that are printed alike (equal
    integers of different type, and floats) and parts that have no meaning. *)
Inductive const_text (show_float : N -> list byte) : pred -> list byte -> Prop :=
| ct_signed : forall d cs, const_text show_float (Pred SIGNED_VALUE d cs) (show_Z (s64 d))
| ct_unsigned : forall d cs, const_text show_float (Pred UNSIGNED_VALUE d cs) (show_N d)
| ct_float : forall d cs, const_text show_float (Pred FLOAT_VALUE d cs) (show_float d).
Inductive alike (show_float : N -> list byte) : pred -> pred -> Prop :=
| al_ref : forall d cs cs', alike show_float (Pred VAR_REFERENCE d cs) (Pred VAR_REFERENCE d cs')
| al_const : forall p q w, const_text show_float p w -> const_text show_float q w -> alike show_float p q
| al_op : forall k d d' cs cs', leaf_kind k = false -> Forall2 (alike show_float) cs cs' -> alike show_float (Pred k d cs) (Pred k d' cs').

(** Floats are printed as words that do not look like variables. *)
Definition good_floats (show_float : N -> list byte) : Prop :=
  forall d, is_word (show_float d) /\ hd_error (show_float d) <> Some (byte_of_N 60).
