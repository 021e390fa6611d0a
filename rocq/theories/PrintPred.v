(** Model of writePredicate and operator<< for predicates
    (QueryObjects.hpp:141-236). *)
From Coq Require Import Strings.String.
From Verif Require Import Base Types Predicate Dec.

Definition text (s : String.string) : list byte := String.list_byte_of_string s.

Section Print.
(** How a double is printed, given its bits. *)
Variable show_float : N -> list byte.

(** The switch, QueryObjects.hpp:170-215; [None] is the default case. *)
Definition op_name (k : pkind) : option (list byte) :=
  match k with
  | VAR_SIZE => Some (text "v/size")
  | VAR_VALUE => Some (text "v/value")
  | AND => Some (text "and")
  | OR => Some (text "or")
  | NOT => Some (text "not")
  | DISTINCT_VARS => Some (text "distinct")
  | LESS_THAN => Some (text "<")
  | GREATER_THAN => Some (text ">")
  | EQUAL => Some (text "=")
  | ADD => Some (text "+")
  | SUBTRACT => Some (text "-")
  | MULTIPLY => Some (text "*")
  | DIVIDE => Some (text "/")
  | _ => None
  end.

(** writePredicate, QueryObjects.hpp:141-230: the characters written.  The
    indentation is an unsigned int.  The loop counter is a uint32_t, so the
    loop over 2^32 children or more does not end. *)
Fixpoint write_predicate (p : pred) (indent : N) (do_indent : bool) : outcome (list byte) :=
  let 'Pred k d cs := p in
  match k with
  | NULL_PREDICATE => Ok []
  | _ =>
      let spaces := if do_indent && (0 <? indent) then repeat (byte_of_N 32) (N.to_nat indent) else [] in
      ' (body, indent) <-
        match k with
        | VAR_REFERENCE => Ok (text "<v" ++ show_N d ++ text ">", indent)
        | SIGNED_VALUE => Ok (show_Z (s64 d), indent)
        | UNSIGNED_VALUE => Ok (show_N d, indent)
        | FLOAT_VALUE => Ok (show_float d, indent)
        | _ =>
            match op_name k with
            | None => Abort
            | Some name =>
                let start := (text "(" ++ name ++ text " ")%list in
                let indent := (indent + lenN start) mod two32 in
                rest <- (fix loop (l : list pred) (do_indent : bool) : outcome (list byte) :=
                           match l with
                           | [] => Ok []
                           | c :: r =>
                               a <- write_predicate c indent do_indent ;;
                               b <- loop r true ;;
                               Ok (a ++ (match r with [] => text ")" | _ => [byte_of_N 10] end) ++ b)%list
                           end) cs false ;;
                if two32 <=? lenN cs then Diverge else Ok ((start ++ rest)%list, indent)
            end
        end ;;
      Ok (spaces ++ body ++ (if indent =? 0 then [byte_of_N 10] else []))%list
  end.

(** operator<<, QueryObjects.hpp:232-236 *)
Definition print_predicate (p : pred) : outcome (list byte) := write_predicate p 0 false.
End Print.
