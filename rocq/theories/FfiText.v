(** Text at the foreign interface: Lisp strings are sequences of code points, the
    library has bytes; points and names that Lisp passes to the library. *)
From Coq Require Import Strings.String.
From Verif Require Import Base Types Compare Predicate Query CApi Lisp Ffi.
Local Open Scope string_scope.
Local Open Scope N_scope.

(** A Lisp string: the codes of its characters. *)
Definition lstring := list N.

(** ** UTF-8, the default encoding of CFFI's :string (babel's utf-8) *)
Definition cont_byte (x : N) : byte := byte_of_N (128 + x mod 64).
(** Encoder: one to four bytes. *)
Definition utf8_char (c : N) : list byte :=
  if c <? 128 then [byte_of_N c]
  else if c <? 2048 then [byte_of_N (192 + c / 64); cont_byte c]
  else if c <? 65536 then [byte_of_N (224 + c / 4096); cont_byte (c / 64); cont_byte c]
  else [byte_of_N (240 + c / 262144); cont_byte (c / 4096); cont_byte (c / 64); cont_byte c].
Fixpoint utf8 (s : lstring) : list byte :=
  match s with [] => [] | c :: r => (utf8_char c ++ utf8 r)%list end.

(** Decoder: overlong forms, surrogates, codes above 10FFFF, stray and missing
    continuation bytes are errors. *)
Definition is_cont (b : byte) : bool := (128 <=? N_of_byte b) && (N_of_byte b <? 192).
Definition low6 (b : byte) : N := N_of_byte b mod 64.
Definition scalar (c : N) : bool := (c <? 55296) || ((57344 <=? c) && (c <? 1114112)).
Fixpoint utf8_decode (bs : list byte) : option lstring :=
  match bs with
  | [] => Some []
  | b :: r =>
      let x := N_of_byte b in
      if x <? 128 then option_map (cons x) (utf8_decode r)
      else if x <? 192 then None
      else if x <? 224 then
        match r with
        | b1 :: r1 =>
            let c := (x - 192) * 64 + low6 b1 in
            if is_cont b1 && (128 <=? c) then option_map (cons c) (utf8_decode r1) else None
        | _ => None
        end
      else if x <? 240 then
        match r with
        | b1 :: b2 :: r2 =>
            let c := (x - 224) * 4096 + low6 b1 * 64 + low6 b2 in
            if is_cont b1 && is_cont b2 && (2048 <=? c) && scalar c then option_map (cons c) (utf8_decode r2) else None
        | _ => None
        end
      else if x <? 248 then
        match r with
        | b1 :: b2 :: b3 :: r3 =>
            let c := (x - 240) * 262144 + low6 b1 * 4096 + low6 b2 * 64 + low6 b3 in
            if is_cont b1 && is_cont b2 && is_cont b3 && (65536 <=? c) && scalar c
            then option_map (cons c) (utf8_decode r3) else None
        | _ => None
        end
      else None
  end.

(** ** Strings that Lisp reads *)

(** What Lisp makes of a variable's value.  A blob becomes a string; if that fails
    and a handler chooses the restart store-as-byte-array, it becomes a vector of
    C chars (binary-trace-db.lisp:84-97). *)
Inductive sval := TInt (z : Z) | TFloat (size bits : N) | TText (s : lstring) | TChars (l : list Z).
Definition schar (b : byte) : Z :=
  let x := Z.of_N (N_of_byte b) in if (x <? 128)%Z then x else (x - 256)%Z.
Definition text_value (handler : bool) (v : lval) : outcome sval :=
  match v with
  | LInt z => Ok (TInt z)
  | LFloat n b => Ok (TFloat n b)
  | LBlob bs => match utf8_decode bs with
                | Some s => Ok (TText s)
                | None => if handler then Ok (TChars (map schar bs)) else Throw ELisp
                end
  end.
(** The name strings (mem-aref names-ptr :string i), lines 172-177 and 365-371. *)
Definition text_name (n : name) : outcome lstring :=
  match utf8_decode n with Some s => Ok s | None => Throw ELisp end.

Record svar := mkSV { sv_name : lstring; sv_type : lstring; sv_value : sval; sv_size : option N }.
Record spoint := mkSP { sp_c : N; sp_f : option N; sp_scopes : list svar; sp_aux : list N }.
Definition text_var (handler : bool) (v : lvar) : outcome svar :=
  x <- text_value handler (lv_value v) ;;
  n <- text_name (lv_name v) ;;
  t <- text_name (lv_type v) ;;
  Ok (mkSV n t x (lv_size v)).
Definition text_point (handler : bool) (p : lpoint) : outcome spoint :=
  vs <- mapO (text_var handler) (lp_scopes p) ;; Ok (mkSP (lp_c p) (lp_f p) vs (lp_aux p)).
(** convert-trace-points, lines 166-197: all names of the trace are converted
    first. *)
Definition text_points (handler : bool) (names : list name) (ps : list lpoint) : outcome (list spoint) :=
  _ <- mapO text_name names ;; mapO (text_point handler) ps.

(** ** Strings that Lisp looks up: positions and duplicates with string=,
    lines 307-313 and 327-332 *)
Fixpoint codes_eqb (a b : lstring) : bool :=
  match a, b with
  | [], [] => true
  | x :: a, y :: b => (x =? y) && codes_eqb a b
  | _, _ => false
  end.
Fixpoint text_position (n : lstring) (l : list lstring) : option N :=
  match l with
  | [] => None
  | m :: r => if codes_eqb n m then Some 0 else option_map N.succ (text_position n r)
  end.

(** ** Points and names that Lisp writes for add_trace_points *)
Definition l_set_row (d : decl) (row : list (string * Z)) (m : memory) (a : N) : memory :=
  fold_left (fun m fz => set d (fst fz) (snd fz) m a) row m.
Definition l_fill (d : decl) (rows : list (list (string * Z))) (m : memory) (a : N) : memory :=
  fst (fold_left (fun s row => (l_set_row d row (fst s) (snd s), snd s + sizeof d)) rows (m, a)).

(** lines 322-345: the plist of a variable.  A negative value is stored into the
    unsigned slot as its two's complement. *)
Definition l_format_keyword (f : fmt) : string :=
  match f with
  | UNSIGNED => "unsigned" | SIGNED => "signed" | FLOAT => "float" | POINTER => "pointer"
  | BLOB => "blob" | INVALID_FORMAT => "invalid-format"
  end.
Definition l_integer (v : cvar) : Z :=
  match cv_value v with
  | VBits u => match cv_format v with SIGNED => s64 u | _ => Z.of_N u end
  | _ => 0%Z
  end.
Definition l_var_row (v : cvar) : list (string * Z) :=
  [("value", l_integer v); ("format", code l_type_format (l_format_keyword (cv_format v)));
   ("var-name-index", Z.of_N (cv_name v)); ("type-name-index", Z.of_N (cv_tname v)); ("size", Z.of_N (cv_size v));
   ("has-buffer-size", Z.of_N (cv_has v)); ("buffer-size", Z.of_N (cv_bsz v))].
(** lines 337-353: the plist of a point *)
Definition l_point_row (x : ipoint) (vars : N) : list (string * Z) :=
  [("statement", Z.of_N (ip_stmt x)); ("vars", Z.of_N vars); ("n-vars", Z.of_N (lenN (ip_vars x)));
   ("aux", 0%Z); ("n-aux", 0%Z)].

Section Write.
Variable room : N -> N.

(** mapcar over the points: the arrays of variables are made on the way *)
Fixpoint l_point_rows (xs : list ipoint) (p : proc) : list (list (string * Z)) * proc :=
  match xs with
  | [] => ([], p)
  | x :: r =>
      let '(va, p1) := alloc_block room (sizeof l_var_info * lenN (ip_vars x)) p in
      let p2 := on_mem (fun m => l_fill l_var_info (map l_var_row (ip_vars x)) m va) p1 in
      let '(rows, p3) := l_point_rows r p2 in
      (l_point_row x va :: rows, p3)
  end.
(** lines 316-354 *)
Definition l_put_points (xs : list ipoint) (p : proc) : N * proc :=
  let '(rows, p1) := l_point_rows xs p in
  let '(a, p2) := alloc_block room (sizeof l_trace_point * lenN xs) p1 in
  (a, on_mem (fun m => l_fill l_trace_point rows m a) p2).

(** foreign-string-alloc: the encoded characters and a terminator *)
Definition l_put_string (s : lstring) (p : proc) : N * proc :=
  let bs := (utf8 s ++ [byte_of_N 0])%list in
  let '(a, p1) := alloc_block room (lenN bs) p in (a, on_mem (fun m => put m a bs) p1).
Fixpoint l_fill_strings (ss : list lstring) (a : N) (p : proc) : proc :=
  match ss with
  | [] => p
  | s :: r =>
      let '(b, p1) := l_put_string s p in
      l_fill_strings r (a + 8) (on_mem (fun m => write TPtr (Z.of_N b) m a) p1)
  end.
(** line 356 *)
Definition l_put_strings (ss : list lstring) (p : proc) : N * proc :=
  let '(a, p1) := alloc_block room (8 * lenN ss) p in (a, l_fill_strings ss a p1).
(** The arguments of c-add-trace-points, lines 314-357. *)
Definition l_put_addition (names : list lstring) (xs : list ipoint) (p : proc) : N * N * proc :=
  let '(a, p1) := l_put_points xs p in
  let '(b, p2) := l_put_strings names p1 in (a, b, p2).
End Write.
