(** Specification: how a C compiler reads the text that the instrumenter
    inserts.  Tokens of C (identifiers, decimal numbers, string literals,
    comments, punctuation; no character constants, trigraphs, line
    continuations, escapes other than backslash, quote and n), and the
    statements and declarations of the inserted code. *)
From Coq Require Import Strings.String.
From Verif Require Import Base Types Compare PrintPred Instr InstrSpec.

(** ** Tokens *)

Inductive ctok := KId (x : name) | KNum (x : name) | KStr (s : list byte) | KPunct (b : byte).

Definition digit (b : byte) : bool := let n := N_of_byte b in (48 <=? n) && (n <=? 57).
Definition letter (b : byte) : bool :=
  let n := N_of_byte b in (65 <=? n) && (n <=? 90) || (97 <=? n) && (n <=? 122) || (n =? 95).
Definition word_byte (b : byte) : bool := digit b || letter b.
Definition blank (b : byte) : bool := match b with x20 | x09 | x0a | x0d => true | _ => false end.

(** An identifier of C. *)
Definition identifier (x : name) : Prop :=
  match x with
  | [] => False
  | b :: r => letter b = true /\ forallb word_byte r = true
  end.

Definition word_tok (x : name) : ctok :=
  match x with
  | b :: _ => if digit b then KNum x else KId x
  | [] => KId x
  end.

(** Between tokens; in a word (reversed); in a literal; after a backslash in a
    literal; after a slash; in a comment; after a star in a comment; in a
    comment up to the end of the line; error. *)
Inductive lstate := L0 | LWord (w : name) | LStr (s : list byte) | LEsc (s : list byte) | LSlash | LComment | LStar
| LLine | LErr.

Definition start (b : byte) : list ctok * lstate :=
  if word_byte b then ([], LWord [b])
  else if blank b then ([], L0)
  else match b with
       | x22 => ([], LStr [])
       | x2f => ([], LSlash)
       | _ => ([KPunct b], L0)
       end.
Definition lex_step (s : lstate) (b : byte) : list ctok * lstate :=
  match s with
  | L0 => start b
  | LWord w => if word_byte b then ([], LWord (b :: w))
               else let '(k, s') := start b in (word_tok (rev w) :: k, s')
  | LStr s => match b with
              | x22 => ([KStr (rev s)], L0)
              | x5c => ([], LEsc s)
              | x0a => ([], LErr)
              | _ => ([], LStr (b :: s))
              end
  | LEsc s => match b with
              | x22 | x5c => ([], LStr (b :: s))
              | x6e => ([], LStr (x0a :: s))
              | _ => ([], LErr)
              end
  | LSlash => match b with
              | x2a => ([], LComment)
              | x2f => ([], LLine)
              | _ => let '(k, s') := start b in (KPunct x2f :: k, s')
              end
  | LComment => match b with x2a => ([], LStar) | _ => ([], LComment) end
  | LStar => match b with x2f => ([], L0) | x2a => ([], LStar) | _ => ([], LComment) end
  | LLine => match b with x0a => ([], L0) | _ => ([], LLine) end
  | LErr => ([], LErr)
  end.
Fixpoint lex_from (s : lstate) (l : list byte) : option (list ctok) :=
  match l with
  | [] => match s with
          | L0 | LLine => Some []
          | LWord w => Some [word_tok (rev w)]
          | LSlash => Some [KPunct x2f]
          | _ => None
          end
  | b :: r => let '(k, s') := lex_step s b in
              match lex_from s' r with Some q => Some (k ++ q) | None => None end
  end.
Definition lex (l : list byte) : option (list ctok) := lex_from L0 l.

(** ** Lists of tokens *)

Definition is (b : byte) (k : ctok) : bool := match k with KPunct c => Byte.eqb b c | _ => false end.
Definition opens (k : ctok) : bool := is x28 k || is x5b k || is x7b k.
Definition closes (k : ctok) : bool := is x29 k || is x5d k || is x7d k.

(** Parts between separators that are outside of all brackets. *)
Fixpoint split (sep : byte) (depth : nat) (cur : list ctok) (l : list ctok) : list (list ctok) :=
  match l with
  | [] => [rev cur]
  | k :: r =>
      if Nat.eqb depth 0 && is sep k then rev cur :: split sep 0 [] r
      else split sep (if opens k then S depth else if closes k then pred depth else depth) (k :: cur) r
  end.
(** Tokens up to the bracket that closes the one before the list. *)
Fixpoint inside (depth : nat) (l : list ctok) : option (list ctok) :=
  match l with
  | [] => None
  | k :: r =>
      if closes k && Nat.eqb depth 0 then Some []
      else match inside (if opens k then S depth else if closes k then pred depth else depth) r with
           | Some q => Some (k :: q)
           | None => None
           end
  end.
Fixpoint mapM {A B} (f : A -> option B) (l : list A) : option (list B) :=
  match l with
  | [] => Some []
  | x :: r => match f x, mapM f r with Some y, Some q => Some (y :: q) | _, _ => None end
  end.

(** ** Arguments *)

(** Decimal number, possibly with suffix u.  (Octal numbers are rejected.) *)
Fixpoint number (acc : N) (l : name) : option (N * bool) :=
  match l with
  | [] => Some (acc, false)
  | [x75] => Some (acc, true)
  | b :: r => if digit b then number (10 * acc + (N_of_byte b - 48)) r else None
  end.
Definition num_value (x : name) : option (N * bool) :=
  match x with
  | x30 :: b :: _ => if digit b then None else number 0 x
  | _ => number 0 x
  end.

Fixpoint words_eqb (a b : list name) : bool :=
  match a, b with
  | [], [] => true
  | x :: a, y :: b => bytes_eqb x y && words_eqb a b
  | _, _ => false
  end.
(** sizeof, on x86-64 *)
Definition words_size (ws : list ctok) : option N :=
  match mapM (fun k => match k with KId x => Some x | _ => None end) ws with
  | Some w =>
      match find (fun p => words_eqb (fst (fst p)) w) c_ints with
      | Some (_, n) => Some n
      | None => if words_eqb w [text "float"] then Some 4
                else if words_eqb w [text "double"] then Some 8 else None
      end
  | None => match ws with
            | [KId v; KPunct x2a] => if bytes_eqb v (text "void") then Some 8 else None
            | _ => None
            end
  end.

Inductive carg :=
| ANum (n : N) (u : bool) | AName (x : name) | ASizeof (n : N)
| AStrlen (x : name) | ALength (x : name) | ACstr (x : name).

Definition arg_of (ts : list ctok) : option carg :=
  match ts with
  | [KNum x] => match num_value x with Some (n, u) => Some (ANum n u) | None => None end
  | [KId x] => Some (AName x)
  | [KPunct x28; KId x; KPunct x29; KPunct x2e; KId f; KPunct x28; KPunct x29] =>
      if bytes_eqb f (text "length") then Some (ALength x)
      else if bytes_eqb f (text "c_str") then Some (ACstr x) else None
  | KId f :: KPunct x28 :: r =>
      match inside 0 r with
      | Some ws =>
          if negb (Nat.eqb (List.length r) (S (List.length ws))) then None
          else if bytes_eqb f (text "sizeof") then option_map ASizeof (words_size ws)
          else if bytes_eqb f (text "strlen") then
            match ws with [KId x] => Some (AStrlen x) | _ => None end
          else None
      | None => None
      end
  | _ => None
  end.

(** ** Statements *)

(** A call f(...): the function and the arguments. *)
Definition call_of (ts : list ctok) : option (name * list (list ctok)) :=
  match ts with
  | KId f :: KPunct x28 :: r =>
      match inside 0 r with
      | Some q => if Nat.eqb (List.length r) (S (List.length q)) then Some (f, split x2c 0 [] q) else None
      | None => None
      end
  | _ => None
  end.

(** The constants of enum __type_format; [C82_formats] in P_Emit.v compares
    them with the declaration. *)
Definition fmt_constants : list (name * fmt) :=
  [(text "__GT_TRACEDB_UNSIGNED", UNSIGNED); (text "__GT_TRACEDB_SIGNED", SIGNED);
   (text "__GT_TRACEDB_FLOAT", FLOAT); (text "__GT_TRACEDB_POINTER", POINTER);
   (text "__GT_TRACEDB_BLOB", BLOB); (text "__GT_TRACEDB_INVALID_FORMAT", INVALID_FORMAT)].
Definition fmt_constant (x : name) : option fmt :=
  match find (fun p => bytes_eqb (fst p) x) fmt_constants with Some (_, f) => Some f | None => None end.
Definition size_of_arg (a : carg) : option N :=
  match a with ASizeof n => Some n | ANum n _ => Some n | _ => None end.

(** How a string is accessed. *)
Inductive access := ByStrlen | ByLength.

(** The statements of the inserted code. *)
Inductive pstmt :=
| PId (id : N) | PVars (args : list vararg) | PBlobs (args : list (blobarg * access)) | PEnd.

Fixpoint vars_of (l : list carg) : option (list vararg) :=
  match l with
  | [] => Some []
  | ANum ni false :: ANum ti false :: s :: AName f :: AName x :: r =>
      match size_of_arg s, fmt_constant f, vars_of r with
      | Some n, Some f, Some q => Some (mkVA ni ti n f x :: q)
      | _, _, _ => None
      end
  | _ => None
  end.
Fixpoint blobs_of (l : list carg) : option (list (blobarg * access)) :=
  match l with
  | [] => Some []
  | ANum ni false :: ANum ti false :: AStrlen x :: AName y :: r =>
      if bytes_eqb x y then option_map (cons (mkBA ni ti x, ByStrlen)) (blobs_of r) else None
  | ANum ni false :: ANum ti false :: ALength x :: ACstr y :: r =>
      if bytes_eqb x y then option_map (cons (mkBA ni ti x, ByLength)) (blobs_of r) else None
  | _ => None
  end.

Definition log_var : name := text "__sel_trace_file".
Definition lock_var : name := text "__sel_trace_file_lock".
Definition is_log (a : carg) : bool := match a with AName x => bytes_eqb x log_var | _ => false end.
Definition is_lock (a : carg) : bool := match a with AName x => bytes_eqb x lock_var | _ => false end.

Definition stmt_of_call (c : name * list carg) : option pstmt :=
  let '(f, args) := c in
  match args with
  | l :: r =>
      if negb (is_log l) then None
      else if bytes_eqb f (text "__write_trace_id") then
        match r with [k; ANum id true] => if is_lock k then Some (PId id) else None | _ => None end
      else if bytes_eqb f (text "__write_end_entry") then
        match r with [k] => if is_lock k then Some PEnd else None | _ => None end
      else if bytes_eqb f (text "__write_trace_variables") then
        match r with
        | ANum n false :: q => match vars_of q with
                               | Some vs => if n =? lenN vs then Some (PVars vs) else None
                               | None => None
                               end
        | _ => None
        end
      else if bytes_eqb f (text "__write_trace_blobs") then
        match r with
        | ANum n false :: q => match blobs_of q with
                               | Some bs => if n =? lenN bs then Some (PBlobs bs) else None
                               | None => None
                               end
        | _ => None
        end
      else None
  | [] => None
  end.
Definition stmt_of (ts : list ctok) : option pstmt :=
  match call_of ts with
  | Some (f, args) => match mapM arg_of args with Some a => stmt_of_call (f, a) | None => None end
  | None => None
  end.

(** A text that consists of such statements, each ended by a semicolon. *)
Definition read_stmts (l : list byte) : option (list pstmt) :=
  match lex l with
  | Some ts => match rev (split x3b 0 [] ts) with
               | [] :: r => mapM stmt_of (rev r)
               | _ => None
               end
  | None => None
  end.

(** ** The setup code *)

(** Elements of the initialiser of an array: the part in braces after name[] =,
    or none after name = NULL. *)
Fixpoint array_of (x : name) (ts : list ctok) : option (list (list ctok)) :=
  match ts with
  | [] => None
  | k :: r =>
      let next := array_of x r in
      match k with
      | KId y =>
          if bytes_eqb x y then
            match r with
            | KPunct x5b :: KPunct x5d :: KPunct x3d :: KPunct x7b :: q =>
                match inside 0 q with
                | Some l => match rev (split x2c 0 [] l) with [] :: e => Some (rev e) | e => Some (rev e) end
                | None => None
                end
            | KPunct x3d :: KId n :: KPunct x3b :: q => if bytes_eqb n (text "NULL") then Some [] else next
            | _ => next
            end
          else next
      | _ => next
      end
  end.
Definition string_elem (ts : list ctok) : option name := match ts with [KStr s] => Some s | _ => None end.
Definition type_elem (ts : list ctok) : option tdesc :=
  match ts with
  | KPunct x7b :: r =>
      match inside 0 r with
      | Some q => if negb (Nat.eqb (List.length r) (S (List.length q))) then None
                  else match mapM arg_of (split x2c 0 [] q) with
                       | Some [ANum i false; AName f; s] =>
                           match fmt_constant f, size_of_arg s with
                           | Some f, Some n => Some (mkT i f n)
                           | _, _ => None
                           end
                       | _ => None
                       end
      | None => None
      end
  | _ => None
  end.
Definition read_names (ts : list ctok) : option (list name) :=
  match array_of (text "names") ts with Some l => mapM string_elem l | None => None end.
Definition read_types (ts : list ctok) : option (list tdesc) :=
  match array_of (text "types") ts with Some l => mapM type_elem l | None => None end.

(** The arguments of the first call of a function. *)
Fixpoint call_args (f : name) (ts : list ctok) : option (list (list ctok)) :=
  match ts with
  | [] => None
  | k :: r =>
      match k, r with
      | KId y, KPunct x28 :: q =>
          if bytes_eqb f y then option_map (split x2c 0 []) (inside 0 q) else call_args f r
      | _, _ => call_args f r
      end
  end.
(** The numbers of names and types in the call of __write_trace_header. *)
Definition read_counts (ts : list ctok) : option (N * N) :=
  match call_args (text "__write_trace_header") ts with
  | Some l => match mapM arg_of l with
              | Some [a; b; AName n; ANum i false; AName t; ANum j false] =>
                  if is_log a && is_lock b && bytes_eqb n (text "names") && bytes_eqb t (text "types")
                  then Some (i, j) else None
              | _ => None
              end
  | None => None
  end.

(** Where the log goes: what is assigned to the variable of the log. *)
Inductive logfile := ToStderr | ToStdout | ToFile (path : list byte) | ToEnv (var : list byte) | ToHandshake.
Fixpoint assigned (x : name) (ts : list ctok) : option (list ctok) :=
  match ts with
  | [] => None
  | k :: r =>
      match k, r with
      | KId y, KPunct x3d :: q =>
          if bytes_eqb x y then match split x3b 0 [] q with e :: _ => Some e | [] => None end else assigned x r
      | _, _ => assigned x r
      end
  end.
Definition read_log (ts : list ctok) : option logfile :=
  match assigned log_var ts with
  | Some [KId x] => if bytes_eqb x (text "stderr") then Some ToStderr
                    else if bytes_eqb x (text "stdout") then Some ToStdout else None
  | Some e =>
      match call_of e with
      | Some (f, [a; [KStr m]]) =>
          if bytes_eqb f (text "fopen") && bytes_eqb m (text "w") then
            match a with
            | [KStr p] => Some (ToFile p)
            | [KId b] => if bytes_eqb b (text "buffer") then Some ToHandshake else None
            | _ => match call_of a with
                   | Some (g, [[KStr v]]) => if bytes_eqb g (text "getenv") then Some (ToEnv v) else None
                   | _ => None
                   end
            end
          else None
      | _ => None
      end
  | None => None
  end.
(** The environment variable with the name of the handshake file. *)
Definition read_handshake (ts : list ctok) : option (list byte) :=
  match call_args (text "getenv") ts with Some [[KStr v]] => Some v | _ => None end.
