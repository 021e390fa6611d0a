(** Model: where an instrumented program writes its log.  __bi_setup,
    instrumentation/c-cpp.lisp:311-327, and file-open-str, lines 1075-1085; the
    collector's side is traceable.lisp:172-176. *)
From Verif Require Import Base Types.

Definition newline : byte := x0a.

(** ** C strings in a buffer *)
(** The string at the start of an array; None: no NUL in it. *)
Fixpoint c_string (b : list byte) : option (list byte) :=
  match b with
  | [] => None
  | c :: r => if Byte.eqb c x00 then Some [] else match c_string r with Some s => Some (c :: s) | None => None end
  end.
(** strcspn(buffer, "\n"); None: it runs past the end of the array. *)
Fixpoint strcspn_newline (b : list byte) : option nat :=
  match b with
  | [] => None
  | c :: r => if Byte.eqb c x00 || Byte.eqb c newline then Some O else match strcspn_newline r with Some n => Some (S n) | None => None end
  end.
(** Write [s] at position [n] of an array. *)
Definition store (b : list byte) (n : nat) (s : list byte) : outcome (list byte) :=
  if (n + length s <=? length b)%nat then Ok (firstn n b ++ s ++ skipn (n + length s) b) else UB UOob.

(** char buffer[1024] = "/dev/null", line 316: the rest is zero. *)
Definition dev_null : list byte := [x2f; x64; x65; x76; x2f; x6e; x75; x6c; x6c].
Definition buffer0 : list byte := dev_null ++ repeat x00 1015.

(** ** fgets *)
(** The results of read(2) on the handshake file, one after the other: each time
    the bytes that were added to the file since the last time; [] is the end of
    the file. *)
(** fgets(buffer, 1024, f), line 321, with [acc] already read: None: NULL.  It
    stops after a newline, after 1023 bytes, or at the end of the file. *)
Fixpoint line (n : nat) (s : list byte) : list byte * bool :=
  match n, s with
  | O, _ => ([], true)
  | S _, [] => ([], false)
  | S n', c :: r => if Byte.eqb c newline then ([c], true) else let '(l, d) := line n' r in (c :: l, d)
  end.
Fixpoint fgets (acc : list byte) (reads : list (list byte)) : option (list byte) * list (list byte) :=
  match reads with
  | [] => (None, [])
  | [] :: r => (match acc with [] => None | _ => Some acc end, r)
  | x :: r => let '(l, stop) := line 1023 (acc ++ x) in if stop then (Some l, r) else fgets l r
  end.
(** The loop of line 321.  [sticky]: fgets keeps failing once it has met the end
    of the file.  When [reads] is used up, the loop has not ended yet. *)
Fixpoint get_line (fuel : nat) (sticky : bool) (reads : list (list byte)) : outcome (list byte) :=
  match fuel with
  | O => Diverge
  | S f => match fgets [] reads with
           | (Some l, _) => Ok l
           | (None, r) => if sticky then Diverge else match r with [] => Diverge | _ => get_line f sticky r end
           end
  end.

(** lines 318-325: the buffer after the handshake (fgets stores a NUL after the
    line; then the newline is replaced by NUL, line 322) *)
Definition handshake (sticky : bool) (reads : list (list byte)) : outcome (list byte) :=
  l <- get_line (S (length reads)) sticky reads ;;
  b <- store buffer0 0 (l ++ [x00]) ;;
  match strcspn_newline b with
  | Some n => store b n [x00]
  | None => UB UOob
  end.

(** ** The log *)
(** The arguments trace-file and trace-env of instrument. *)
Inductive choice :=
| ToStderr | ToStdout
| ToFile (path : list byte)
| ToEnv (var : list byte)        (* if the name in the text of line 1084 were quoted; see C82 *)
| ToBuffer.
Inductive dest := DStderr | DStdout | DFile (path : list byte).

Section Setup.
Variable env : list byte -> option (list byte).    (* getenv *)
Variable handshake_var : list byte.                (* *trace-instrument-handshake-env-name* *)
Variable sticky : bool.
Variable reads : list (list byte).

(** fopen(getenv(..), "w") of a variable that is not set passes NULL. *)
Definition bi_setup (c : choice) : outcome dest :=
  b <- match env handshake_var with Some _ => handshake sticky reads | None => Ok buffer0 end ;;
  match c with
  | ToStderr => Ok DStderr
  | ToStdout => Ok DStdout
  | ToFile p => Ok (DFile p)
  | ToEnv v => match env v with Some p => Ok (DFile p) | None => UB UNull end
  | ToBuffer => match c_string b with Some p => Ok (DFile p) | None => UB UOob end
  end.
End Setup.
