(** Model of how the inserted calls pass their arguments and how the logging
    functions fetch them with va_arg (instrumentation/c-cpp.lisp:176-270 and
    993-1028), on x86-64 (System V ABI) and by the rules of the C standard.
    InstrRun.v takes for granted that each argument arrives; here the arguments
    are a flat list and arrive in registers and on the stack. *)
From Verif Require Import Base Types Instr InstrRun.

(** ** Arguments *)

(** Types of arguments after the default argument promotions (C11 6.5.2.2).
    Pointers: to void, to a character type, to something else. *)
Inductive target := PVoid | PChar | POther.
Inductive aty := TInt | TUInt | TLong | TULong | TDouble | TPtr (t : target).

(** An argument: its type, its bits, and, for a pointer, the bytes it points to. *)
Record arg := mkArg { a_ty : aty; a_bits : N; a_text : list byte }.

(** A decimal literal is an int or else a long (C11 6.4.4.1). *)
Definition literal (n : N) : arg := mkArg (if n <? 2 ^ 31 then TInt else TLong) n [].

(** A variable of the program; [size] and [f] are those of its type, [ptr] the
    type of its target if it is a pointer. *)
Definition value_arg (ptr : target) (f : fmt) (size : N) (v : rvalue) : outcome arg :=
  match v with
  | RInt z =>
      if size <? 4 then Ok (mkArg TInt (Z.to_N (z mod 2 ^ 32)) [])
      else if size =? 4 then Ok (mkArg (match f with UNSIGNED => TUInt | _ => TInt end) (Z.to_N (z mod 2 ^ 32)) [])
      else Ok (mkArg (match f with UNSIGNED => TULong | _ => TLong end) (Z.to_N (z mod 2 ^ 64)) [])
  | RFloat b => Ok (mkArg TDouble (widen b) [])
  | RDouble b => Ok (mkArg TDouble b [])
  | RPtr a s => Ok (mkArg (TPtr ptr) a s)
  | RString _ => UB UUninit           (* non-trivial object passed to a variadic function *)
  end.

(** "~a, ~a, ~a, ~a, ~a" name-index type-index size format name, lines 1022-1025.
    [size_ty] is the type of the size argument: sizeof is a size_t. *)
Definition var_args (size_ty : aty) (ptr : name -> target) (env : name -> rvalue) (a : vararg) : outcome (list arg) :=
  x <- value_arg (ptr (va_expr a)) (va_fmt a) (va_size a) (env (va_expr a)) ;;
  Ok [literal (va_name a); literal (va_type a); mkArg size_ty (va_size a) []; mkArg TInt (fmt_code (va_fmt a)) []; x].

(** "~d, ~d, strlen(~a), ~a" and "~d, ~d, (~a).length(), (~a).c_str()", lines
    1009-1019.  The address of the characters of a std::string does not matter. *)
Definition blob_args (size_ty : aty) (ptr : name -> target) (env : name -> rvalue) (a : blobarg) : outcome (list arg) :=
  match env (ba_expr a) with
  | RPtr p s => Ok [literal (ba_name a); literal (ba_type a); mkArg size_ty (lenN s) []; mkArg (TPtr (ptr (ba_expr a))) p s]
  | RString s => Ok [literal (ba_name a); literal (ba_type a); mkArg size_ty (lenN s) []; mkArg (TPtr PChar) 0 s]
  | _ => UB UUninit
  end.

Fixpoint mapA {A} (f : A -> outcome (list arg)) (l : list A) : outcome (list arg) :=
  match l with
  | [] => Ok []
  | x :: r => a <- f x ;; b <- mapA f r ;; Ok (a ++ b)
  end.

(** ** The functions, for any implementation of va_arg *)
Section Callee.
Variable St : Type.
(** va_arg(ap, t): bits and, for a pointer, what it points to. *)
Variable next : aty -> St -> outcome (N * list byte * St).

(** The switch of __write_trace_variables, c-cpp.lisp:195-248. *)
Definition fetch_value (f : fmt) (size : N) (st : St) : outcome (list action * St) :=
  match f with
  | UNSIGNED | SIGNED =>
      if size =? 1 then ' (b, _, st) <- next TInt st ;; Ok ([AWrite (le_bytes 1 b)], st)
      else if size =? 2 then ' (b, _, st) <- next TInt st ;; Ok ([AWrite (le_bytes 2 b)], st)
      else if size =? 4 then ' (b, _, st) <- next TInt st ;; Ok ([AWrite (le_bytes 4 b)], st)
      else if size =? 8 then ' (b, _, st) <- next TLong st ;; Ok ([AWrite (le_bytes 8 b)], st)
      else Ok ([], st)
  | FLOAT =>
      if size =? 4 then ' (d, _, st) <- next TDouble st ;; Ok ([AWrite (le_bytes 4 (narrow d))], st)
      else ' (d, _, st) <- next TDouble st ;; Ok ([AWrite (le_bytes 8 d)], st)
  | POINTER => ' (b, _, st) <- next (TPtr PVoid) st ;; Ok ([AWrite (le_bytes 8 b)], st)
  | BLOB | INVALID_FORMAT => Ok ([], st)
  end.

(** The loop of __write_trace_variables, c-cpp.lisp:181-250 ([n]: rounds to go). *)
Fixpoint c_write_trace_variables (n : nat) (st : St) : outcome (list action) :=
  match n with
  | O => Ok []
  | S n =>
      ' (ni, _, st) <- next TUInt st ;;
      ' (ti, _, st) <- next TUInt st ;;
      ' (size, _, st) <- next TUInt st ;;
      ' (format, _, st) <- next TInt st ;;
      ' (w, st) <- fetch_value (fmt_of_code format) size st ;;
      r <- c_write_trace_variables n st ;;
      Ok ([AWrite [x02]; AWrite (le_bytes 4 ni); AWrite (le_bytes 4 ti)] ++ w ++ r)
  end.

(** The loop of __write_trace_blobs, c-cpp.lisp:258-269.  fwrite must not read
    beyond what the pointer points to. *)
Fixpoint c_write_trace_blobs (n : nat) (st : St) : outcome (list action) :=
  match n with
  | O => Ok []
  | S n =>
      ' (ni, _, st) <- next TUInt st ;;
      ' (ti, _, st) <- next TUInt st ;;
      ' (size, _, st) <- next TUInt st ;;
      ' (_, s, st) <- next (TPtr PVoid) st ;;
      if lenN s <? size then UB UOob else
      r <- c_write_trace_blobs n st ;;
      Ok ([AWrite [x02]; AWrite (le_bytes 4 ni); AWrite (le_bytes 4 ti); AWrite (le_bytes 4 size); AWrite (takeN size s)] ++ r)
  end.
End Callee.

(** ** x86-64 System V *)

(** A register or stack slot of eight bytes. *)
Definition word : Type := N * list byte.

(** The upper half of a slot that holds an int is unspecified: [j]. *)
Definition to_word (j : N) (a : arg) : word :=
  match a_ty a with
  | TInt | TUInt => (a_bits a mod 2 ^ 32 + 2 ^ 32 * j, a_text a)
  | _ => (a_bits a, a_text a)
  end.

(** Where the caller puts arguments when [gp] general and [fp] SSE registers are
    left (System V ABI, 3.2.3): general registers, SSE registers, stack. *)
Fixpoint place (junk : nat -> N) (gp fp : nat) (l : list arg) : list word * list word * list word :=
  match l with
  | [] => ([], [], [])
  | a :: r =>
      let w := to_word (junk O) a in
      let junk := fun k => junk (S k) in
      match a_ty a with
      | TDouble =>
          match fp with
          | S fp => let '(g, f, m) := place junk gp fp r in (g, w :: f, m)
          | O => let '(g, f, m) := place junk gp fp r in (g, f, w :: m)
          end
      | _ =>
          match gp with
          | S gp => let '(g, f, m) := place junk gp fp r in (w :: g, f, m)
          | O => let '(g, f, m) := place junk gp fp r in (g, f, w :: m)
          end
      end
  end.

(** va_list (3.5.7): gp_offset and fp_offset are positions in the area where the
    prologue saved the registers, 6 general ones of 8 bytes, then 8 SSE ones of
    16 bytes; then the arguments on the stack.  [v_gp] and [v_fp] are the saved
    registers that hold variable arguments (the first two general registers
    hold out and n_vars); reading a saved register without argument yields
    garbage. *)
Record va_list := mkVL { gp_offset : N; fp_offset : N; overflow : list word; v_gp : list word; v_fp : list word }.
Definition va_start (p : list word * list word * list word) : va_list :=
  let '(g, f, m) := p in mkVL 16 48 m g f.

(** Class INTEGER / SSE (3.5.7, figure 3.34); an int is the lower half. *)
Definition va_arg (t : aty) (ap : va_list) : outcome (N * list byte * va_list) :=
  ' (w, ap) <- match t with
               | TDouble =>
                   if fp_offset ap <? 176 then
                     match nthN (v_fp ap) ((fp_offset ap - 48) / 16) with
                     | Some w => Ok (w, mkVL (gp_offset ap) (fp_offset ap + 16) (overflow ap) (v_gp ap) (v_fp ap))
                     | None => UB UUninit
                     end
                   else match overflow ap with
                        | w :: r => Ok (w, mkVL (gp_offset ap) (fp_offset ap) r (v_gp ap) (v_fp ap))
                        | [] => UB UOob
                        end
               | _ =>
                   if gp_offset ap <? 48 then
                     match nthN (v_gp ap) ((gp_offset ap - 16) / 8) with
                     | Some w => Ok (w, mkVL (gp_offset ap + 8) (fp_offset ap) (overflow ap) (v_gp ap) (v_fp ap))
                     | None => UB UUninit
                     end
                   else match overflow ap with
                        | w :: r => Ok (w, mkVL (gp_offset ap) (fp_offset ap) r (v_gp ap) (v_fp ap))
                        | [] => UB UOob
                        end
               end ;;
  Ok (match t with TInt | TUInt => fst w mod 2 ^ 32 | _ => fst w end, snd w, ap).

(** The statements, with arguments passed that way; [junk] is what the upper
    halves of slots happen to contain. *)
Definition run_stmt_abi (junk : nat -> N) (env : name -> rvalue) (s : istmt) : outcome (list action) :=
  match s with
  | IId id => Ok (write_trace_id id)
  | IVars args => l <- mapA (var_args TULong (fun _ => POther) env) args ;;
                  c_write_trace_variables va_list va_arg (length args) (va_start (place junk 4 8 l))
  | IBlobs args => l <- mapA (blob_args TULong (fun _ => PChar) env) args ;;
                   c_write_trace_blobs va_list va_arg (length args) (va_start (place junk 4 8 l))
  | IEnd => Ok write_end_entry
  end.
Fixpoint run_stmts_abi (junk : nat -> nat -> N) (env : name -> rvalue) (l : list istmt) : outcome (list action) :=
  match l with
  | [] => Ok []
  | s :: r => a <- run_stmt_abi (junk O) env s ;; b <- run_stmts_abi (fun k => junk (S k)) env r ;; Ok (a ++ b)
  end.
Definition event_run_abi (junk : nat -> nat -> N) (code : list (list istmt)) (e : nat * (name -> rvalue)) : outcome (list action) :=
  match nth_error code (fst e) with Some c => run_stmts_abi junk (snd e) c | None => UB UOob end.

(** ** The C standard (C11 7.16.1.1) *)

(** May an argument of this type and value be fetched as [t]?  The types are the
    same; or differ in sign only and the value fits both; or one is a pointer to
    void and the other to a character type. *)
Definition may_fetch (a : arg) (t : aty) : bool :=
  match a_ty a, t with
  | TInt, TInt | TUInt, TUInt | TLong, TLong | TULong, TULong | TDouble, TDouble => true
  | TInt, TUInt | TUInt, TInt => a_bits a <? 2 ^ 31
  | TLong, TULong | TULong, TLong => a_bits a <? 2 ^ 63
  | TPtr PVoid, TPtr PVoid | TPtr PVoid, TPtr PChar | TPtr PChar, TPtr PVoid | TPtr PChar, TPtr PChar => true
  | _, _ => false
  end.
Definition iso_next (t : aty) (l : list arg) : outcome (N * list byte * list arg) :=
  match l with
  | [] => UB UUninit
  | a :: r => if may_fetch a t then Ok (a_bits a, a_text a, r) else UB UUninit
  end.
Definition iso_call (size_ty : aty) (ptr : name -> target) (env : name -> rvalue) (s : istmt) : outcome (list action) :=
  match s with
  | IId id => Ok (write_trace_id id)
  | IVars args => l <- mapA (var_args size_ty ptr env) args ;; c_write_trace_variables (list arg) iso_next (length args) l
  | IBlobs args => l <- mapA (blob_args size_ty ptr env) args ;; c_write_trace_blobs (list arg) iso_next (length args) l
  | IEnd => Ok write_end_entry
  end.
