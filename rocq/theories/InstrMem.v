(** Model of what the inserted calls do to the memory of the program: the
    evaluation of their arguments (instrumentation/c-cpp.lisp:1006-1025) and of
    __write_trace_variables and __write_trace_blobs (c-cpp.lisp:176-270), where
    variables may be uninitialised and pointers may point anywhere.

    Simplification: the memory does not change during one pass through a place
    that logs (the lock of the log does not protect the variables of the
    program; other threads that change them are not modelled). *)
From Verif Require Import Base Types Instr InstrRun.

(** Contents of a variable.  An array is the address it decays to. *)
Inductive lvalue :=
| LUninit | LInt (z : Z) | LFloat (bits : N) | LDouble (bits : N) | LPtr (addr : N) | LString (str : list byte).

(** Live objects: their address and their bytes, [None] if indeterminate. *)
Definition block : Type := N * list (option byte).
Definition memory : Type := list block.

Definition in_block (a : N) (b : block) : bool := (fst b <=? a) && (a <? fst b + lenN (snd b)).

(** The bytes from address [a] to the end of the object. *)
Definition bytes_from (m : memory) (a : N) : outcome (list (option byte)) :=
  if a =? 0 then UB UNull
  else match find (in_block a) m with
       | Some b => Ok (dropN (a - fst b) (snd b))
       | None => UB UOob
       end.

(** strlen *)
Fixpoint scan (l : list (option byte)) : outcome N :=
  match l with
  | [] => UB UOob
  | None :: _ => UB UUninit
  | Some x00 :: _ => Ok 0
  | Some _ :: r => n <- scan r ;; Ok (n + 1)
  end.
Definition c_strlen (m : memory) (a : N) : outcome N := l <- bytes_from m a ;; scan l.

(** What fwrite(ptr, size, 1, out) reads. *)
Fixpoint fetch (l : list (option byte)) (n : N) : outcome (list byte) :=
  match l with
  | [] => if n =? 0 then Ok [] else UB UOob
  | x :: r => if n =? 0 then Ok []
              else match x with
                   | None => UB UUninit
                   | Some b => s <- fetch r (N.pred n) ;; Ok (b :: s)
                   end
  end.
Definition c_fetch (m : memory) (a n : N) : outcome (list byte) := l <- bytes_from m a ;; fetch l n.

(** A variadic argument as passed; evaluating an uninitialised variable is
    undefined. *)
Definition pass_m (v : lvalue) : outcome vslot :=
  match v with
  | LUninit => UB UUninit
  | LInt z => Ok (SGen (Z.to_N (z mod 2 ^ 64)%Z))
  | LFloat b => Ok (SDouble (widen b))
  | LDouble b => Ok (SDouble b)
  | LPtr a => Ok (SGen a)
  | LString _ => UB UUninit       (* non-trivial object passed to a variadic function *)
  end.

(** One round of __write_trace_variables, c-cpp.lisp:182-249 *)
Definition write_trace_variable_m (env : name -> lvalue) (a : vararg) : outcome (list action) :=
  s <- pass_m (env (va_expr a)) ;;
  w <- write_value (va_fmt a) (va_size a) s ;;
  Ok ([AWrite [x02]; AWrite (le_bytes 4 (va_name a)); AWrite (le_bytes 4 (va_type a))] ++ w).

(** The arguments strlen(x), x or (x).length(), (x).c_str() (c-cpp.lisp:1010-1019):
    size, read back as uint32_t, and the bytes fwrite takes (lines 261-268). *)
Definition blob_bytes (m : memory) (v : lvalue) : outcome (N * list byte) :=
  match v with
  | LPtr p => n <- c_strlen m p ;; bs <- c_fetch m p (n mod two32) ;; Ok (n mod two32, bs)
  | LString s => Ok (lenN s mod two32, takeN (lenN s mod two32) s)
  | _ => UB UUninit
  end.

(** One round of __write_trace_blobs, c-cpp.lisp:258-269 *)
Definition write_trace_blob_m (m : memory) (env : name -> lvalue) (a : blobarg) : outcome (list action) :=
  r <- blob_bytes m (env (ba_expr a)) ;;
  Ok [AWrite [x02]; AWrite (le_bytes 4 (ba_name a)); AWrite (le_bytes 4 (ba_type a));
      AWrite (le_bytes 4 (fst r)); AWrite (snd r)].

(** Inserted statements (instrument-ast, c-cpp.lisp:456-470). *)
Definition run_stmt_m (m : memory) (env : name -> lvalue) (s : istmt) : outcome (list action) :=
  match s with
  | IId id => Ok (write_trace_id id)
  | IVars args => mapC (write_trace_variable_m env) args
  | IBlobs args => mapC (write_trace_blob_m m env) args
  | IEnd => Ok write_end_entry
  end.
Definition run_stmts_m (m : memory) (env : name -> lvalue) (l : list istmt) : outcome (list action) :=
  mapC (run_stmt_m m env) l.
