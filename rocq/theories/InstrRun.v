(** Model of the C code linked into instrumented programs
    (+write-trace-implementation+, instrumentation/c-cpp.lisp:101-283) and of
    the threads of the program that call it. *)
From Verif Require Import Base Types Instr.

(** ** float and double (IEEE 754 binary32 and binary64, bit patterns) *)

(** Default promotion float -> double of a variadic argument (cvtss2sd:
    exact, signalling NaNs are quieted). *)
Definition widen (b : N) : N :=
  let s := b / 2 ^ 31 in
  let e := (b / 2 ^ 23) mod 2 ^ 8 in
  let m := b mod 2 ^ 23 in
  s * 2 ^ 63 +
  (if e =? 255 then 2047 * 2 ^ 52 + (if m =? 0 then 0 else N.lor m (2 ^ 22)) * 2 ^ 29
   else if e =? 0 then
     if m =? 0 then 0
     else let k := N.log2 m in (k + 874) * 2 ^ 52 + (m - 2 ^ k) * 2 ^ (52 - k)
   else (e + 896) * 2 ^ 52 + m * 2 ^ 29).

(** x / 2^d rounded to nearest, ties to even. *)
Definition round_even (x d : N) : N :=
  let q := x / 2 ^ d in
  let r := x mod 2 ^ d in
  if 2 * r <? 2 ^ d then q
  else if 2 ^ d <? 2 * r then q + 1
  else if N.even q then q else q + 1.

(** (float) of a double, line 228 (cvtsd2ss, round to nearest). *)
Definition narrow (b : N) : N :=
  let s := b / 2 ^ 63 in
  let e := (b / 2 ^ 52) mod 2 ^ 11 in
  let m := b mod 2 ^ 52 in
  s * 2 ^ 31 +
  (if e =? 2047 then 255 * 2 ^ 23 + (if m =? 0 then 0 else N.lor (m / 2 ^ 29) (2 ^ 22))
   else
     let M := if e =? 0 then m else m + 2 ^ 52 in   (* the value is M * 2^(E - 1075) *)
     let E := N.max e 1 in
     if 897 <=? E then N.min ((E - 897) * 2 ^ 23 + round_even M 29) (255 * 2 ^ 23)
     else round_even M (926 - E)).

(** ** Arguments *)

(** Values of variables of the program: an integer; a float or double (bits);
    a pointer or array and the characters up to the first NUL it points to; a
    std::string. *)
Inductive rvalue :=
| RInt (z : Z) | RFloat (bits : N) | RDouble (bits : N) | RPtr (addr : N) (str : list byte)
| RString (str : list byte).

(** A variadic argument as passed (x86-64 System V): in a general register /
    stack slot, or as a double.  Integers are promoted, arrays decay. *)
Inductive vslot := SGen (bits : N) | SDouble (bits : N).
Definition pass (v : rvalue) : outcome vslot :=
  match v with
  | RInt z => Ok (SGen (Z.to_N (z mod 2 ^ 64)%Z))
  | RFloat b => Ok (SDouble (widen b))
  | RDouble b => Ok (SDouble b)
  | RPtr a _ => Ok (SGen a)
  | RString _ => UB UUninit      (* non-trivial object passed to a variadic function *)
  end.
(** va_arg(ap, int), va_arg(ap, int64_t), va_arg(ap, void * ) / va_arg(ap, double) *)
Definition va_gen (v : vslot) : outcome N :=
  match v with SGen b => Ok b | SDouble _ => UB UUninit end.
Definition va_double (v : vslot) : outcome N :=
  match v with SDouble b => Ok b | SGen _ => UB UUninit end.

(** ** Actions of a thread *)

Inductive action :=
| ALock | AUnlock                   (* pthread_mutex_lock / unlock *)
| AWrite (bs : list byte)           (* one call of fputc, fputs or fwrite *)
| AFlush.                           (* fflush *)

(** __write_trace_header, lines 125-154.  fputs stops at a NUL; n_types is an
    unsigned long of which the first 4 bytes are written. *)
Fixpoint c_string (n : list byte) : list byte :=
  match n with
  | [] => []
  | x00 :: _ => []
  | b :: r => b :: c_string r
  end.
Definition total_size (names : list name) : N :=
  fold_left (fun s n => add64 s (lenN (c_string n) + 1)) names 0.
Definition write_trace_header (names : list name) (types : list tdesc) : list action :=
  [ALock; AWrite (le_bytes 8 (total_size names))] ++
  concat (map (fun n => [AWrite (c_string n); AWrite [x00]]) names) ++
  [AWrite (le_bytes 4 (lenN types));
   AWrite (concat (map (fun t => le_bytes 4 (t_name t) ++ le_bytes 4 (fmt_code (t_fmt t)) ++ le_bytes 4 (t_size t)) types));
   AUnlock].

(** __write_trace_id, lines 156-165 *)
Definition write_trace_id (id : N) : list action :=
  [ALock; AWrite [x01]; AWrite (le_bytes 8 id)].

(** __write_end_entry, lines 167-174 *)
Definition write_end_entry : list action := [AWrite [x00]; AFlush; AUnlock].

(** The switch of __write_trace_variables, lines 195-248. *)
Definition write_value (f : fmt) (size : N) (v : vslot) : outcome (list action) :=
  match f with
  | UNSIGNED | SIGNED =>
      if size =? 1 then b <- va_gen v ;; Ok [AWrite (le_bytes 1 b)]
      else if size =? 2 then b <- va_gen v ;; Ok [AWrite (le_bytes 2 b)]
      else if size =? 4 then b <- va_gen v ;; Ok [AWrite (le_bytes 4 b)]
      else if size =? 8 then b <- va_gen v ;; Ok [AWrite (le_bytes 8 b)]
      else Ok []           (* the argument is not consumed; not modelled further *)
  | FLOAT =>
      if size =? 4 then d <- va_double v ;; Ok [AWrite (le_bytes 4 (narrow d))]
      else d <- va_double v ;; Ok [AWrite (le_bytes 8 d)]
  | POINTER => b <- va_gen v ;; Ok [AWrite (le_bytes 8 b)]
  | BLOB | INVALID_FORMAT => Ok []
  end.

Fixpoint mapC {A} (f : A -> outcome (list action)) (l : list A) : outcome (list action) :=
  match l with
  | [] => Ok []
  | x :: r => a <- f x ;; b <- mapC f r ;; Ok (a ++ b)
  end.

(** One round of __write_trace_variables, lines 182-249; [env] gives the value
    of the variable the argument names. *)
Definition write_trace_variable (env : name -> rvalue) (a : vararg) : outcome (list action) :=
  s <- pass (env (va_expr a)) ;;
  w <- write_value (va_fmt a) (va_size a) s ;;
  Ok ([AWrite [x02]; AWrite (le_bytes 4 (va_name a)); AWrite (le_bytes 4 (va_type a))] ++ w).

(** One round of __write_trace_blobs, lines 258-269.  The size argument is
    strlen(x) or x.length(), read back as uint32_t. *)
Definition write_trace_blob (env : name -> rvalue) (a : blobarg) : outcome (list action) :=
  s <- match env (ba_expr a) with
       | RPtr _ s => Ok s
       | RString s => Ok s
       | _ => UB UUninit
       end ;;
  let size := lenN s mod two32 in
  Ok [AWrite [x02]; AWrite (le_bytes 4 (ba_name a)); AWrite (le_bytes 4 (ba_type a));
      AWrite (le_bytes 4 size); AWrite (takeN size s)].

(** __write_buffer_size, lines 272-279 *)
Definition write_buffer_size (addr size : N) : list action :=
  [AWrite [x03]; AWrite (le_bytes 8 addr ++ le_bytes 8 size)].

Definition run_stmt (env : name -> rvalue) (s : istmt) : outcome (list action) :=
  match s with
  | IId id => Ok (write_trace_id id)
  | IVars args => mapC (write_trace_variable env) args
  | IBlobs args => mapC (write_trace_blob env) args
  | IEnd => Ok write_end_entry
  end.
Definition run_stmts (env : name -> rvalue) (l : list istmt) : outcome (list action) :=
  mapC (run_stmt env) l.

(** ** Threads *)

(** The log file and its lock: the mutex (its owner), what was written to the
    FILE, how much of that has reached the file, and what the threads still
    have to do. *)
Record rstate := mkR {
  r_lock : option nat;
  r_out : list byte;
  r_disk : N;
  r_threads : list (list action)
}.

Fixpoint update {A} (l : list A) (i : nat) (x : A) : list A :=
  match l, i with
  | [], _ => []
  | _ :: r, O => x :: r
  | y :: r, S j => y :: update r j x
  end.

(** One step of the program: a thread performs its next action, or the stdio
    buffer is written out.  Locks are not recursive. *)
Inductive rstep : rstate -> rstate -> Prop :=
| st_lock : forall out d ths i r,
    nth_error ths i = Some (ALock :: r) ->
    rstep (mkR None out d ths) (mkR (Some i) out d (update ths i r))
| st_unlock : forall lk out d ths i r,
    nth_error ths i = Some (AUnlock :: r) ->
    rstep (mkR lk out d ths) (mkR None out d (update ths i r))
| st_write : forall lk out d ths i bs r,
    nth_error ths i = Some (AWrite bs :: r) ->
    rstep (mkR lk out d ths) (mkR lk (out ++ bs) d (update ths i r))
| st_flush : forall lk out d ths i r,
    nth_error ths i = Some (AFlush :: r) ->
    rstep (mkR lk out d ths) (mkR lk out (lenN out) (update ths i r))
| st_spill : forall lk out d ths d',
    d <= d' -> d' <= lenN out ->
    rstep (mkR lk out d ths) (mkR lk out d' ths).

Inductive rsteps : rstate -> rstate -> Prop :=
| rs_refl : forall s, rsteps s s
| rs_step : forall s s' s'', rsteps s s' -> rstep s' s'' -> rsteps s s''.

(** What a sequence of actions writes. *)
Definition written (l : list action) : list byte :=
  concat (map (fun a => match a with AWrite bs => bs | _ => [] end) l).

(** Start of the program: __bi_setup (lines 312-339) runs before main and before
    any thread is started; it writes the header. *)
Definition rstart (names : list name) (types : list tdesc) (ths : list (list action)) : rstate :=
  mkR None (written (write_trace_header names types)) 0 ths.
