(** Model: instrumented programs for machines with addresses and longs of four bytes
    (i386 Linux; least significant byte first), whose logs are read by the library on
    x86-64.  The code is that of instrumentation/c-cpp.lisp:125-280; what differs is
    sizeof, which the inserted code leaves to the compiler (lines 942-972), the type of
    sizeof and strlen, the passing of arguments (all on the stack, in slots of four
    bytes) and the conversion of addresses to uint64_t.  The header (lines 125-154) and the
    id (156-165) have types of fixed size and are those of InstrRun.v: n_types has four
    bytes, all of which are written. *)
From Verif Require Import Base Types FormatSpec Instr InstrRun InstrSpec VaArg.

(** The stack: slots of four bytes; a slot with an address also holds the characters up
    to the first NUL that it points to.  In VaArg.v, TInt and TUInt have four bytes; here
    also TPtr; TLong and TULong stand for the types of eight bytes (long long). *)
Definition stack : Type := list (N * list byte).
Definition push (a : arg) : stack :=
  match a_ty a with
  | TLong | TULong | TDouble => [(a_bits a mod 2 ^ 32, []); ((a_bits a / 2 ^ 32) mod 2 ^ 32, [])]
  | TInt | TUInt | TPtr _ => [(a_bits a mod 2 ^ 32, a_text a)]
  end.
(** va_arg: ap is the address of the next slot. *)
Definition pop (t : aty) (st : stack) : outcome (N * list byte * stack) :=
  match t with
  | TLong | TULong | TDouble =>
      match st with
      | (lo, _) :: (hi, _) :: r => Ok (lo + 2 ^ 32 * hi, [], r)
      | _ => UB UOob
      end
  | TInt | TUInt | TPtr _ =>
      match st with
      | (w, s) :: r => Ok (w, s, r)
      | [] => UB UOob
      end
  end.

(** The switch of __write_trace_variables, c-cpp.lisp:195-248. *)
Definition fetch_value32 (f : fmt) (size : N) (st : stack) : outcome (list action * stack) :=
  match f with
  | UNSIGNED | SIGNED =>
      if size =? 1 then ' (b, _, st) <- pop TInt st ;; Ok ([AWrite (le_bytes 1 b)], st)
      else if size =? 2 then ' (b, _, st) <- pop TInt st ;; Ok ([AWrite (le_bytes 2 b)], st)
      else if size =? 4 then ' (b, _, st) <- pop TInt st ;; Ok ([AWrite (le_bytes 4 b)], st)
      else if size =? 8 then ' (b, _, st) <- pop TLong st ;; Ok ([AWrite (le_bytes 8 b)], st)
      else Ok ([], st)
  | FLOAT =>
      if size =? 4 then ' (d, _, st) <- pop TDouble st ;; Ok ([AWrite (le_bytes 4 (narrow d))], st)
      else ' (d, _, st) <- pop TDouble st ;; Ok ([AWrite (le_bytes 8 d)], st)
  | POINTER => ' (b, _, st) <- pop (TPtr PVoid) st ;; Ok ([AWrite (le_bytes 4 b)], st)
  | BLOB | INVALID_FORMAT => Ok ([], st)
  end.

(** The loop of __write_trace_variables, c-cpp.lisp:181-250. *)
Fixpoint write_variables32 (n : nat) (st : stack) : outcome (list action) :=
  match n with
  | O => Ok []
  | S n =>
      ' (ni, _, st) <- pop TUInt st ;;
      ' (ti, _, st) <- pop TUInt st ;;
      ' (size, _, st) <- pop TUInt st ;;
      ' (format, _, st) <- pop TInt st ;;
      ' (w, st) <- fetch_value32 (fmt_of_code format) size st ;;
      r <- write_variables32 n st ;;
      Ok ([AWrite [x02]; AWrite (le_bytes 4 ni); AWrite (le_bytes 4 ti)] ++ w ++ r)
  end.

(** The loop of __write_trace_blobs, c-cpp.lisp:258-269. *)
Fixpoint write_blobs32 (n : nat) (st : stack) : outcome (list action) :=
  match n with
  | O => Ok []
  | S n =>
      ' (ni, _, st) <- pop TUInt st ;;
      ' (ti, _, st) <- pop TUInt st ;;
      ' (size, _, st) <- pop TUInt st ;;
      ' (_, s, st) <- pop (TPtr PVoid) st ;;
      if lenN s <? size then UB UOob else
      r <- write_blobs32 n st ;;
      Ok ([AWrite [x02]; AWrite (le_bytes 4 ni); AWrite (le_bytes 4 ti); AWrite (le_bytes 4 size); AWrite (takeN size s)] ++ r)
  end.

(** The inserted statements; size_t is unsigned int. *)
Definition run_stmt32 (env : name -> rvalue) (s : istmt) : outcome (list action) :=
  match s with
  | IId id => Ok (write_trace_id id)
  | IVars args => l <- mapA (var_args TUInt (fun _ => POther) env) args ;; write_variables32 (length args) (concat (map push l))
  | IBlobs args => l <- mapA (blob_args TUInt (fun _ => PChar) env) args ;; write_blobs32 (length args) (concat (map push l))
  | IEnd => Ok write_end_entry
  end.
Definition run_stmts32 (env : name -> rvalue) (l : list istmt) : outcome (list action) := mapC (run_stmt32 env) l.
(** A pass through a place of the program. *)
Definition event_run32 (code : list (list istmt)) (e : nat * (name -> rvalue)) : outcome (list action) :=
  match nth_error code (fst e) with Some c => run_stmts32 (snd e) c | None => UB UOob end.

(** __write_buffer_size, lines 272-279: (uint64_t)address.  When an address is converted
    to a wider integer type, gcc extends the sign ("Arrays and pointers implementation"
    in its manual), clang fills up with zeros (ptrtoint of LLVM); [gcc] says which. *)
Definition uint64_of_address (gcc : bool) (a : N) : N := if gcc && (2 ^ 31 <=? a) then a + (2 ^ 64 - 2 ^ 32) else a.
Definition write_buffer_size32 (gcc : bool) (addr size : N) : list action :=
  [AWrite [x03]; AWrite (le_bytes 8 (uint64_of_address gcc addr) ++ le_bytes 8 size)].

(** ** Specification *)

(** Sizes of the types that are logged, on such a machine. *)
Definition size32 (f : fmt) (size : N) : Prop :=
  match f with
  | SIGNED | UNSIGNED => In size [1; 2; 4; 8]
  | FLOAT => In size [4; 8]
  | POINTER => size = 4
  | BLOB => size = 0
  | INVALID_FORMAT => False
  end.

(** A variable that a statement logs: indices of name and type, format and size of the
    type, the variable. *)
Record item := mkItem { it_name : N; it_type : N; it_fmt : fmt; it_size : N; it_expr : name }.
Definition items (s : istmt) : list item :=
  match s with
  | IVars args => map (fun a => mkItem (va_name a) (va_type a) (va_fmt a) (va_size a) (va_expr a)) args
  | IBlobs args => map (fun a => mkItem (ba_name a) (ba_type a) BLOB 0 (ba_expr a)) args
  | _ => []
  end.
(** The statement agrees with the arrays of names and types of the program. *)
Definition item_ok (names : list name) (types : list tdesc) (it : item) : Prop :=
  it_name it < lenN names /\ it_name it < 2 ^ 31 /\ it_type it < 2 ^ 31 /\ size32 (it_fmt it) (it_size it) /\
  exists nm, nthN types (it_type it) = Some (mkT nm (it_fmt it) (it_size it)).
Definition logs_variables (s : istmt) : Prop :=
  match s with
  | IVars args => Forall (fun a => va_fmt a <> BLOB) args
  | IBlobs _ => True
  | _ => False
  end.
Definition tables_ok (names : list name) (types : list tdesc) : Prop :=
  Forall nul_free names /\ Forall type_wf types /\ fits names types.

(** Values of a variable of that format and size (see [loggable] of InstrSpec.v). *)
Definition value_ok32 (f : fmt) (size : N) (v : rvalue) : Prop :=
  match f, v with
  | SIGNED, RInt z => (- 2 ^ (8 * Z.of_N size - 1) <= z < 2 ^ (8 * Z.of_N size - 1))%Z
  | UNSIGNED, RInt z => (0 <= z < 2 ^ (8 * Z.of_N size))%Z
  | FLOAT, RFloat b => size = 4 /\ b < 2 ^ 32 /\ ~ signalling b
  | FLOAT, RDouble b => size = 8 /\ b < 2 ^ 64
  | POINTER, RPtr a _ => a < 2 ^ 32
  | BLOB, RPtr _ s | BLOB, RString s => lenN s < 2 ^ 32
  | _, _ => False
  end.

(** The variable [x] of a trace shows that the variable of [it] had the value [v]. *)
Definition item_seen (it : item) (v : rvalue) (x : var) : Prop :=
  v_name x = it_name it /\ v_type x = it_type it /\ v_fmt x = it_fmt it /\
  match it_fmt it, v with
  | SIGNED, RInt z => v_size x = it_size it /\ exists u, v_val x = VBits u /\ u < 2 ^ 64 /\ s64 u = z
  | UNSIGNED, RInt z => v_size x = it_size it /\ v_val x = VBits (Z.to_N z)
  | FLOAT, RFloat b | FLOAT, RDouble b | POINTER, RPtr b _ => v_size x = it_size it /\ v_val x = VBits b
  | BLOB, RPtr _ s | BLOB, RString s => v_size x = lenN s /\ v_val x = VBlob s
  | _, _ => False
  end.

(** The pass leads through a place with id [id] and statements [mid] that log
    variables. *)
Definition place_of (code : list (list istmt)) (e : event) (id : N) (mid : list istmt) : Prop :=
  nth_error code (fst e) = Some (IId id :: mid ++ [IEnd]).
Definition event_ok32 (names : list name) (types : list tdesc) (code : list (list istmt)) (e : event) : Prop :=
  exists id mid, place_of code e id mid /\ id < 2 ^ 64 /\ Forall logs_variables mid /\
    Forall (fun it => item_ok names types it /\ value_ok32 (it_fmt it) (it_size it) (snd e (it_expr it))) (concat (map items mid)).
Definition event_shows32 (code : list (list istmt)) (e : event) (p : point (option N)) : Prop :=
  exists id mid, place_of code e id mid /\ p_stmt p = Some id /\ p_sizes p = [] /\ p_aux p = [] /\
    Forall2 (fun it x => item_seen it (snd e (it_expr it)) x) (concat (map items mid)) (p_vars p).

(** ** Byte order *)

(** The first [n] bytes of a number of [k] bytes in memory, and a number read from such
    bytes; [big]: the most significant byte comes first. *)
Definition in_memory (big : bool) (n k x : N) : list byte :=
  takeN n (if big then rev (le_bytes (N.to_nat k) x) else le_bytes (N.to_nat k) x).
Definition from_memory (big : bool) (bs : list byte) : N := le_val (if big then rev bs else bs).
(** fwrite(&n_types, sizeof(uint32_t), 1, out), line 149; n_types is an unsigned long of
    [long] bytes.  The library reads a uint32_t (Trace.hpp:76). *)
Definition count_written (big : bool) (long n_types : N) : list byte := in_memory big 4 long n_types.
Definition count_read (big : bool) (bs : list byte) : N := from_memory big bs.
