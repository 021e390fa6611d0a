(** Specification of C100: calls of the functions in the text, as the
    instrumented program makes them. *)
From Coq Require Import Strings.String.
From Verif Require Import Base Types PrintPred Instr InstrRun InstrSpec VaArg CParse CSem.

(** Names as const char *[]: each ends with a NUL.  Types as an array of
    struct __trace_type_description. *)
Definition names_in_memory (names : list name) : cval := VNames (map (fun n => n ++ [x00]) names).
Definition type_in_memory (file : cfile) (t : tdesc) (bs : list byte) : Prop :=
  exists ms ws, members (text "__trace_type_description") (c_structs file) = Some ms /\
    convert_all ms [VI (Z.of_N (t_name t)); VI (Z.of_N (fmt_code (t_fmt t))); VI (Z.of_N (t_size t))] = Ok ws /\
    struct_bytes ws 0 = Ok bs.
Definition types_in_memory (file : cfile) (types : list tdesc) (bs : list byte) : Prop :=
  exists l, Forall2 (type_in_memory file) types l /\ bs = List.concat l.

(** va_arg delivers ints of 32 bits. *)
Definition delivers_ints {St : Type} (next : aty -> St -> outcome (N * list byte * St)) : Prop :=
  forall y st b m st', next y st = Ok (b, m, st') -> y = TInt \/ y = TUInt -> b < 2 ^ 32.

(** The inserted statements as calls of the functions in the text, with
    arguments passed as in VaArg.v; loops run for up to [fuel] rounds. *)
Definition run_stmt_text (file : cfile) (fuel : nat) (junk : nat -> N) (env : name -> rvalue) (s : istmt) : outcome (list action) :=
  let call f args st := call_fun va_list va_arg fuel file (text f) args st in
  let nothing := va_start ([], [], []) in
  match s with
  | IId id => call "__write_trace_id"%string [VOut; VLock; VI (Z.of_N id)] nothing
  | IVars args => l <- mapA (var_args TULong (fun _ => POther) env) args ;;
                  call "__write_trace_variables"%string [VOut; VI (Z.of_N (lenN args))] (va_start (place junk 4 8 l))
  | IBlobs args => l <- mapA (blob_args TULong (fun _ => PChar) env) args ;;
                   call "__write_trace_blobs"%string [VOut; VI (Z.of_N (lenN args))] (va_start (place junk 4 8 l))
  | IEnd => call "__write_end_entry"%string [VOut; VLock] nothing
  end.
Fixpoint run_stmts_text (file : cfile) (fuel : nat) (junk : nat -> nat -> N) (env : name -> rvalue) (l : list istmt) : outcome (list action) :=
  match l with
  | [] => Ok []
  | s :: r => a <- run_stmt_text file fuel (junk O) env s ;; b <- run_stmts_text file fuel (fun k => junk (S k)) env r ;; Ok (a ++ b)
  end.
Definition event_run_text (file : cfile) (fuel : nat) (junk : nat -> nat -> N) (code : list (list istmt)) (e : nat * (name -> rvalue)) : outcome (list action) :=
  match nth_error code (fst e) with Some c => run_stmts_text file fuel junk (snd e) c | None => UB UOob end.

(** At most 2^32 - 1 variables are logged together. *)
Definition sites_fit (fuel : nat) (sites : list site) : Prop :=
  Forall (fun s => fst s < 2 ^ 64 /\ Forall (fun g => lenN (snd g) < 2 ^ 32 /\ (List.length (snd g) < fuel)%nat) (snd s)) sites.
