(** Specification for the arguments of the logging calls. *)
From Verif Require Import Base Types Instr InstrRun VaArg.

(** Calls whose loop fetches every argument: formats and sizes of the types
    instrument-c-exprs knows. *)
Definition usual (a : vararg) : Prop :=
  match va_fmt a with
  | UNSIGNED | SIGNED => In (va_size a) [1; 2; 4; 8]
  | FLOAT => In (va_size a) [4; 8]
  | POINTER => va_size a = 8
  | BLOB | INVALID_FORMAT => False
  end.

(** The value of the variable is one of the type its format stands for. *)
Definition matches (env : name -> rvalue) (a : vararg) : Prop :=
  match va_fmt a, env (va_expr a) with
  | UNSIGNED, RInt _ | SIGNED, RInt _ | FLOAT, RFloat _ | FLOAT, RDouble _ | POINTER, RPtr _ _ => True
  | _, _ => False
  end.

(** What the standard requires of an argument: small indices, unsigned values
    that are also values of the signed type, and no pointers except to void
    or characters. *)
Definition portable_value (ptr : name -> target) (env : name -> rvalue) (a : vararg) : Prop :=
  match va_fmt a, env (va_expr a) with
  | UNSIGNED, RInt z => (va_size a = 4 -> (z mod 2 ^ 32 < 2 ^ 31)%Z) /\ (va_size a = 8 -> (z mod 2 ^ 64 < 2 ^ 63)%Z)
  | POINTER, _ => ptr (va_expr a) <> POther
  | _, _ => True
  end.
Definition portable (ptr : name -> target) (env : name -> rvalue) (a : vararg) : Prop :=
  va_name a < 2 ^ 31 /\ va_type a < 2 ^ 31 /\ portable_value ptr env a.

Definition short_string (env : name -> rvalue) (a : blobarg) : Prop :=
  match env (ba_expr a) with RPtr _ s | RString s => lenN s < 2 ^ 32 | _ => False end.
Definition portable_blob (ptr : name -> target) (env : name -> rvalue) (a : blobarg) : Prop :=
  ba_name a < 2 ^ 31 /\ ba_type a < 2 ^ 31 /\
  match env (ba_expr a) with RPtr _ _ => ptr (ba_expr a) <> POther | _ => True end.
