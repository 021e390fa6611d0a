(** Data classes of the trace database. *)
From Verif Require Import Base.

(** enum type_format, TypeDescription.hpp:28-35 *)
Inductive fmt : Set := UNSIGNED | SIGNED | FLOAT | POINTER | BLOB | INVALID_FORMAT.

Definition fmt_code (f : fmt) : N :=
  match f with
  | UNSIGNED => 0 | SIGNED => 1 | FLOAT => 2 | POINTER => 3 | BLOB => 4 | INVALID_FORMAT => 5
  end.

Definition fmt_eqb (a b : fmt) : bool := fmt_code a =? fmt_code b.

(** Interpretation of the 32-bit word of an enum variable (any value that is
    not an enumerator is treated like INVALID_FORMAT; the only place where
    such a value can arise, TypeDescription::read, rejects it). *)
Definition fmt_of_code (n : N) : fmt :=
  if n =? 0 then UNSIGNED else if n =? 1 then SIGNED else if n =? 2 then FLOAT
  else if n =? 3 then POINTER else if n =? 4 then BLOB else INVALID_FORMAT.

(** class TypeDescription, TypeDescription.hpp:37-47 *)
Record tdesc := mkT { t_name : N; t_fmt : fmt; t_size : N }.

(** class TraceBufferSize, TraceBufferSize.hpp:26-32 *)
Record bufsz := mkB { b_addr : N; b_size : N }.

(** union VarValue, TraceVarInfo.hpp:34-40: 64 bits, or (BLOB) a pointer to
    heap bytes, represented by the bytes pointed to.  [VIndet] is a value with
    indeterminate bytes (a read that was cut short). *)
Inductive value := VBits (u : N) | VBlob (bs : list byte) | VIndet.

(** class TraceVarInfo, TraceVarInfo.hpp:71-77 *)
Record var := mkV {
  v_val : value;
  v_name : N;
  v_type : N;
  v_fmt : fmt;
  v_size : N;
  v_bsz : N;
  v_has : N
}.

(** class TracePoint with its TracePointData, TracePoint.hpp:59-61, 234-236.
    [A] is the type of the statement id: [N], or [option N] directly after
    reading, where [None] is an uninitialised m_statement. *)
Record point (A : Type) := mkP {
  p_counter : N;
  p_stmt : A;
  p_sizes : list bufsz;
  p_vars : list var;
  p_aux : list N
}.
Arguments mkP {A}.
Arguments p_counter {A}.
Arguments p_stmt {A}.
Arguments p_sizes {A}.
Arguments p_vars {A}.
Arguments p_aux {A}.

(** std::string contents of the name dictionary. *)
Definition name := list byte.

(** class Trace, Trace.hpp:40-42 (the memory map is only used while reading,
    the cache is modelled separately). *)
Record trace (A : Type) := mkTr {
  tr_names : list name;
  tr_types : list tdesc;
  tr_points : list (point A)
}.
Arguments mkTr {A}.
Arguments tr_names {A}.
Arguments tr_types {A}.
Arguments tr_points {A}.

Definition map_stmt {A B} (f : A -> B) (p : point A) : point B :=
  mkP (p_counter p) (f (p_stmt p)) (p_sizes p) (p_vars p) (p_aux p).
