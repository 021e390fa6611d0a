(** Specification: how much memory reading a trace takes, relative to the size of the
    file.  The requests whose size is read from the file are those of Reader.v and
    Ledger.v: the buffer of the names (Trace.hpp:61), the types (Trace.hpp:77) and the
    blobs (TraceVarInfo.hpp:170-175). *)
From Verif Require Import Base Types Stream Reader FormatSpec Ledger LedgerSpec.

(** An allocator that delivers every block of at most [k] bytes (and maybe others). *)
Definition delivers (ok : alloc) (k : N) : Prop := forall n, n <= k -> ok n = true.
Definition unlimited : alloc := fun _ => true.
Definition up_to (k : N) : alloc := fun n => n <=? k.

Fixpoint total (l : list N) : N := match l with [] => 0 | x :: r => x + total r end.

(** What a trace holds: one unit for each point, and the bytes that each name, type,
    variable, size and auxiliary value takes in a file. *)
Definition point_weight {S} (p : point S) : N :=
  1 + 17 * lenN (p_sizes p) + 9 * lenN (p_aux p) + total (map (fun v => 9 + v_size v) (p_vars p)).
Definition weight {S} (tr : trace S) : N :=
  lenN (name_chars (tr_names tr)) + 12 * lenN (tr_types tr) + total (map point_weight (tr_points tr)).

(** Bytes of the blocks whose size is read from a file. *)
Definition block_bytes (b : block) : N := match b with BChars n | BBlob n => n | _ => 0 end.
Definition bytes_of (bs : list block) : N := total (map block_bytes bs).

Definition file_size (f : N * source) : N := match snd f with Some (bs, _) => lenN bs | None => 0 end.
Definition accepted_file (ok : alloc) (M : map_ops) (f : N * source) : Prop :=
  match snd f with
  | Some (bs, t) => exists tr, read_trace ok M (fst f) (open_stream bs t) = Ok tr
  | None => True
  end.
