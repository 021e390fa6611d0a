(** Model of the binary trace writer (operator<< of the data classes).  The
    output stream is modelled as the bytes written; write errors (a failed
    ostream silently drops bytes) are not modelled. *)
From Verif Require Import Base Types.

(** TraceVarInfo::write, TraceVarInfo.hpp:187-279: the value part.
    [VarValue] members .u/.s/.f/.d share their bits, so the narrowing
    conversions of lines 194-245 and the float/double copies of lines 249-258
    write the low bytes of the 64-bit word. *)
Definition write_value (f : fmt) (size : N) (v : value) : outcome (list byte) :=
  match f, v with
  | _, VIndet => UB UUninit
  | (UNSIGNED | SIGNED), VBits u =>
      if size =? 1 then Ok (le_bytes 1 u)
      else if size =? 2 then Ok (le_bytes 2 u)
      else if size =? 4 then Ok (le_bytes 4 u)
      else if size =? 8 then Ok (le_bytes 8 u)
      else Ok []
  | FLOAT, VBits u => if size =? 4 then Ok (le_bytes 4 u) else Ok (le_bytes 8 u)
  | POINTER, VBits u => Ok (le_bytes 8 u)
  | BLOB, VBlob bs =>
      if size <=? lenN bs then Ok (le_bytes 4 size ++ takeN size bs) else UB UOob
  | INVALID_FORMAT, _ => Ok []
  | BLOB, VBits _ => UB UOob             (* integer used as pointer *)
  | (UNSIGNED | SIGNED | FLOAT | POINTER), VBlob _ => UB UOob   (* not a value of this format *)
  end.

Definition write_var (v : var) : outcome (list byte) :=
  bs <- write_value (v_fmt v) (v_size v) (v_val v) ;;
  Ok (le_bytes 4 (v_name v) ++ le_bytes 4 (v_type v) ++ bs).

(** TraceBufferSize::write, TraceBufferSize.hpp:44-48. *)
Definition write_bufsz (b : bufsz) : list byte := le_bytes 8 (b_addr b) ++ le_bytes 8 (b_size b).

Fixpoint write_vars (vs : list var) : outcome (list byte) :=
  match vs with
  | [] => Ok []
  | v :: r => bs <- write_var v ;; rest <- write_vars r ;; Ok (x02 :: bs ++ rest)
  end.

(** TracePoint::write, TracePoint.hpp:313-334. *)
Definition write_point (p : point N) : outcome (list byte) :=
  vs <- write_vars (p_vars p) ;;
  Ok (x01 :: le_bytes 8 (p_stmt p) ++
      concat (map (fun b => x03 :: write_bufsz b) (p_sizes p)) ++
      vs ++
      concat (map (fun a => x04 :: le_bytes 8 a) (p_aux p)) ++ [x00]).

(** TypeDescription::write, TypeDescription.hpp:75-81. *)
Definition write_type (t : tdesc) : list byte :=
  le_bytes 4 (t_name t) ++ le_bytes 4 (fmt_code (t_fmt t)) ++ le_bytes 4 (t_size t).

Fixpoint write_points (ps : list (point N)) : outcome (list byte) :=
  match ps with
  | [] => Ok []
  | p :: r => bs <- write_point p ;; rest <- write_points r ;; Ok (bs ++ rest)
  end.

(** Trace::write, Trace.hpp:100-123.  n_chars is the sum of length()+1 (the
    conversions to uint64_t / uint32_t are those of [le_bytes]). *)
Definition write_trace (tr : trace N) : outcome (list byte) :=
  ps <- write_points (tr_points tr) ;;
  Ok (le_bytes 8 (fold_left (fun n s => n + (lenN s + 1)) (tr_names tr) 0) ++
      concat (map (fun s => s ++ [x00]) (tr_names tr)) ++
      le_bytes 4 (lenN (tr_types tr)) ++
      concat (map write_type (tr_types tr)) ++ ps).
