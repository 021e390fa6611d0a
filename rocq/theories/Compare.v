(** Equality, ordering and hashing of the data classes. *)
From Verif Require Import Base Types.

Definition bytes_eqb (a b : list byte) : bool :=
  if list_eq_dec byte_eq_dec a b then true else false.

(** The part of the 64-bit value that TraceVarInfo::operator== and hash_value
    look at: (uintN_t) m_value.u, TraceVarInfo.hpp:416-431, 449-460. *)
Definition trunc (size u : N) : N :=
  if size =? 1 then u mod two8
  else if size =? 2 then u mod 65536
  else if size =? 4 then u mod two32
  else u.

(** TraceVarInfo::operator==, TraceVarInfo.hpp:400-435.  A blob's value is its
    bytes, as many as m_size says (Trace reading guarantees this, property
    C11), so memcmp of m_size bytes is equality of the bytes.  Indeterminate
    values do not occur in accepted traces (C11) and are unequal to anything. *)
Definition val_eqb (size : N) (a b : value) : bool :=
  match a, b with
  | VBlob x, VBlob y => bytes_eqb x y
  | VBits u, VBits w => trunc size u =? trunc size w
  | _, _ => false
  end.

Definition var_eqb (a b : var) : bool :=
  (v_name a =? v_name b) && (v_type a =? v_type b) && fmt_eqb (v_fmt a) (v_fmt b) &&
  (v_size a =? v_size b) && (v_bsz a =? v_bsz b) && (v_has a =? v_has b) &&
  val_eqb (v_size a) (v_val a) (v_val b).
