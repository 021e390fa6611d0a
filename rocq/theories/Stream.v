(** Model of the std::istream operations used by the reader. *)
From Verif Require Import Base.

(** What happens when the underlying device has no more bytes: end of file,
    or a read error (then the stream gets badbit and eof() stays false). *)
Inductive tail_kind := TailEof | TailError.

Record istream := mkS {
  s_rest : list byte;     (* bytes still to be delivered *)
  s_tail : tail_kind;
  s_eof : bool;
  s_fail : bool           (* failbit or badbit *)
}.

Definition open_stream (bs : list byte) (t : tail_kind) : istream := mkS bs t false false.

Definition good (s : istream) : bool := negb (s_eof s) && negb (s_fail s).

(** stream.read(ptr, n) on a good stream: the bytes stored and the new state. *)
Definition s_read (n : N) (s : istream) : list byte * istream :=
  let d := takeN n (s_rest s) in
  if lenN d <? n then
    (d, mkS [] (s_tail s) (match s_tail s with TailEof => true | TailError => s_eof s end) true)
  else (d, mkS (dropN n (s_rest s)) (s_tail s) (s_eof s) (s_fail s)).

(** BINARY_READ, Utils.hpp:20-31: the bytes stored at the start of the
    destination (fewer than n after a short read). *)
Definition binary_read (n : N) (s : istream) : outcome (list byte * istream) :=
  if negb (good s) then
    (if s_eof s then Throw EEof else Throw EBadState)
  else Ok (s_read n s).

(** BINARY_READ into memory that holds [old]: the bytes read overwrite the
    front of [old]. *)
Definition binary_read_into (old : list byte) (s : istream) : outcome (list byte * istream) :=
  '(d, s') <- binary_read (lenN old) s ;;
  Ok (d ++ dropN (lenN d) old, s').

(** BINARY_READ into a word of n bytes that holds [old]. *)
Definition read_word (n : nat) (old : N) (s : istream) : outcome (N * istream) :=
  '(bs, s') <- binary_read_into (le_bytes n old) s ;;
  Ok (le_val bs, s').
