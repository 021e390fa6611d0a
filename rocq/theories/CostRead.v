(** A memory map for the reader that refuses to work too much: it counts the
    buffer sizes recorded, and stops the program as soon as a record takes
    more than twice as many comparisons plus 65, or a lookup more than that
    many plus 32.  Otherwise it is the map of the code (Trace.hpp:44). *)
From Verif Require Import Base SkipList Cost Reader.

Definition limited_update (coins : nat -> bool) (st : memory_map * nat) (a s : N) : outcome (memory_map * nat) :=
  ' (m, n) <- mm_update_n coins (fst st) a s ;;
  if Nat.leb n (2 * snd st + 65) then Ok (m, S (snd st)) else Abort.
Definition limited_compute (st : memory_map * nat) (a : N) : outcome N :=
  ' (r, n) <- mm_compute_n (fst st) a ;;
  if Nat.leb n (snd st + 32) then Ok r else Abort.
Definition limited_map (coins : nat -> bool) (pos : nat) : map_ops :=
  mkMapOps (memory_map * nat) (mm_new pos, 0%nat) (limited_update coins) limited_compute.
