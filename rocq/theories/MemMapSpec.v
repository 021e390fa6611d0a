(** Specification of the memory map, independent of its implementation.

    A history is the list of (address, size) records in the order in which
    they were reported; a record of size 0 reports that the allocation at that
    address was freed. *)
From Verif Require Import Base.

Definition history := list (N * N).

(** Size in the last record of [h] for address [k]. *)
Fixpoint last_size (h : history) (k : N) : option N :=
  match h with
  | [] => None
  | (a, s) :: r =>
      match last_size r k with
      | Some x => Some x
      | None => if a =? k then Some s else None
      end
  end.

(** An allocation of [v] > 0 bytes at [k] is live after [h]. *)
Definition live (h : history) (k v : N) : Prop :=
  last_size h k = Some v /\ v <> 0.

(** [k], [v]: the live allocation with the greatest start address <= [a]. *)
Definition nearest (h : history) (a k v : N) : Prop :=
  live h k v /\ k <= a /\ (forall k' v', live h k' v' -> k' <= a -> k' <= k).

(** The answer computeBufferSize has to give for address [a]: the distance to
    the end of the nearest live allocation if [a] is not beyond that end (end
    addresses wrap at 2^64), and UINT64_MAX otherwise. *)
Inductive answer (h : history) (a : N) : N -> Prop :=
| ans_inside : forall k v, nearest h a k v ->
    a <= (k + v) mod 2 ^ 64 -> answer h a ((k + v) mod 2 ^ 64 - a)
| ans_beyond : forall k v, nearest h a k v ->
    (k + v) mod 2 ^ 64 < a -> answer h a (2 ^ 64 - 1)
| ans_none : (forall k v, live h k v -> k <= a -> False) ->
    answer h a (2 ^ 64 - 1).

(** Records are pairs of 64-bit numbers. *)
Definition records_ok (h : history) : Prop :=
  Forall (fun r => fst r < 2 ^ 64 /\ snd r < 2 ^ 64) h.

(** Number of allocations / frees of the sentinel address 2^64-1. *)
Definition sentinel_allocs (h : history) : nat :=
  length (filter (fun r => (fst r =? 2 ^ 64 - 1) && negb (snd r =? 0)) h).
Definition sentinel_frees (h : history) : nat :=
  length (filter (fun r => (fst r =? 2 ^ 64 - 1) && (snd r =? 0)) h).

(** In no prefix of [h] is the sentinel address freed more often than it was
    allocated. *)
Definition sentinel_safe (h : history) : Prop :=
  forall pre post, h = pre ++ post ->
    (sentinel_frees pre <= sentinel_allocs pre)%nat.
