(** Properties C01 - C04: the memory map. *)
From Verif Require Import Base MemMapSpec SkipList MemMapMore.

(** C01.  For every history of 64-bit records (that does not free the sentinel
    address 2^64-1 more often than it was allocated), every sequence of
    random bits, and every address a < 2^64-1: running the records on a new
    map succeeds and computeBufferSize gives the one answer of the specification. *)
Theorem C01_buffer_size_exact : forall coins pos h a,
  records_ok h -> sentinel_safe h -> a < 2 ^ 64 - 1 ->
  exists m r, mm_run coins (mm_new pos) h = Ok m /\ mm_compute m a = Ok r /\
              answer h a r /\ (forall r', answer h a r' -> r' = r).
Proof. exact C01_lemma. Qed.
Print Assumptions C01_buffer_size_exact.

(** The remaining address: 2^64-1 never has a buffer. *)
Theorem C01_top_address : forall m, mm_compute m (2 ^ 64 - 1) = Ok (2 ^ 64 - 1).
Proof. exact C01_top_lemma. Qed.
Print Assumptions C01_top_address.

(** The random levels are invisible. *)
Theorem C01_levels_invisible : forall coins coins' pos pos' h a m m',
  records_ok h -> a < 2 ^ 64 ->
  mm_run coins (mm_new pos) h = Ok m -> mm_run coins' (mm_new pos') h = Ok m' ->
  mm_compute m a = mm_compute m' a.
Proof. exact C01_random_lemma. Qed.
Print Assumptions C01_levels_invisible.

Definition ex_history : history :=
  [(1000, 64); (5000, 16); (1000, 0); (2000, 100); (5000, 32); (2 ^ 64 - 1, 8); (2 ^ 64 - 1, 0); (1000, 8)].

Example C01_hyps : records_ok ex_history /\ sentinel_safe ex_history.
Proof.
  split; [repeat constructor|].
  intros pre post H. unfold ex_history in H.
  do 9 (destruct pre as [|? pre]; [vm_compute; lia | try (injection H as <- H)]).
  discriminate H.
Qed.
Example C01_values : forall coins pos, exists m, mm_run coins (mm_new pos) ex_history = Ok m /\
  mm_compute m 2010 = Ok 90.
Proof.
  intros coins pos. destruct C01_hyps as [Hr Hs].
  apply (C04_lemma coins pos ex_history 2000 100 2010); auto; try (vm_compute; reflexivity).
  - split; [vm_compute; reflexivity|discriminate].
  - intros k v [Hl Hv] Hk. unfold ex_history in Hl. cbn [last_size] in Hl.
    repeat match type of Hl with context [N.eqb ?a k] => destruct (N.eqb_spec a k) end;
      inversion Hl; subst; try congruence; auto; try (left; discriminate); try (right; discriminate).
  - discriminate.
  - left. reflexivity.
Qed.

(** C02.  For every sequence of updateMemoryMap and clear() calls with 64-bit
    arguments that never frees the sentinel address without a preceding
    allocation (since the last clear): all calls succeed (no invalid memory
    access, no endless loop), lookups succeed, and destroying the map frees
    all nodes, each once (a second free is [UB UBadFree] in the model).  In
    the excluded case the map deletes its own head. *)
Theorem C02_memory_safe_no_leak : forall coins pos ops, Forall op_ok ops ->
  (ops_safe ops ->
     exists m, mm_ops_run coins (mm_new pos) ops = Ok m /\
       (forall a, a < 2 ^ 64 -> exists r, mm_compute m a = Ok r) /\
       (exists heap, destruct_map (mm_sl m) = Ok heap /\ forall i, heap i = None)) /\
  (~ ops_safe ops -> mm_ops_run coins (mm_new pos) ops = UB UBadFree).
Proof. exact C02_lemma. Qed.
Print Assumptions C02_memory_safe_no_leak.

(** clear() frees everything and forgets every allocation. *)
Theorem C02_clear_frees_all : forall coins pos ops, Forall op_ok ops -> ops_safe ops ->
  exists m m', mm_ops_run coins (mm_new pos) ops = Ok m /\ mm_clear m = Ok m' /\
    (forall i, sl_heap (mm_sl m') i = None) /\
    (forall a, a < 2 ^ 64 -> mm_compute m' a = Ok (2 ^ 64 - 1)).
Proof. exact clear_frees_lemma. Qed.
Print Assumptions C02_clear_frees_all.

Definition ex_ops : list mm_op :=
  [OpUpdate 16 8; OpUpdate 32 8; OpUpdate 16 0; OpClear; OpUpdate 64 4; OpUpdate 16 0; OpUpdate 32 9].
Example C02_hyps : Forall op_ok ex_ops /\ ops_safe ex_ops.
Proof.
  split; [repeat constructor|].
  intros pre post H. unfold ex_ops in H.
  do 8 (destruct pre as [|? pre]; [intros p q E; unfold since_clear in E; cbn in E;
     repeat (destruct p as [|? p]; [vm_compute; lia | try discriminate E; try (injection E as <- E)])
     | try (injection H as <- H)]).
  discriminate H.
Qed.
Example C02_run : exists m, mm_ops_run (fun n => Nat.even n) (mm_new 0) ex_ops = Ok m /\ mm_compute m 66 = Ok 2.
Proof. eexists. split; vm_compute; reflexivity. Qed.

(** C03 is false: a single record freeing the sentinel address makes the map
    delete its own (non-heap) head node, whatever the random bits. *)
Theorem C03_sentinel_free_harmless_refuted : exists h, records_ok h /\
  forall coins pos, mm_run coins (mm_new pos) h = UB UBadFree.
Proof.
  exists [(2 ^ 64 - 1, 0)]. split; [repeat constructor|]. intros coins pos. reflexivity.
Qed.
Print Assumptions C03_sentinel_free_harmless_refuted.

(** Exactly when this happens. *)
Theorem C03_sentinel_characterised : forall coins pos h, records_ok h ->
  (sentinel_safe h <-> is_ok (mm_run coins (mm_new pos) h) = true) /\
  (~ sentinel_safe h <-> mm_run coins (mm_new pos) h = UB UBadFree).
Proof. exact C03_char_lemma. Qed.
Print Assumptions C03_sentinel_characterised.

(** The true part: as long as nothing crashes, a record for the sentinel
    address changes no answer. *)
Theorem C03_sentinel_records_invisible_partial : forall coins pos h1 h2 s m m' a,
  records_ok (h1 ++ (2 ^ 64 - 1, s) :: h2) -> a < 2 ^ 64 ->
  mm_run coins (mm_new pos) (h1 ++ (2 ^ 64 - 1, s) :: h2) = Ok m ->
  mm_run coins (mm_new pos) (h1 ++ h2) = Ok m' ->
  mm_compute m a = mm_compute m' a.
Proof. exact C03_harmless_lemma. Qed.
Print Assumptions C03_sentinel_records_invisible_partial.

Example C03_hyps : exists m m',
  mm_run (fun _ => true) (mm_new 0) ([(16, 8)] ++ (2 ^ 64 - 1, 5) :: [(32, 8)]) = Ok m /\
  mm_run (fun _ => true) (mm_new 0) ([(16, 8)] ++ [(32, 8)]) = Ok m' /\ mm_compute m 20 = Ok 4.
Proof. do 2 eexists. split; [vm_compute; reflexivity|]. split; vm_compute; reflexivity. Qed.

(** C04.  For an address inside a live allocation [k, k+v) that no other live
    allocation overlaps (or at its end k+v, if no allocation starts there),
    computeBufferSize is the distance to the end. *)
Theorem C04_inside_disjoint : forall coins pos h k v a,
  records_ok h -> sentinel_safe h -> live h k v -> k + v < 2 ^ 64 -> no_overlap h k v ->
  k <= a -> (a < k + v \/ a = k + v /\ a < 2 ^ 64 - 1 /\ (forall w, ~ live h a w)) ->
  exists m, mm_run coins (mm_new pos) h = Ok m /\ mm_compute m a = Ok (k + v - a).
Proof. exact C04_lemma. Qed.
Print Assumptions C04_inside_disjoint.
(* hypotheses met by ex_history: see C01_values, which is an instance *)

(** Without the non-overlap condition the claim is false: an inner allocation
    hides the outer one. *)
Theorem C04_inside_any_refuted : exists h k v a,
  records_ok h /\ live h k v /\ k <= a /\ a < k + v /\ k + v < 2 ^ 64 /\
  forall pos, exists m, mm_run (fun _ => false) (mm_new pos) h = Ok m /\ mm_compute m a = Ok (2 ^ 64 - 1).
Proof.
  exists [(0, 100); (10, 5)], 0, 100, 50.
  split; [repeat constructor|]. split; [split; [reflexivity|discriminate]|].
  split; [discriminate|]. split; [reflexivity|]. split; [reflexivity|].
  intro pos. eexists. split; reflexivity.
Qed.
Print Assumptions C04_inside_any_refuted.
