(** Property C108: the work of the memory map.  The functions that end in _n
    (Cost.v) are those of the map (SkipList.v) with a count of the comparisons
    of addresses they make. *)
From Verif Require Import Base MemMapSpec SkipList MemMapMore Types Stream FormatSpec Reader ReaderProps P_Reader Cost CostProofs CostRead CostReadProofs.

(** The counting functions do what the functions of the map do. *)
Theorem C108_same : forall coins,
  (forall m a, mm_compute m a = (' (r, _) <- mm_compute_n m a ;; Ok r)) /\
  (forall m a s, mm_update coins m a s = (' (m', _) <- mm_update_n coins m a s ;; Ok m')) /\
  (forall m h, mm_run coins m h = (' (m', _) <- mm_run_n coins m h ;; Ok m')).
Proof.
  intro coins. split; [|split]; intros; symmetry; [apply mm_compute_erase|apply mm_update_erase|apply mm_run_erase].
Qed.
Print Assumptions C108_same.

(** After any history and whatever random numbers were drawn, looking up an
    address compares it at most once with each live allocation that starts at
    or below it, and at most 32 times more ([l]: any list that contains the
    addresses of these allocations). *)
Theorem C108_lookup : forall coins pos h m, records_ok h -> mm_run coins (mm_new pos) h = Ok m ->
  forall a l, a < 2 ^ 64 -> (forall k v, live h k v -> k <= a -> In k l) ->
  exists r n, mm_compute_n m a = Ok (r, n) /\ mm_compute m a = Ok r /\ (n <= length l + 32)%nat.
Proof. exact lookup_lemma. Qed.
Print Assumptions C108_lookup.

(** Recording that an allocation was freed takes at most one comparison more,
    and recording an allocation at most twice as many (it looks the address up
    and then searches again for the place of insertion), and one. *)
Theorem C108_record : forall coins pos h m, records_ok h -> mm_run coins (mm_new pos) h = Ok m ->
  forall a s m' l, a < 2 ^ 64 -> (forall k v, live h k v -> k <= a -> In k l) -> mm_update coins m a s = Ok m' ->
  exists n, mm_update_n coins m a s = Ok (m', n) /\
    (n <= if (s =? 0)%N then length l + 33 else 2 * length l + 65)%nat.
Proof. exact record_lemma. Qed.
Print Assumptions C108_record.

(** A whole history costs at most a quadratic number of comparisons. *)
Theorem C108_history : forall coins pos h, records_ok h -> sentinel_safe h ->
  exists m n, mm_run_n coins (mm_new pos) h = Ok (m, n) /\ mm_run coins (mm_new pos) h = Ok m /\
    (n <= length h * (2 * length h + 65))%nat.
Proof. exact run_lemma. Qed.
Print Assumptions C108_history.

(** So no operation made while any bytes are read, accepted or not, takes more
    comparisons than a linear number in the buffer sizes read before: a map
    that stops the program in that case (CostRead.v) makes no difference. *)
Theorem C108_reading : forall ok coins pos t max bs,
  read_trace ok (limited_map coins pos) max (open_stream bs t) = read_trace ok (skip_map coins pos) max (open_stream bs t) /\
  read_trace ok (limited_map coins pos) max (open_stream bs t) <> Abort.
Proof. intros. rewrite limited_lemma. split; [reflexivity|]. apply read_total. Qed.
Print Assumptions C108_reading.
(** The limited map does stop in other states, and the file of C05 with its
    buffer sizes and pointers is read with it. *)
Example C108_limit : exists m, mm_run (fun _ => false) (mm_new 0) (map (fun k => (N.of_nat k, 1)) (seq 1 40)) = Ok m /\
  limited_compute (m, 0%nat) 50 = Abort /\ limited_update (fun _ => false) (m, 0%nat) 50 8 = Abort /\
  exists r, limited_compute (m, 40%nat) 50 = Ok r.
Proof.
  eexists. split; [vm_compute; reflexivity|]. split; [vm_compute; reflexivity|]. split; [vm_compute; reflexivity|].
  eexists. vm_compute. reflexivity.
Qed.
Example C108_file : forall coins pos t,
  read_trace (fun _ => true) (limited_map coins pos) 0 (open_stream (enc_file ex_file) t) = Ok ex_trace.
Proof. intros. rewrite limited_lemma. apply ex_read. Qed.

(** No better bound holds for all random numbers: there are draws with which n
    allocations make a lookup take n + 1 comparisons. *)
Theorem C108_logarithmic_refuted : forall n, N.of_nat n < 2 ^ 64 - 1 -> exists coins h m r,
  length h = n /\ records_ok h /\ mm_run coins (mm_new 0) h = Ok m /\ mm_compute_n m (2 ^ 64 - 2) = Ok (r, S n).
Proof.
  intros n Hn. destruct (linear_lemma n Hn) as (m & r & H1 & H2). exists unlucky, (ones n), m, r.
  split; [unfold ones; rewrite map_length, seq_length; reflexivity|]. split; [apply ones_ok; exact Hn|]. auto.
Qed.
Print Assumptions C108_logarithmic_refuted.

(** With lucky draws fewer comparisons than allocations suffice: with eight
    allocations, looking up an address in the last one takes 5 comparisons
    with the draws [lucky], and 9 without higher levels. *)
Definition lucky : nat -> bool := fun i => existsb (Nat.eqb i) [1; 4; 5; 8; 11; 12]%nat.
Definition eight : history := map (fun k => (k * 16, 8)) [1; 2; 3; 4; 5; 6; 7; 8].
Example C108_ex : exists m m',
  mm_run lucky (mm_new 0) eight = Ok m /\ mm_run (fun _ => false) (mm_new 0) eight = Ok m' /\
  mm_compute_n m 130 = Ok (6, 5%nat) /\ mm_compute_n m' 130 = Ok (6, 9%nat).
Proof. do 2 eexists. split; [vm_compute; reflexivity|]. split; [vm_compute; reflexivity|]. split; vm_compute; reflexivity. Qed.
Example C108_hyps : records_ok eight /\ sentinel_safe eight /\ (forall k v, live eight k v -> k <= 40 -> In k [16; 32]).
Proof.
  split; [repeat constructor|]. split.
  - intros pre post H. unfold eight in H. cbn [map] in H.
    do 9 (destruct pre as [|? pre]; [vm_compute; lia | try (injection H as <- H)]). discriminate H.
  - intros k v [H _] Hk. apply last_size_in in H. cbn in H. cbn. intuition lia.
Qed.
