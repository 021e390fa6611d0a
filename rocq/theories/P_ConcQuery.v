(** C84: queries by several threads. *)
From Verif Require Import Base Types Compare Predicate Query QuerySpec ConcQuery ConcQuerySpec ConcQueryProofs ConcQueryProofs2.

(** ** While one thread makes an entry of the cache, no other makes or reads it *)

(** Every query that has returned has returned what it returns alone; none is
    undefined; a query that gets 2 n + 6 steps on a trace of n points returns;
    and the cache is good for later queries. *)
Theorem C84_calm : forall grow points ok pick O sh cs sched sh' ts,
  cache_good points sh -> calm grow points ok pick O sched (qstart sh cs) ->
  qexec grow points ok pick O sched (qstart sh cs) = (sh', ts) ->
  map fst ts = cs /\
  (forall i c u, nth_error ts i <> Some (c, QCrash u)) /\
  (forall i c o, nth_error ts i = Some (c, QDone o) -> o = alone ok pick O points c) /\
  (forall i c, nth_error cs i = Some c ->
     (2 * length (points (fst c)) + 6 <= count_occ Nat.eq_dec sched i)%nat ->
     nth_error ts i = Some (c, QDone (alone ok pick O points c))) /\
  ((forall i c s, nth_error ts i = Some (c, s) -> ~ making s) -> cache_good points sh').
Proof.
  intros grow points ok pick O sh cs sched sh' ts CG CA X.
  pose proof (start_inv points ok pick O sh cs CG) as I0.
  pose proof (exec_inv grow points ok pick O sched _ I0 CA) as I1. rewrite X in I1.
  assert (DN : forall i c o, nth_error ts i = Some (c, QDone o) -> o = alone ok pick O points c).
  { intros i c o Hi. exact (proj1 (proj2 I1) _ _ _ Hi). }
  split; [|split; [|split; [exact DN|split]]].
  - pose proof (qexec_calls grow points ok pick O sched (qstart sh cs)) as E. rewrite X in E. rewrite start_calls in E. exact E.
  - intros i c u Hi. exact (proj1 (proj2 I1) _ _ _ Hi).
  - intros i c Hc HL. destruct (left_run grow points ok pick O i sched (qstart sh cs) c QFind I0 CA) as (o & Ho).
    + unfold qstart. cbn. rewrite nth_error_map, Hc. reflexivity.
    + cbn. lia.
    + rewrite X in Ho. cbn in Ho. rewrite Ho. rewrite (DN _ _ _ Ho). reflexivity.
  - apply (inv_cache_good points ok pick O). exact I1.
Qed.
Print Assumptions C84_calm.

(** Such are all schedules, if no two calls ask for the same points (trace,
    mask and statement) unless the cache has them. *)
Theorem C84_separate : forall grow points ok pick O sh cs sched,
  separate sh cs -> calm grow points ok pick O sched (qstart sh cs).
Proof. intros. apply separate_calm. assumption. Qed.
Print Assumptions C84_separate.

(** ** Otherwise *)

(** Two queries of the same points that are not in the cache: for all traces
    and arguments the second may find nothing. *)
Theorem C84_lost_refuted : forall grow points ok pick O sh c d,
  map_find (cs_map sh) (key_of c) = None -> key_of c = key_of d ->
  exists sched sh' s, qexec grow points ok pick O sched (qstart sh [c; d]) = (sh', [(c, s); (d, QDone (Ok []))]).
Proof. intros. eexists. apply lost_lemma; assumption. Qed.
Print Assumptions C84_lost_refuted.

(** For all traces and arguments both may return what they return on a trace
    that has each point twice, and so do all later queries of these points. *)
Theorem C84_doubled_refuted : forall grow points ok pick O sh c d,
  cache_good points sh -> map_find (cs_map sh) (key_of c) = None -> key_of c = key_of d ->
  exists sched sh',
    qexec grow points ok pick O sched (qstart sh [c; d]) =
      (sh', [(c, QDone (alone ok pick O (fun t => points t ++ points t) c));
             (d, QDone (alone ok pick O (fun t => points t ++ points t) d))]) /\
    forall e, key_of e = key_of c -> exists later,
      qexec grow points ok pick O later (qstart sh' [e]) =
        (sh', [(e, QDone (alone ok pick O (fun t => points t ++ points t) e))]).
Proof.
  intros grow points ok pick O sh c d CG F E.
  destruct (doubled_lemma grow points ok pick O sh c d (good_of_cache points ok pick O sh CG) F E) as (sched & sh' & X & H).
  exists sched, sh'. split; [exact X|]. intros e Ee. rewrite <- Ee in H.
  eexists. rewrite (later_lemma grow points ok pick O sh' e _ H). rewrite alone_twice.
  rewrite (selected_key points c e (eq_sym Ee)). reflexivity.
Qed.
Print Assumptions C84_doubled_refuted.

(** If there is a point to find, a query may read memory that was freed. *)
Theorem C84_dangling_refuted : forall grow points ok pick O sh c d,
  cache_good points sh -> map_find (cs_map sh) (key_of c) = None -> key_of c = key_of d -> selected points c <> [] ->
  exists sched sh' s, qexec grow points ok pick O sched (qstart sh [c; d]) = (sh', [(c, QCrash UDangling); (d, s)]).
Proof.
  intros. eapply dangling_lemma; eauto. eapply good_of_cache; eauto. Unshelve. all: assumption.
Qed.
Print Assumptions C84_dangling_refuted.

(** ** Examples *)
Definition cq_p (n stmt : N) : pt := mkP n stmt [] [mkV (VBits n) 0 0 UNSIGNED 4 0 0] [].
Definition cq_points (t : nat) : list pt :=
  match t with
  | O => [cq_p 0 7; cq_p 1 8; cq_p 2 7]
  | _ => [cq_p 3 7]
  end.
Definition cq_all : qargs := mkQ [[0]] (Pred NULL_PREDICATE 0 []) [] 0 255 7.
Definition cq_grow (n : nat) : nat := (n + n + 1)%nat.
Definition cq_none : cshared := mkCS [] [].

Example C84_ex_cache : cache_good cq_points cq_none.
Proof. split; [intros c v H; discriminate|intros k k' v v' H; discriminate]. Qed.
(** the same arguments on two traces *)
Example C84_ex_separate : separate cq_none [(0%nat, cq_all); (1%nat, cq_all)].
Proof.
  intros i j c d Hi Hj N E. destruct i as [|[|i]], j as [|[|j]]; cbn in *; try discriminate; try lia;
    try (rewrite nth_error_nil in *; discriminate); try congruence; try (destruct i; discriminate); try (destruct j; discriminate).
  - injection Hi as <-. injection Hj as <-. discriminate.
  - injection Hi as <-. injection Hj as <-. discriminate.
Qed.
Example C84_ex_run : forall O, exists sh',
  qexec cq_grow cq_points (fun _ => true) (fun _ _ => 0) O (List.concat (repeat [0; 1; 0] 12))%nat (qstart cq_none [(0%nat, cq_all); (1%nat, cq_all)]) =
    (sh', [((0%nat, cq_all), QDone (Ok [cq_p 0 7; cq_p 2 7])); ((1%nat, cq_all), QDone (Ok [cq_p 3 7]))]).
Proof. intros. eexists. vm_compute. reflexivity. Qed.
Example C84_ex_alone : forall O, alone (fun _ => true) (fun _ _ => 0) O cq_points (0%nat, cq_all) = Ok [cq_p 0 7; cq_p 2 7] /\
  alone (fun _ => true) (fun _ _ => 0) O (fun t => cq_points t ++ cq_points t) (0%nat, cq_all) =
    Ok [cq_p 0 7; cq_p 2 7; cq_p 0 7; cq_p 2 7] /\
  selected cq_points (0%nat, cq_all) <> [].
Proof. intros. vm_compute. repeat split; discriminate. Qed.
(** a thread that makes the entry, with another that starts when it is made *)
Example C84_ex_calm : forall O, calm cq_grow cq_points (fun _ => true) (fun _ _ => 0) O (repeat 0 6 ++ repeat 1 6)%nat (qstart cq_none [(0%nat, cq_all); (0%nat, cq_all)]).
Proof.
  intros. cbn -[calm_now].
  repeat match goal with |- _ /\ _ => split end; try exact I;
    intros i j c d s t Hi Hj N E M; cbn in Hi, Hj;
    destruct i as [|[|i]]; cbn in Hi; try (destruct i; discriminate Hi);
    destruct j as [|[|j]]; cbn in Hj; try (destruct j; discriminate Hj); try (exfalso; apply N; reflexivity);
    injection Hi as <- <-; injection Hj as <- <-;
    destruct M as [M|(r & M)]; try discriminate M;
    split; intros [X|X]; try discriminate X; try (destruct X as (? & X); try discriminate X; destruct X as (? & ? & ? & X); discriminate X).
Qed.
