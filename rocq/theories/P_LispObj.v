(** C74 and C75: the Lisp objects that stand for databases. *)
From Verif Require Import Base Types CApi CApiSpec Archive ArchiveSpec LispObj LispObjSpec LispObjProofs LispObjProofs2 LispObjProofs3.
Local Open Scope nat_scope.

(** C74.  However a program makes, restricts, uses, stores, restores and drops
    database objects, and whenever the collector runs, no operation on an object the
    program holds touches a freed database and no finalizer frees one twice: every
    operation answers, except that a bad text ends the process.  (For collectors
    where finalizers keep their objects and for those where they do not.) *)
Theorem C74_safe : forall A ok ver grow strong (l : list (op A * result A)) w c, (forall n, ok n = true) ->
  run strong ok ver grow empty_world l w -> allowed strong w c ->
  (exists r w', exec ok ver grow w c = Ok (r, w')) \/
  (exec ok ver grow w c = Abort /\ exists b t m, c = ORestore (SDb (b :: t) m) /\ deserialize_trace_db ok ver (b :: t) = Abort).
Proof. intros A ok ver grow strong l w c Hok. exact (run_safe ok ver grow Hok strong l w c). Qed.
Print Assumptions C74_safe.

(** Held objects, and those they refer to, have their database. *)
Theorem C74_alive : forall A ok ver grow strong (l : list (op A * result A)) w i, (forall n, ok n = true) ->
  run strong ok ver grow empty_world l w -> reachable strong w i -> exists ts ms, seen w i ts ms.
Proof. intros A ok ver grow strong l w i Hok. exact (run_seen ok ver grow Hok strong l w i). Qed.
Print Assumptions C74_alive.

(** Since the finalizer refers to its object, the object always is reachable: no
    database is ever freed, whatever the program drops. *)
Theorem C74_kept : forall A ok ver grow (l : list (op A * result A)) w, (forall n, ok n = true) ->
  run true ok ver grow empty_world l w -> length (live w) = makes l.
Proof. intros A ok ver grow l w Hok. exact (strong_kept ok ver grow Hok l w). Qed.
Print Assumptions C74_kept.

(** So it is false that dropping databases releases their memory: a program can
    have any number of them allocated without holding an object, and no collection
    changes that. *)
Theorem C74_release_refuted : forall A ok ver grow, (forall n, ok n = true) ->
  forall n, exists (l : list (op A * result A)) w, run true ok ver grow empty_world l w /\ w_roots w = [] /\
    forall l' w', Forall (fun x => exists d, fst x = OCollect d) l' -> run true ok ver grow w l' w' -> length (live w') = n.
Proof. intros A ok ver grow Hok. exact (leak ok ver grow Hok). Qed.
Print Assumptions C74_release_refuted.

(** With a finalizer that does not keep its object, a collection would release
    exactly the databases that were not restored from a text... *)
Theorem C74_weak : forall A ok ver grow (l : list (op A * result A)) w, (forall n, ok n = true) ->
  run false ok ver grow empty_world l w -> w_roots w = [] ->
  exists dead w', allowed false w (OCollect dead) /\ exec ok ver grow w (OCollect dead) = Ok (RUnit, w') /\ length (live w') = restores l.
Proof. intros A ok ver grow l w Hok. exact (weak_released ok ver grow Hok l w). Qed.
Print Assumptions C74_weak.

(** ...because no object that was restored has a finalizer: its database stays
    allocated with either collector, as does the text of every store. *)
Theorem C74_restored_kept : forall A ok ver grow strong (l : list (op A * result A)) w, (forall n, ok n = true) ->
  run strong ok ver grow empty_world l w -> restores l <= length (live w) /\ w_texts w = texts l.
Proof.
  intros A ok ver grow strong l w Hok R. split; [exact (restored_kept ok ver grow Hok strong l w R)|exact (texts_kept ok ver grow Hok strong l w R)].
Qed.
Print Assumptions C74_restored_kept.

(** C75.  Storing an object that was made, not restricted, and restoring it - in any
    later state, or in another process - gives a new object with the same traces and
    metadata that shares its database with no other object. *)
Theorem C75_restored : forall A ok ver grow strong (l : list (op A * result A)) w i ts ms,
  (forall n, ok n = true) -> (ver < 2 ^ 16)%N ->
  run strong ok ver grow empty_world l w -> In i (w_roots w) -> based w i i -> seen w i ts ms -> storable ts ->
  exists s w1, exec ok ver grow w (OStore i) = Ok (RStored s, w1) /\
  forall strong' l' w2, run strong' ok ver grow empty_world l' w2 ->
    exists j w3, exec ok ver grow w2 (ORestore s) = Ok (RObj j, w3) /\ w_roots w3 = j :: w_roots w2 /\ seen w3 j ts ms /\
      forall k, In k (w_roots w2) -> ~ family w3 j k.
Proof. intros A ok ver grow strong l w i ts ms Hok. exact (run_stored ok ver grow Hok strong l w i ts ms). Qed.
Print Assumptions C75_restored.

(** What a program sees of an object it holds changes only if a trace is added to
    the object or to another wrapper of the same database. *)
Theorem C75_frame : forall A ok ver grow strong (l : list (op A * result A)) w c r w' j ts ms, (forall n, ok n = true) ->
  run strong ok ver grow empty_world l w -> allowed strong w c -> exec ok ver grow w c = Ok (r, w') ->
  In j (w_roots w) -> writes c (fun i => ~ family w i j) -> seen w j ts ms -> seen w' j ts ms.
Proof. intros A ok ver grow strong l w c r w' j ts ms Hok. exact (run_frame ok ver grow Hok strong l w c r w' j ts ms). Qed.
Print Assumptions C75_frame.

(** Adding a trace puts it at the end; all wrappers of a database have the same
    traces. *)
Theorem C75_added : forall A ok ver grow strong (l : list (op A * result A)) w i ts ms,
  run strong ok ver grow empty_world l w -> In i (w_roots w) -> seen w i ts ms ->
  (forall t m, exists w', exec ok ver grow w (OAdd i (Some t) m) = Ok (RAdded true, w') /\ seen w' i (ts ++ [t]) (ms ++ [m])) /\
  (forall t m, exists w', exec ok ver grow w (OPoints i t m) = Ok (RUnit, w') /\ seen w' i (ts ++ [t]) (m :: ms)) /\
  (forall m, exec ok ver grow w (OAdd i None m) = Ok (RAdded false, w)) /\
  exec ok ver grow w (OCount i) = Ok (RCount (lenN ts), w).
Proof. intros A ok ver grow strong l w i ts ms. exact (run_added ok ver grow strong l w i ts ms). Qed.
Print Assumptions C75_added.
Theorem C75_shared : forall A ok ver grow strong (l : list (op A * result A)) w i j ts m ts' m', (forall n, ok n = true) ->
  run strong ok ver grow empty_world l w -> In i (w_roots w) -> In j (w_roots w) -> family w i j ->
  seen w i ts m -> seen w j ts' m' -> ts = ts'.
Proof. intros A ok ver grow strong l w i j ts m ts' m' Hok. exact (run_shared ok ver grow Hok strong l w i j ts m ts' m'). Qed.
Print Assumptions C75_shared.

(** A new object has no traces and shares its database with no other; a wrapper
    shows the traces and metadata of the object it was made from. *)
Theorem C75_made : forall A ok ver grow strong (l : list (op A * result A)) w, (forall n, ok n = true) ->
  run strong ok ver grow empty_world l w ->
  exists j w', exec ok ver grow w OMake = Ok (RObj j, w') /\ w_roots w' = j :: w_roots w /\ seen w' j [] [] /\
    forall k, In k (w_roots w) -> k <> j /\ ~ family w' j k.
Proof. intros A ok ver grow strong l w Hok. exact (run_made ok ver grow Hok strong l w). Qed.
Print Assumptions C75_made.
Theorem C75_restricted : forall A ok ver grow strong (l : list (op A * result A)) w i f ts ms, (forall n, ok n = true) ->
  run strong ok ver grow empty_world l w -> In i (w_roots w) -> seen w i ts ms ->
  exists j w', exec ok ver grow w (ORestrict i f) = Ok (RObj j, w') /\ w_roots w' = j :: w_roots w /\ seen w' j ts ms /\ family w' j i /\ i <> j.
Proof. intros A ok ver grow strong l w i f ts ms Hok. exact (run_restricted ok ver grow Hok strong l w i f ts ms). Qed.
Print Assumptions C75_restricted.

(** A history: a database, a wrapper for file 1, a trace added through the wrapper,
    and the first object dropped. *)
Definition ex_trace : trace N := mkTr [] [] [mkP 7 0%N [] [] []].
Definition ex_ops : list (op N) := [OMake; ORestrict 0 1%N; OAdd 1 (Some ex_trace) 42%N; ODrop 0; OCollect []].
Fixpoint play (w : world N) (l : list (op N)) : outcome (list (op N * result N) * world N) :=
  match l with
  | [] => Ok ([], w)
  | c :: r => ' (x, w1) <- exec (fun _ => true) 16%N (fun n => n) w c ;; ' (h, w2) <- play w1 r ;; Ok ((c, x) :: h, w2)
  end.
Definition ex_world : world N := match play empty_world ex_ops with Ok (_, w) => w | _ => empty_world end.
Lemma ex_run : forall strong, exists l, run strong (fun _ => true) 16%N (fun n => n) empty_world l ex_world /\ map fst l = ex_ops /\ map snd l = [RObj 0; RObj 1; RAdded true; RUnit; RUnit].
Proof.
  intro strong. exists (combine ex_ops [RObj 0; RObj 1; RAdded true; RUnit; RUnit]). split; [|split].
  - cbn [combine ex_ops]. eapply run_cons; [exact Logic.I|reflexivity|]. eapply run_cons; [left; reflexivity|reflexivity|].
    eapply run_cons; [left; reflexivity|reflexivity|]. eapply run_cons; [right; left; reflexivity|reflexivity|].
    eapply run_cons; [intros i []|reflexivity|]. apply run_nil.
  - reflexivity.
  - reflexivity.
Qed.
Example C74_ex : w_roots ex_world = [1] /\ seen ex_world 1 [ex_trace] [42%N] /\ seen ex_world 0 [ex_trace] [] /\
  reachable false ex_world 0 /\ ~ allowed false ex_world (OCollect [0]) /\ length (live ex_world) = 1.
Proof.
  assert (R : reachable false ex_world 0).
  { apply (reach_parent false ex_world 1 (mkObj 0 [42%N] (Some (1%N, 0))) 1%N 0); [apply reach_held; left; reflexivity|reflexivity|reflexivity]. }
  split; [reflexivity|]. split; [eexists; eexists; split; [reflexivity|split; [reflexivity|split; reflexivity]]|].
  split; [eexists; eexists; split; [reflexivity|split; [reflexivity|split; reflexivity]]|]. split; [exact R|].
  split; [|reflexivity]. intro K. exact (K 0 (or_introl eq_refl) R).
Qed.

(** Refuted: that every database object can be stored.  A wrapper is stored as
    nothing, and nothing comes back. *)
Theorem C75_wrapper_refuted : exists l (w : world N) i ts ms, run true (fun _ => true) 16%N (fun n => n) empty_world l w /\ In i (w_roots w) /\
  seen w i ts ms /\ storable ts /\ ts <> [] /\ ms <> [] /\
  exec (fun _ => true) 16%N (fun n => n) w (OStore i) = Ok (RStored SNil, w) /\
  exec (fun _ => true) 16%N (fun n => n) w (ORestore SNil) = Ok (RNil, w).
Proof.
  destruct (ex_run true) as (l & R & _). exists l, ex_world, 1, [ex_trace], [42%N]. split; [exact R|]. split; [left; reflexivity|].
  split; [apply C74_ex|]. split; [|split; [discriminate|split; [discriminate|split; reflexivity]]].
  split; [reflexivity|]. split; [reflexivity|]. split.
  - constructor; [|constructor]. repeat split; repeat constructor.
  - intros t u p q [<-|[]] [<-|[]] [<-|[]] [<-|[]] _. auto.
Qed.
Print Assumptions C75_wrapper_refuted.
Example C75_ex : exists l w, run true (fun _ => true) 16%N (fun n => n) empty_world l w /\ w_roots w = [0] /\ based w 0 0 /\
  seen w 0 [ex_trace] [42%N] /\ storable [ex_trace].
Proof.
  exists [(OMake, RObj 0); (OAdd 0 (Some ex_trace) 42%N, RAdded true)]. eexists. split; [|split; [|split; [|split]]].
  - eapply run_cons; [exact Logic.I|reflexivity|]. eapply run_cons; [left; reflexivity|reflexivity|]. apply run_nil.
  - reflexivity.
  - eapply based_self; reflexivity.
  - eexists; eexists; split; [reflexivity|split; [reflexivity|split; reflexivity]].
  - split; [reflexivity|]. split; [reflexivity|]. split.
    + constructor; [|constructor]. repeat split; repeat constructor.
    + intros t u p q [<-|[]] [<-|[]] [<-|[]] [<-|[]] _. auto.
Qed.
