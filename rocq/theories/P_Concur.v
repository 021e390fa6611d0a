(** Several threads use one database. *)
From Verif Require Import Base Types Stream FormatSpec Reader ReaderProps Concur ConcurSpec ConcurProofs ConcurProofs2 ConcurProofs3.
From Coq Require Import Permutation.

(** Whatever the files and the schedule: once all calls have returned, the
    database holds its former traces and one trace per successful call, each
    equal to what the call reads alone except for auxiliary values; and each
    call returned what it returns alone. *)
Theorem C39_everything_but_aux : forall grow static l cap cs sched sh ts,
  (forall n, (n < grow n)%nat) -> (length l <= cap)%nat ->
  exec grow sched (start_state static l cap cs) = (sh, ts) -> Forall returned ts ->
  exists added mine, contents sh = l ++ added /\ Permutation added mine /\ Forall2 same_but_aux mine (traces_of cs) /\
    map answer ts = map answer_alone cs.
Proof. exact racy_lemma. Qed.
Print Assumptions C39_everything_but_aux.

(** If no two threads are reading an auxiliary value at the same time, the
    traces arrive unchanged. *)
Theorem C39_separate_intact : forall grow static l cap cs sched sh ts,
  (forall n, (n < grow n)%nat) -> (length l <= cap)%nat ->
  aux_separate grow sched (start_state static l cap cs) ->
  exec grow sched (start_state static l cap cs) = (sh, ts) -> Forall returned ts ->
  exists added, contents sh = l ++ added /\ Permutation added (traces_of cs) /\ map answer ts = map answer_alone cs.
Proof. exact separate_lemma. Qed.
Print Assumptions C39_separate_intact.

(** The file of the call is missing, or is a trace file without auxiliary entries. *)
Definition no_aux (c : input) : Prop :=
  in_file c = None \/
  exists F t, in_file c = Some (enc_file F, t) /\ file_wf (in_ok c) F /\ forall es a, In es (f_points F) -> ~ In (EAux a) es.

(** This is so under every schedule if all files but one are without auxiliary entries. *)
Theorem C39_no_aux_intact : forall k grow static l cap cs sched sh ts,
  (forall n, (n < grow n)%nat) -> (length l <= cap)%nat ->
  (forall j c, nth_error cs j = Some (CallAdd c) -> j <> k -> no_aux c) ->
  exec grow sched (start_state static l cap cs) = (sh, ts) -> Forall returned ts ->
  exists added, contents sh = l ++ added /\ Permutation added (traces_of cs) /\ map answer ts = map answer_alone cs.
Proof.
  intros k grow static l cap cs sched sh ts G L HN E HR. eapply separate_lemma; eauto.
  apply (quiet_separate grow k). intros j th Ej Ne. unfold start_state in Ej. cbn [snd] in Ej.
  rewrite nth_error_map in Ej. destruct (nth_error cs j) as [c|] eqn:Ec; [|discriminate]. injection Ej as <-.
  destruct c as [c|i]; cbn; [|exact I]. unfold start_input.
  destruct (HN j c Ec Ne) as [->|(F & t & -> & W & NA)]; [eexists; reflexivity|]. apply trace_quiet; auto.
Qed.
Print Assumptions C39_no_aux_intact.

(** Otherwise it is false: two threads read the files of the points "statement
    7, auxiliary 1" and "statement 7, auxiliary 2", and both traces end up
    with the value 2. *)
Definition plain (bs : list byte) : task := CallAdd (mkIn (Some (bs, TailEof)) 0 (fun _ => true) (fun _ => false) 0).
Definition aux_file (a : N) : list byte := enc_file (mkF [] [] [[EStmt 7; EAux a]]).
Definition dbl (n : nat) : nat := match n with O => 1%nat | _ => (2 * n)%nat end.
Lemma dbl_more : forall n, (n < dbl n)%nat.
Proof. intros [|n]; cbn; lia. Qed.

Theorem C39_aux_refuted : exists cs sched sh ts x y,
  cs = [plain (aux_file 1); plain (aux_file 2)] /\
  exec dbl sched (start_state 0 [] 0 cs) = (sh, ts) /\ Forall returned ts /\
  traces_of cs = [x; y] /\ x <> y /\ contents sh = [y; y].
Proof.
  exists [plain (aux_file 1); plain (aux_file 2)], ([0; 1; 0; 1] ++ repeat 0 7 ++ repeat 1 7)%nat.
  eexists. eexists. eexists. eexists. split; [reflexivity|].
  split; [vm_compute; reflexivity|]. split; [repeat constructor|]. split; [vm_compute; reflexivity|].
  split; [discriminate|vm_compute; reflexivity].
Qed.
Print Assumptions C39_aux_refuted.

(** The calls can always be finished: no schedule leads into a deadlock. *)
Theorem C39_finishes : forall grow static l cap cs sched,
  (forall n, (n < grow n)%nat) -> (length l <= cap)%nat ->
  exists more, Forall stopped (snd (exec grow (sched ++ more) (start_state static l cap cs))).
Proof.
  intros grow static l cap cs sched G L.
  destruct (finish_all grow G cs l (exec grow sched (start_state static l cap cs))) as (more & H).
  - apply rinv_exec; auto. apply rinv_start. exact L.
  - exists more. rewrite exec_app. exact H.
Qed.
Print Assumptions C39_finishes.

(** A call of add_trace ends in undefined behaviour only if it does so alone. *)
Theorem C39_no_new_crash : forall grow static l cap cs sched sh ts i c o,
  (forall n, (n < grow n)%nat) -> (length l <= cap)%nat ->
  exec grow sched (start_state static l cap cs) = (sh, ts) ->
  nth_error cs i = Some (CallAdd c) -> nth_error ts i = Some (TCrash o) ->
  (exists u, o = UB u /\ read_input c = UB u) \/ (o = Abort /\ read_input c = Abort).
Proof. exact crash_lemma_c. Qed.
Print Assumptions C39_no_new_crash.

Lemma some_inj : forall A (x y : A), Some x = Some y -> x = y.
Proof. intros A x y H. injection H. auto. Qed.

(** Three threads: a file with an auxiliary value, one without, and one that
    is cut; a database that has to grow. *)
Definition ex_old : tr := mkTr [] [] [mkP 0 (Some 3) [] [] []].
Definition ex_cs : list task :=
  [plain (aux_file 1); plain (enc_file (mkF [[x61]] [mkT 0 UNSIGNED 4] [[EStmt 5; EVar 0 0 [x01; x00; x00; x00]]])); plain [x01]].
Definition ex_sched : list nat := (repeat 0 4 ++ repeat 1 3 ++ repeat 2 3 ++ repeat 0 4 ++ repeat 1 8)%nat.
Example C39_ex : (length [ex_old] <= 1)%nat /\
  (let '(sh, ts) := exec dbl ex_sched (start_state 77 [ex_old] 1 ex_cs) in
   Forall returned ts /\ map answer ts = [Some true; Some true; Some false] /\ length (contents sh) = 3%nat) /\
  aux_separate dbl ex_sched (start_state 77 [ex_old] 1 ex_cs).
Proof.
  split; [cbn; lia|]. split.
  - vm_compute. split; [repeat constructor|split; reflexivity].
  - apply (quiet_separate dbl 0). intros j th E Ne. unfold start_state in E. cbn [snd] in E.
    rewrite nth_error_map in E. destruct j as [|[|[|j]]]; [congruence| | |destruct j; discriminate];
      cbn [ex_cs nth_error option_map] in E.
    + assert (X : calm_thread (start_task (nth 1 ex_cs (CallGet 0)))) by (vm_compute; eexists; reflexivity).
      replace th with (start_task (nth 1 ex_cs (CallGet 0))); [exact X|]. refine (some_inj _ _ _ E).
    + assert (X : calm_thread (start_task (nth 2 ex_cs (CallGet 0)))) by (vm_compute; eexists; reflexivity).
      replace th with (start_task (nth 2 ex_cs (CallGet 0))); [exact X|]. refine (some_inj _ _ _ E).
Qed.
Example C39_no_aux_ex : forall j c, nth_error [plain (aux_file 1); plain (enc_file (mkF [[x61]] [mkT 0 UNSIGNED 4] [[EStmt 5; EVar 0 0 [x01; x00; x00; x00]]]))] j = Some (CallAdd c) ->
  j <> 0%nat -> no_aux c.
Proof.
  intros [|[|j]] c E Ne; [congruence| |destruct j; discriminate]. cbn [nth_error] in E. injection E as <-. right.
  eexists. exists TailEof. split; [reflexivity|]. split.
  - split; [|split; [|split]].
    + split; [|split; [reflexivity|reflexivity]]. apply Forall_cons; [|apply Forall_nil]. intros [X|[]]. discriminate.
    + split; [|split; [reflexivity|reflexivity]]. apply Forall_cons; [|apply Forall_nil]. split; [reflexivity|split; [reflexivity|discriminate]].
    + apply Forall_cons; [|apply Forall_nil]. apply Forall_cons; [reflexivity|]. apply Forall_cons; [|apply Forall_nil].
      split; [reflexivity|split; [reflexivity|split; [reflexivity|]]]. eexists. split; [reflexivity|]. split; [reflexivity|discriminate].
    + intros [|a p] q E; cbn in E; [cbn; lia|discriminate].
  - intros es a [<-|[]] [X|[X|[]]]; discriminate.
Qed.

(** ** Looking at traces while others are added *)

(** As long as the vector need not grow, a thread that looks at a trace which
    was there before sees that trace. *)
Theorem C57_with_room : forall grow static l cap cs sched sh ts i j th,
  (forall n, (n < grow n)%nat) -> (length l + adds cs <= cap)%nat ->
  exec grow sched (start_state static l cap cs) = (sh, ts) ->
  nth_error cs j = Some (CallGet i) -> (i < length l)%nat -> nth_error ts j = Some th ->
  (forall o, th <> TCrash o) /\ (forall t, th = TSaw t -> nth_error l i = Some t).
Proof.
  intros grow static l cap cs sched sh ts i j th G HC E Ec Li Et.
  pose proof (look_lemma grow static l cap cs sched sh ts G HC E) as F.
  destruct (Forall2_nth_r _ _ _ _ _ _ _ F Et) as (c & Ec' & S). rewrite Ec in Ec'. injection Ec' as <-. specialize (S Li).
  split.
  - intros o ->. contradiction.
  - intros t ->. exact S.
Qed.
Print Assumptions C57_with_room.

(** Otherwise it may access freed memory. *)
Theorem C57_growing_refuted : exists l cap cs sched sh ts,
  (length l <= cap)%nat /\ nth_error cs 1 = Some (CallGet 0) /\ (0 < length l)%nat /\
  exec dbl sched (start_state 0 l cap cs) = (sh, ts) /\ nth_error ts 1 = Some (TCrash (UB UDangling)).
Proof.
  exists [ex_old], 1%nat, [plain (aux_file 1); CallGet 0], ([1] ++ repeat 0 6 ++ [1])%nat. eexists. eexists.
  split; [cbn; lia|]. split; [reflexivity|]. split; [cbn; lia|]. split; [vm_compute; reflexivity|vm_compute; reflexivity].
Qed.
Print Assumptions C57_growing_refuted.

Example C57_ex : let '(sh, ts) := exec dbl ([1] ++ repeat 0 6 ++ [1])%nat (start_state 0 [ex_old] 2 [plain (aux_file 1); CallGet 0]) in
  nth_error ts 1 = Some (TSaw ex_old) /\ (length [ex_old] + adds [plain (aux_file 1); CallGet 0] <= 2)%nat.
Proof. vm_compute. split; [reflexivity|lia]. Qed.
