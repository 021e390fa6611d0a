(** Property C102: instrumented programs whose threads leave code early: handlers that
    jump, cancelled threads. *)
From Coq Require Import Strings.String Permutation.
From Verif Require Import BaseProofs Types Stream SkipList AMap MemMapSpec Reader Compare PrintPred FormatSpec ReaderMore ReaderProps.
From Verif Require Import Instr InstrRun InstrSpec InstrText InstrFloat InstrTable InstrConc InstrProofs InstrEnd Signal SignalProofs Jump JumpProofs.
From Verif Require Import P_Instr P_Signal.

(** C102.  If the threads change their course only between logging statements (and
    handlers that log nothing run at any time), then at any moment the log is that of
    a program whose threads go these courses: whole points, in an order that respects
    the order in each thread, and at most one unfinished point; and when everything has
    ended it can be read completely. *)
Theorem C102_between : forall test kf sites names types code,
  Forall (site_ok kf) sites -> tells_apart test (all_texts sites) ->
  instrumented test sites names types code -> fits names types ->
  forall ths, Forall (Forall (event_ok sites)) ths ->
  exists acts, Forall2 (Forall2 (fun e a => event_run code e = Ok a)) ths acts /\
    forall l s, jreach code (between sites) (rstart names types (map (@concat action) acts)) l s ->
    exists ths', courses ths l ths' /\
      (exists order rest done part, merge ths' (order ++ rest) /\
        Forall2 (fun e a => event_run code e = Ok a) order done /\
        r_out s = enc_header names types ++ concat (map written done) ++ part /\
        (r_lock s = None -> part = []) /\
        (part <> [] -> exists e rest' a more, rest = e :: rest' /\ event_run code e = Ok a /\ written a = part ++ more) /\
        (order <> [] ->
         forall ok coins pos t, (forall n, n <= lenN (r_out s) -> ok n = true) ->
         exists tr, reads ok coins pos t (lenN order) (takeN (r_disk s) (r_out s)) = Ok tr /\
           tr_names tr = names /\ tr_types tr = types /\ Forall2 (event_shows sites tr) order (tr_points tr))) /\
      (Forall (eq []) (r_threads s) ->
       forall ok coins pos t, (forall n, n <= lenN (r_out s) -> ok n = true) ->
       exists order tr, merge ths' order /\ reads ok coins pos t 0 (r_out s) = Ok tr /\
         tr_names tr = names /\ tr_types tr = types /\ Forall2 (event_shows sites tr) order (tr_points tr) /\
         (order <> [] -> r_disk s = lenN (r_out s))).
Proof.
  intros test kf sites names types code S T I F ths O. destruct (end_lemma test kf sites S T names types code I F ths O) as (acts & A & _).
  exists acts. split; [exact A|]. intros l s R.
  destruct (jumps_lemma test kf sites S T names types code I F ths acts l s O A R) as (ths' & acts' & X & O' & A' & R'). exists ths'. split; [exact X|]. split.
  - destruct (crash_lemma test kf sites S T names types code I F ths' O') as (acts2 & A2 & C). rewrite (rans_fun _ _ _ _ A' A2) in R'. exact (C s R').
  - destruct (end_lemma test kf sites S T names types code I F ths' O') as (acts2 & A2 & C). rewrite (rans_fun _ _ _ _ A' A2) in R'. exact (C s R').
Qed.
Print Assumptions C102_between.

(** Under the same condition some thread can always go on, and if nothing more
    happens, the program can run to its end. *)
Theorem C102_goes_on : forall test kf sites names types code,
  Forall (site_ok kf) sites -> tells_apart test (all_texts sites) ->
  instrumented test sites names types code -> fits names types ->
  forall ths acts, Forall (Forall (event_ok sites)) ths ->
  Forall2 (Forall2 (fun e a => event_run code e = Ok a)) ths acts ->
  forall l s, jreach code (between sites) (rstart names types (map (@concat action) acts)) l s ->
  (~ Forall (eq []) (r_threads s) -> exists s', rstep s s' /\ length (concat (r_threads s)) = Datatypes.S (length (concat (r_threads s')))) /\
  exists s', rsteps s s' /\ Forall (eq []) (r_threads s').
Proof.
  intros test kf sites names types code S T I F ths acts O A l s R.
  destruct (jumps_lemma test kf sites S T names types code I F ths acts l s O A R) as (ths' & acts' & X & O' & A' & R').
  split; [exact (live_lemma test kf sites S T names types code I F ths' acts' O' A' s R')|exact (finish_lemma test kf sites S T names types code I F ths' acts' O' A' s R')].
Qed.
Print Assumptions C102_goes_on.

(** Expected: a thread may be cancelled or jump away at any time.  False for every
    program: once a thread has left a logging statement in another way than to its
    end, nothing is ever written again, by any thread, whatever happens: the mutex
    stays locked, and every thread has nothing to log any more or waits for it. *)
Theorem C102_anytime_refuted : forall test kf sites names types code,
  Forall (site_ok kf) sites -> tells_apart test (all_texts sites) ->
  instrumented test sites names types code -> fits names types ->
  forall ths acts, Forall (Forall (event_ok sites)) ths ->
  Forall2 (Forall2 (fun e a => event_run code e = Ok a)) ths acts ->
  forall l s i es s1, jreach code (between sites) (rstart names types (map (@concat action) acts)) l s ->
  r_lock s = Some i -> Forall (event_ok sites) es -> changed code i (Leave es) s s1 ->
  forall l2 s2, jreach code (fun _ _ c => sound sites c) s1 l2 s2 ->
  r_out s2 = r_out s /\ r_lock s2 = Some i /\
  (forall j r, nth_error (r_threads s2) j = Some r -> r = [] \/ exists q, r = ALock :: q).
Proof.
  intros test kf sites names types code S T I F ths acts O A l s i es s1 R LK OE ST l2 s2 R2.
  destruct (stuck_lemma test kf sites S T names types code I F ths acts l s i es s1 O A R LK OE ST l2 s2 R2) as (L & OUT & W).
  split; [exact OUT|]. split; [exact L|]. intros j r Nj. rewrite Forall_forall in W. apply W. eapply nth_error_In; eauto.
Qed.
Print Assumptions C102_anytime_refuted.

Lemma jreach_steps : forall code al s0 l s s', jreach code al s0 l s -> rsteps s s' -> jreach code al s0 l s'.
Proof. intros code al s0 l s s' R X. induction X as [|s s' s'' X IH Y]; [exact R|]. exact (jr_step _ _ _ _ _ _ (IH R) Y). Qed.

(** A thread that was to pass site 0 twice and is sent to site 1 after the first. *)
Definition jp_start : rstate := rstart ex_names ex_types (map (@concat action) [[sa0; sa0]]).
Example C102_ex : exists s, jreach ex_code (between ex_sites) jp_start [(0%nat, Leave [sg1])] s /\ Forall (eq []) (r_threads s) /\
  courses [[sg0; sg0]] [(0%nat, Leave [sg1])] [[sg0; sg1]] /\
  r_out s = (enc_header ex_names ex_types ++ written sa0 ++ written sa1)%list.
Proof.
  destruct sg_fine as (O0 & O1 & E0 & E1).
  set (s1 := plays (length sa0) jp_start).
  assert (X : exists out d r, s1 = mkR None out d [r]) by (unfold s1; vm_compute; eauto). destruct X as (out & d & r & X).
  exists (plays (length sa1) (mkR None (r_out s1) (r_disk s1) [concat [sa1]])). split; [|split; [|split]].
  - eapply jreach_steps; [|apply plays_steps]. change [(0%nat, Leave [sg1])] with ([] ++ [(0%nat, Leave [sg1])])%list. eapply jr_change with (s := s1).
    + eapply jreach_steps; [apply jr_start|apply plays_steps].
    + split; [constructor; [exact O1|constructor]|rewrite X; discriminate].
    + rewrite X. cbn [r_out r_disk]. refine (changed_leave ex_code 0 [sg1] None out d [r] r [sa1] eq_refl _). constructor; [exact E1|constructor].
  - vm_compute. repeat constructor.
  - split; [reflexivity|]. intros [|[|i]] t E; try discriminate E. injection E as <-. exists [sg0; sg1]. split; [reflexivity|].
    exact (course_leave [sg0; sg0] [] [sg1] [sg0] [sg0] (course_same _)).
  - crunch.
Qed.
(** The same thread is cancelled after three actions, inside its first logging
    statement. *)
Example C102_ex_late : exists s s1, jreach ex_code (between ex_sites) jp_start [] s /\ r_lock s = Some 0%nat /\ changed ex_code 0 (Leave []) s s1.
Proof.
  destruct (plays 3 jp_start) as [lk out d ths] eqn:E.
  assert (X : lk = Some 0%nat /\ exists r, ths = [r]) by (vm_compute in E; injection E as <- _ _ <-; eauto). destruct X as (-> & r & ->).
  exists (mkR (Some 0%nat) out d [r]). eexists. split; [rewrite <- E; eapply jreach_steps; [apply jr_start|apply plays_steps]|]. split; [reflexivity|].
  refine (changed_leave ex_code 0 [] _ out d [r] r [] eq_refl _). constructor.
Qed.
