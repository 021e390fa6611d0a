(** Property C93: instrumented programs with signal handlers. *)
From Coq Require Import Strings.String Permutation.
From Verif Require Import BaseProofs Types Stream SkipList AMap MemMapSpec Reader Compare PrintPred FormatSpec ReaderMore ReaderProps.
From Verif Require Import Instr InstrRun InstrSpec InstrText InstrFloat InstrTable InstrConc InstrProofs InstrEnd Signal SignalProofs.
From Verif Require Import P_Instr.

Lemma rans_fun : forall code (ths : list (list event)) a b, Forall2 (Forall2 (fun e a => event_run code e = Ok a)) ths a ->
  Forall2 (Forall2 (fun e a => event_run code e = Ok a)) ths b -> a = b.
Proof.
  intros code ths a b F. revert b. induction F as [|t x ths a X F IH]; intros b G; inversion G as [|? y ? b' Y G']; subst; [reflexivity|]. f_equal; auto.
  clear -X Y. revert y Y. induction X as [|e p t x E X IH]; intros y Y; inversion Y; subst; [reflexivity|]. f_equal; auto. congruence.
Qed.

(** C93.  If no signal whose handler logs arrives inside a logging statement of the
    same thread (handlers that log nothing may run at any time), then at any moment
    the log is as if the threads had called the handlers: whole points, in an order
    that respects the order in each thread and in each handler, and at most one
    unfinished point; and when everything has ended it can be read completely. *)
Theorem C93_between : forall test kf sites names types code,
  Forall (site_ok kf) sites -> tells_apart test (all_texts sites) ->
  instrumented test sites names types code -> fits names types ->
  forall ths, Forall (Forall (event_ok sites)) ths ->
  exists acts, Forall2 (Forall2 (fun e a => event_run code e = Ok a)) ths acts /\
    forall l s, sreach code (polite sites) (rstart names types (map (@concat action) acts)) l s ->
    exists ths', extends ths l ths' /\
      (exists order rest done part, merge ths' (order ++ rest) /\
        Forall2 (fun e a => event_run code e = Ok a) order done /\
        r_out s = enc_header names types ++ concat (map written done) ++ part /\
        (r_lock s = None -> part = []) /\
        (part <> [] -> exists e rest' a more, rest = e :: rest' /\ event_run code e = Ok a /\ written a = part ++ more) /\
        (order <> [] ->
         forall ok coins pos t, (forall n, n <= lenN (r_out s) -> ok n = true) ->
         exists tr, reads ok coins pos t (lenN order) (takeN (r_disk s) (r_out s)) = Ok tr /\
           tr_names tr = names /\ tr_types tr = types /\ Forall2 (event_shows sites tr) order (tr_points tr))) /\
      (Forall (eq []) (r_threads s) ->
       forall ok coins pos t, (forall n, n <= lenN (r_out s) -> ok n = true) ->
       exists order tr, merge ths' order /\ reads ok coins pos t 0 (r_out s) = Ok tr /\
         tr_names tr = names /\ tr_types tr = types /\ Forall2 (event_shows sites tr) order (tr_points tr) /\
         (order <> [] -> r_disk s = lenN (r_out s))).
Proof.
  intros test kf sites names types code S T I F ths O. destruct (end_lemma test kf sites S T names types code I F ths O) as (acts & A & _).
  exists acts. split; [exact A|]. intros l s R.
  destruct (signals_lemma test kf sites S T names types code I F ths acts l s O A R) as (ths' & acts' & X & O' & A' & R'). exists ths'. split; [exact X|]. split.
  - destruct (crash_lemma test kf sites S T names types code I F ths' O') as (acts2 & A2 & C). rewrite (rans_fun _ _ _ _ A' A2) in R'. exact (C s R').
  - destruct (end_lemma test kf sites S T names types code I F ths' O') as (acts2 & A2 & C). rewrite (rans_fun _ _ _ _ A' A2) in R'. exact (C s R').
Qed.
Print Assumptions C93_between.

(** Under the same condition some thread can always go on, and if no more signals
    arrive, the program can run to its end. *)
Theorem C93_goes_on : forall test kf sites names types code,
  Forall (site_ok kf) sites -> tells_apart test (all_texts sites) ->
  instrumented test sites names types code -> fits names types ->
  forall ths acts, Forall (Forall (event_ok sites)) ths ->
  Forall2 (Forall2 (fun e a => event_run code e = Ok a)) ths acts ->
  forall l s, sreach code (polite sites) (rstart names types (map (@concat action) acts)) l s ->
  (~ Forall (eq []) (r_threads s) -> exists s', rstep s s' /\ length (concat (r_threads s)) = Datatypes.S (length (concat (r_threads s')))) /\
  exists s', rsteps s s' /\ Forall (eq []) (r_threads s').
Proof.
  intros test kf sites names types code S T I F ths acts O A l s R.
  destruct (signals_lemma test kf sites S T names types code I F ths acts l s O A R) as (ths' & acts' & X & O' & A' & R').
  split; [exact (live_lemma test kf sites S T names types code I F ths' acts' O' A' s R')|exact (finish_lemma test kf sites S T names types code I F ths' acts' O' A' s R')].
Qed.
Print Assumptions C93_goes_on.

(** Expected: signals may arrive at any time.  False for every program: after the
    first signal whose handler logs and that arrives inside a logging statement of its
    thread, nothing is ever written again, the thread does not even begin with the
    rest of its work, whatever signals arrive, and no other thread gets past its next
    logging statement. *)
Theorem C93_anytime_refuted : forall test kf sites names types code,
  Forall (site_ok kf) sites -> tells_apart test (all_texts sites) ->
  instrumented test sites names types code -> fits names types ->
  forall ths acts, Forall (Forall (event_ok sites)) ths ->
  Forall2 (Forall2 (fun e a => event_run code e = Ok a)) ths acts ->
  forall l s i es s1, sreach code (polite sites) (rstart names types (map (@concat action) acts)) l s ->
  r_lock s = Some i -> es <> [] -> Forall (event_ok sites) es -> interrupt code i es s s1 ->
  forall l2 s2, sreach code (fun _ _ es => Forall (event_ok sites) es) s1 l2 s2 ->
  r_out s2 = r_out s1 /\ r_lock s2 = Some i /\
  (exists rest more, nth_error (r_threads s1) i = Some rest /\ rest <> [] /\ nth_error (r_threads s2) i = Some (more ++ rest)) /\
  (forall j r, nth_error (r_threads s2) j = Some r -> r = [] \/ exists q, r = ALock :: q).
Proof.
  intros test kf sites names types code S T I F ths acts O A l s i es s1 R LK NE OE ST l2 s2 R2.
  destruct (freeze_lemma test kf sites S T names types code I F ths acts l s i es s1 O A R LK NE OE ST l2 s2 R2) as (rest & E & L & OUT & W & more & Y & _).
  split; [exact OUT|]. split; [exact L|]. split.
  - exists rest, more. split; [exact E|]. split; [|exact Y].
    inversion ST as [lk out d th r hs N HR]; subst s s1. cbn [r_threads] in E. rewrite update_same in E by (eapply nth_some; eauto). injection E as <-.
    pose proof (ran_shape test kf sites S T names types code I F es hs OE HR) as SH. destruct hs as [|h hs]; [inversion HR; subst; congruence|].
    inversion SH as [|? ? (ws & ->) _]; subst. discriminate.
  - intros j r Nj. rewrite Forall_forall in W. apply W. eapply nth_error_In; eauto.
Qed.
Print Assumptions C93_anytime_refuted.

(** One thread that passes site 0, and a handler that passes site 1: before the
    logging statement begins, and in the middle of it. *)
Definition sg0 : event := (0%nat, ex_env (-3)).
Definition sg1 : event := (1%nat, ex_env 7).
Definition sa0 := Eval vm_compute in match event_run ex_code sg0 with Ok a => a | _ => [] end.
Definition sa1 := Eval vm_compute in match event_run ex_code sg1 with Ok a => a | _ => [] end.
Lemma sg_fine : event_ok ex_sites sg0 /\ event_ok ex_sites sg1 /\ event_run ex_code sg0 = Ok sa0 /\ event_run ex_code sg1 = Ok sa1.
Proof.
  pose proof ex_events_ok as X. inversion X as [|? ? X1 X2]; subst. inversion X1 as [|? ? Y1 X3]; subst. inversion X3 as [|? ? Y2 X4]; subst.
  split; [exact Y1|]. split; [exact Y2|]. split; crunch.
Qed.
(** Running a program with one thread. *)
Definition one (s : rstate) : rstate :=
  match r_threads s with
  | [a :: r] => match a with
                | ALock => match r_lock s with None => mkR (Some 0%nat) (r_out s) (r_disk s) [r] | _ => s end
                | AWrite bs => mkR (r_lock s) (r_out s ++ bs) (r_disk s) [r]
                | AFlush => mkR (r_lock s) (r_out s) (lenN (r_out s)) [r]
                | AUnlock => mkR None (r_out s) (r_disk s) [r]
                end
  | _ => s
  end.
Fixpoint plays (n : nat) (s : rstate) : rstate := match n with O => s | Datatypes.S n => one (plays n s) end.
Lemma plays_steps : forall n s, rsteps s (plays n s).
Proof.
  induction n as [|n IH]; intros s; [apply rs_refl|]. cbn. specialize (IH s). destruct (plays n s) as [lk out d ths].
  unfold one. cbn [r_threads r_lock r_out r_disk]. destruct ths as [|[|a r] [|]]; try exact IH.
  destruct a; [destruct lk; [exact IH|]| | |]; (eapply rs_step; [exact IH|]).
  all: first [exact (st_lock out d [ALock :: r] 0 r eq_refl) | exact (st_unlock _ out d [AUnlock :: r] 0 r eq_refl) | exact (st_write _ out d [AWrite _ :: r] 0 _ r eq_refl) | exact (st_flush _ out d [AFlush :: r] 0 r eq_refl)].
Qed.
Lemma reach_steps : forall code al s0 l s s', sreach code al s0 l s -> rsteps s s' -> sreach code al s0 l s'.
Proof. intros code al s0 l s s' R X. induction X as [|s s' s'' X IH Y]; [exact R|]. exact (sr_step _ _ _ _ _ _ (IH R) Y). Qed.

Definition sg_start : rstate := rstart ex_names ex_types (map (@concat action) [[sa0]]).
Example C93_hyps : Forall (Forall (event_ok ex_sites)) [[sg0]] /\ Forall2 (Forall2 (fun e a => event_run ex_code e = Ok a)) [[sg0]] [[sa0]].
Proof. destruct sg_fine as (O0 & O1 & E0 & E1). repeat constructor; auto. Qed.
(** The handler runs first: both points are in the log, that of the handler first. *)
Example C93_ex : exists s, sreach ex_code (polite ex_sites) sg_start [(0%nat, [sg1])] s /\ Forall (eq []) (r_threads s) /\
  r_out s = (enc_header ex_names ex_types ++ written sa1 ++ written sa0)%list.
Proof.
  destruct sg_fine as (O0 & O1 & E0 & E1).
  exists (plays (length sa1 + length sa0) (mkR None (r_out sg_start) 0 [concat [sa1] ++ concat [sa0]])%list). split; [|split].
  - eapply reach_steps; [|apply plays_steps]. change [(0%nat, [sg1])] with ([] ++ [(0%nat, [sg1])])%list. eapply sr_signal; [apply sr_start| |].
    + split; [constructor; [exact O1|constructor]|discriminate].
    + refine (interrupt_i ex_code 0 [sg1] None _ 0 [concat [sa0]] (concat [sa0]) [sa1] eq_refl _). constructor; [exact E1|constructor].
  - vm_compute. repeat constructor.
  - crunch.
Qed.
(** The signal arrives after three actions, when the statement id has been written. *)
Example C93_ex_late : exists s s1, sreach ex_code (polite ex_sites) sg_start [] s /\ r_lock s = Some 0%nat /\ interrupt ex_code 0 [sg1] s s1 /\
  Forall (event_ok ex_sites) [sg1].
Proof.
  destruct sg_fine as (O0 & O1 & E0 & E1). destruct (plays 3 sg_start) as [lk out d ths] eqn:E.
  assert (X : lk = Some 0%nat /\ exists r, ths = [r]) by (vm_compute in E; injection E as <- _ _ <-; eauto). destruct X as (-> & r & ->).
  exists (mkR (Some 0%nat) out d [r]). eexists. split; [rewrite <- E; eapply reach_steps; [apply sr_start|apply plays_steps]|]. split; [reflexivity|].
  split; [|constructor; [exact O1|constructor]].
  refine (interrupt_i ex_code 0 [sg1] _ out d [r] r [sa1] eq_refl _). constructor; [exact E1|constructor].
Qed.
