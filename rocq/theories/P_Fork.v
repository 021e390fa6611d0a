(** Property C87: programs that fork, whose processes log to one file.
    [B]: size of the buffer of the stream, [P]: number of bytes a write(2) call
    writes in one piece. *)
From Coq Require Import Strings.String Permutation.
From Verif Require Import BaseProofs Types Stream SkipList AMap MemMapSpec Reader Compare PrintPred FormatSpec ReaderMore ReaderProps.
From Verif Require Import Instr InstrRun InstrSpec InstrText InstrFloat InstrTable InstrConc InstrProofs InstrEnd.
From Verif Require Import P_Instr Fork ForkSpec ForkProofs ForkProofs2 ForkProofs3.

(** If every point fits into the buffer, and processes fork and exit only while
    none of their threads is inside a logging statement, and fork only when the
    buffer is empty, then at any moment of any schedule, also after processes
    have died, the file can be read completely: it shows whole points, in an
    order in which the threads of all processes could have passed the sites,
    and every pass that a process has finished is among them.  Before the first
    point is finished there is one process and the file is the beginning of the
    header and one point. *)
Theorem C87_forks : forall test kf sites names types code B P,
  Forall (site_ok kf) sites -> tells_apart test (all_texts sites) ->
  instrumented test sites names types code -> fits names types -> B <= P ->
  forall its, Forall (every (fun e => event_ok sites e /\ fits_buffer code B e)) its ->
  exists ths, Forall2 (runs code) its ths /\
    forall s, reach B P orderly (fstart B names types ths) s ->
    (exists order left dead, interleaving its order (concat left ++ dead) /\
       Forall2 (fun p l => q_lock p = None -> Forall2 (runs code) l (q_threads p)) (f_procs s) left /\
       forall ok coins pos t, (forall n, n <= lenN (f_file s) -> ok n = true) ->
       exists tr, reads ok coins pos t 0 (f_file s) = Ok tr /\
         tr_names tr = names /\ tr_types tr = types /\ Forall2 (event_shows sites tr) order (tr_points tr)) \/
    (exists p more, f_procs s = [p] /\ (q_lock p = None -> q_threads p = ths \/ q_threads p = []) /\
       (f_file s ++ more = enc_header names types \/
        exists e a, event_run code e = Ok a /\ f_file s ++ more = enc_header names types ++ written a)).
Proof. intros test kf sites names types code B P S T I F L. exact (forks_lemma test kf sites S T names types code I F B P L). Qed.
Print Assumptions C87_forks.

(** If nobody dies and exit() is called when the other threads of the process
    have ended, then in the end every pass of every process is in the file. *)
Theorem C87_complete : forall test kf sites names types code B P,
  Forall (site_ok kf) sites -> tells_apart test (all_texts sites) ->
  instrumented test sites names types code -> fits names types -> B <= P ->
  forall its, Forall (every (fun e => event_ok sites e /\ fits_buffer code B e)) its ->
  exists ths, Forall2 (runs code) its ths /\
    forall s, reach B P peaceful (fstart B names types ths) s -> Forall ended (f_procs s) ->
    exists order rest, interleaving its order rest /\ Forall over rest /\
      forall ok coins pos t, (forall n, n <= lenN (f_file s) -> ok n = true) ->
      exists tr, reads ok coins pos t 0 (f_file s) = Ok tr /\
        tr_names tr = names /\ tr_types tr = types /\ Forall2 (event_shows sites tr) order (tr_points tr).
Proof. intros test kf sites names types code B P S T I F L. exact (complete_all test kf sites S T names types code I F B P L). Qed.
Print Assumptions C87_complete.

(** Every process that has something left to do or to write can go on by itself. *)
Theorem C87_progress : forall test kf sites names types code B P,
  Forall (site_ok kf) sites -> tells_apart test (all_texts sites) ->
  instrumented test sites names types code -> fits names types -> 0 < B -> B <= P ->
  forall its ths, Forall (every (fun e => event_ok sites e /\ fits_buffer code B e)) its -> Forall2 (runs code) its ths ->
  forall s, reach B P orderly (fstart B names types ths) s ->
  forall i p, nth_error (f_procs s) i = Some p -> ~ (Forall (eq []) (q_threads p) /\ q_out p = []) ->
  exists l s', In l [LRun i; LFork i; LExit i] /\ fstep B P s l s'.
Proof. intros test kf sites names types code B P S T I F L1 L2. exact (moves_lemma test kf sites S T names types code I F B P L2 L1). Qed.
Print Assumptions C87_progress.

(** A single-threaded program that logs a point before anything else keeps to
    these rules: all its runs are covered by the theorems above. *)
Theorem C87_single : forall test kf sites names types code B P,
  Forall (site_ok kf) sites -> tells_apart test (all_texts sites) ->
  instrumented test sites names types code -> fits names types -> B <= P ->
  forall e it ths, every (fun e => event_ok sites e /\ fits_buffer code B e) (IPass e :: it) -> Forall2 (runs code) [IPass e :: it] ths ->
  forall s, reach B P (fun _ _ => True) (fstart B names types ths) s -> reach B P orderly (fstart B names types ths) s.
Proof. intros test kf sites names types code B P S T I F L e it ths. exact (fun E R s => single_lemma test kf sites S T names types code I F B P L e it ths s E R). Qed.
Print Assumptions C87_single.

(** ** Examples *)
Definition fk0 : event := (0%nat, ex_env (-3)).
Definition fk1 : event := (1%nat, ex_env 7).
Definition get_acts (e : event) : list action := match event_run ex_code e with Ok a => a | _ => [] end.
Definition fa0 := Eval vm_compute in get_acts fk0.
Definition fa1 := Eval vm_compute in get_acts fk1.
Lemma fk0_run : event_run ex_code fk0 = Ok fa0.  Proof. crunch. Qed.
Lemma fk1_run : event_run ex_code fk1 = Ok fa1.  Proof. crunch. Qed.
Lemma fk0_fine : event_ok ex_sites fk0 /\ fits_buffer ex_code 4096 fk0.
Proof.
  split; [pose proof ex_events_ok as X; inversion X as [|? ? X1 X2]; subst; inversion X1; auto|].
  intros a E. rewrite fk0_run in E. injection E as <-. intro X. vm_compute in X. discriminate X.
Qed.
Lemma fk1_fine : event_ok ex_sites fk1 /\ fits_buffer ex_code 4096 fk1.
Proof.
  split; [pose proof ex_events_ok as X; inversion X as [|? ? X1 X2]; subst; inversion X1 as [|? ? _ X3]; inversion X3; auto|].
  intros a E. rewrite fk1_run in E. injection E as <-. intro X. vm_compute in X. discriminate X.
Qed.
(** One pass, then a fork, one more pass in each process. *)
Definition fork_items : list item := [IPass fk1; IFork [IPass fk0; IExit]; IPass fk1; IExit].
Definition fork_acts : list pact := map PDo fa1 ++ PFork (map PDo fa0 ++ [PExit]) :: map PDo fa1 ++ [PExit].
Example C87_hyps : Forall (site_ok ex_kf) ex_sites /\ tells_apart equal_test (all_texts ex_sites) /\
  instrumented equal_test ex_sites ex_names ex_types ex_code /\ fits ex_names ex_types /\
  every (fun e => event_ok ex_sites e /\ fits_buffer ex_code 4096 e) fork_items /\ Forall2 (runs ex_code) [fork_items] [fork_acts].
Proof.
  destruct C41_hyps as (H1 & H2 & H3 & H4 & _). repeat match goal with |- _ /\ _ => split end; auto; try apply H4.
  - pose proof fk0_fine. pose proof fk1_fine. repeat (apply ev_pass || apply ev_fork || apply ev_exit || apply ev_nil); auto.
  - constructor; [|constructor]. unfold fork_items, fork_acts. constructor; [exact fk1_run|]. constructor.
    + constructor; [exact fk0_run|]. repeat constructor.
    + constructor; [exact fk1_run|]. repeat constructor.
Qed.
Example C87_ex : exists s tr, reach 4096 4096 orderly (fstart 4096 ex_names ex_types [fork_acts]) s /\ Forall ended (f_procs s) /\
  (forall coins pos t, reads (fun _ => true) coins pos t 0 (f_file s) = Ok tr) /\ map p_stmt (tr_points tr) = [Some 9; Some 9; Some 5].
Proof.
  destruct (fplay 4096 4096 (fstart 4096 ex_names ex_types [fork_acts])
    (repeat (0, 0) 20 ++ concat (repeat [(0, 0); (1, 0)] 19) ++ [(1, 0); (1, 0); (0, 0)])%nat) as [s|] eqn:E.
  - destruct C87_hyps as (H1 & H2 & H3 & H4 & H5 & H6). exists s. eexists. split.
    + eapply (C87_single _ _ _ _ _ _ _ _ H1 H2 H3 H4); eauto; [apply N.le_refl|]. eapply fplay_reach; [apply re_start|exact E].
    + vm_compute in E. injection E as <-. split; [repeat constructor|]. split; [|].
      * intros. unfold reads. rewrite read_trace_transfer. destruct t; crunch.
      * crunch.
  - exfalso. vm_compute in E. discriminate E.
Qed.

(** ** Where it fails *)

(** Forking before the first point: the header waits in the buffer, both
    processes write it, and the log cannot be read. *)
Definition early_items : list item := [IFork [IPass fk0; IExit]; IPass fk1; IExit].
Definition early_acts : list pact := PFork (map PDo fa0 ++ [PExit]) :: map PDo fa1 ++ [PExit].
Theorem C87_early_refuted : exists s,
  every (fun e => event_ok ex_sites e /\ fits_buffer ex_code 4096 e) early_items /\ Forall2 (runs ex_code) [early_items] [early_acts] /\
  reach 4096 4096 (fun _ _ => True) (fstart 4096 ex_names ex_types [early_acts]) s /\ Forall ended (f_procs s) /\
  f_file s = enc_header ex_names ex_types ++ written fa0 ++ enc_header ex_names ex_types ++ written fa1 /\
  forall coins pos t, exists err, reads (fun _ => true) coins pos t 0 (f_file s) = Throw err.
Proof.
  destruct (fplay 4096 4096 (fstart 4096 ex_names ex_types [early_acts])
    ([(0, 0)] ++ repeat (1, 0) (length fa0 + 2) ++ repeat (0, 0) (length fa1 + 2))%nat) as [s|] eqn:E; [|exfalso; vm_compute in E; discriminate E].
  exists s. repeat match goal with |- _ /\ _ => split end.
  - pose proof fk0_fine. pose proof fk1_fine. repeat (apply ev_pass || apply ev_fork || apply ev_exit || apply ev_nil); auto.
  - constructor; [|constructor]. constructor; [constructor; [exact fk0_run|repeat constructor]|]. constructor; [exact fk1_run|]. repeat constructor.
  - eapply fplay_reach; [apply re_start|exact E].
  - vm_compute in E. injection E as <-. repeat constructor.
  - vm_compute in E. injection E as <-. crunch.
  - vm_compute in E. injection E as <-. intros. unfold reads. rewrite read_trace_transfer. destruct t; eexists; crunch.
Qed.
Print Assumptions C87_early_refuted.

(** Points larger than the buffer: two processes that log a string of 5000
    characters at the same time mix their points (all other rules are kept). *)
Definition big_env (n : name) : rvalue := if bytes_eqb n (text "s") then RPtr 4096 (repeat x61 5000) else ex_env (-3) n.
Definition fk2 : event := (0%nat, big_env).
Definition fa2 := Eval vm_compute in get_acts fk2.
Lemma fk2_run : event_run ex_code fk2 = Ok fa2.  Proof. crunch. Qed.
Definition large_items : list item := [IPass fk1; IFork [IPass fk2; IExit]; IPass fk2; IExit].
Definition large_acts : list pact := map PDo fa1 ++ PFork (map PDo fa2 ++ [PExit]) :: map PDo fa2 ++ [PExit].
Theorem C87_large_refuted : exists s,
  every (event_ok ex_sites) large_items /\ Forall2 (runs ex_code) [large_items] [large_acts] /\
  reach 4096 4096 (fun _ _ => True) (fstart 4096 ex_names ex_types [large_acts]) s /\ Forall ended (f_procs s) /\
  forall coins pos t, exists err, reads (fun _ => true) coins pos t 0 (f_file s) = Throw err.
Proof.
  destruct (fplay 4096 4096 (fstart 4096 ex_names ex_types [large_acts])
    (repeat (0, 0) (length fa1 + 2) ++ concat (repeat [(0, 0); (1, 0)] (length fa2 + 3)))%nat) as [s|] eqn:E; [|exfalso; vm_compute in E; discriminate E].
  exists s. repeat match goal with |- _ /\ _ => split end.
  - assert (event_ok ex_sites fk2).
    { destruct (proj1 fk0_fine) as (q & Q1 & Q2). cbn in Q1. injection Q1 as <-. eexists. split; [reflexivity|].
      constructor; [|constructor]. inversion Q2 as [|? ? Q3 _]; subst. cbn [fst snd] in *.
      inversion Q3 as [|? ? V1 Q4]; subst. inversion Q4 as [|? ? V2 Q5]; subst. inversion Q5 as [|? ? V3 Q6]; subst. inversion Q6 as [|? ? V4 Q7]; subst.
      constructor; [exact V1|]. constructor; [exact V2|]. constructor; [|constructor; [exact V4|constructor]].
      cbn [fst snd] in *. intros k K. specialize (V3 k K). cbn [fst snd] in V3.
      change (big_env (text "s")) with (RPtr 4096 (repeat x61 5000)). change (ex_env (-3) (text "s")) with (RPtr 4096 (text "hi")) in V3.
      destruct k as [[]| | | | |]; destruct V3 as [V3 _]; try contradiction.
      all: split; [|first [exact I | exact eq_refl]].
      all: first [exact eq_refl | split; [exact eq_refl|]; intros X; apply repeat_spec in X; discriminate X]. }
    pose proof (proj1 fk1_fine). repeat (apply ev_pass || apply ev_fork || apply ev_exit || apply ev_nil); auto.
  - constructor; [|constructor]. constructor; [exact fk1_run|]. constructor; [constructor; [exact fk2_run|repeat constructor]|]. constructor; [exact fk2_run|]. repeat constructor.
  - eapply fplay_reach; [apply re_start|exact E].
  - vm_compute in E. injection E as <-. repeat constructor.
  - vm_compute in E. injection E as <-. intros. unfold reads. rewrite read_trace_transfer. destruct t; eexists; crunch.
Qed.
Print Assumptions C87_large_refuted.

(** Forking while another thread is inside a logging statement, (1): the child
    inherits the beginning of that thread's point and writes it when it exits;
    the log cannot be read although every process ends normally. *)
Definition half_items : list (list item) := [[IPass fk1; IFork [IExit]; IExit]; [IPass fk0]].
Definition half_acts : list (list pact) := [map PDo fa1 ++ [PFork [PExit]; PExit]; map PDo fa0 ++ []].
Theorem C87_half_refuted : exists s,
  Forall (every (fun e => event_ok ex_sites e /\ fits_buffer ex_code 4096 e)) half_items /\ Forall2 (runs ex_code) half_items half_acts /\
  reach 4096 4096 (fun _ _ => True) (fstart 4096 ex_names ex_types half_acts) s /\ Forall ended (f_procs s) /\
  forall coins pos t, exists err, reads (fun _ => true) coins pos t 0 (f_file s) = Throw err.
Proof.
  destruct (fplay 4096 4096 (fstart 4096 ex_names ex_types half_acts)
    (repeat (0, 0) (length fa1 + 1) ++ repeat (0, 1) 5 ++ [(0, 0); (1, 0); (1, 0)] ++ repeat (0, 1) (length fa0 - 5 + 1) ++ [(0, 0)])%nat) as [s|] eqn:E;
    [|exfalso; vm_compute in E; discriminate E].
  exists s. repeat match goal with |- _ /\ _ => split end.
  - pose proof fk0_fine. pose proof fk1_fine. repeat (apply Forall_cons || apply Forall_nil || apply ev_pass || apply ev_fork || apply ev_exit || apply ev_nil); auto.
  - constructor; [|constructor; [|constructor]].
    + constructor; [exact fk1_run|]. repeat constructor.
    + constructor; [exact fk0_run|]. constructor.
  - eapply fplay_reach; [apply re_start|exact E].
  - vm_compute in E. injection E as <-. repeat constructor.
  - vm_compute in E. injection E as <-. intros. unfold reads. rewrite read_trace_transfer. destruct t; eexists; crunch.
Qed.
Print Assumptions C87_half_refuted.

(** (2): a child that logs waits for ever, since the owner of its mutex does not
    exist in it: whatever happens afterwards it does not finish its first
    logging statement, unless it is killed. *)
Definition stuck_items : list (list item) := [[IPass fk1; IFork [IPass fk1; IExit]; IExit]; [IPass fk0]].
Definition stuck_acts : list (list pact) := [map PDo fa1 ++ [PFork (map PDo fa1 ++ [PExit]); PExit]; map PDo fa0 ++ []].
Theorem C87_stuck_refuted : exists s,
  Forall (every (fun e => event_ok ex_sites e /\ fits_buffer ex_code 4096 e)) stuck_items /\ Forall2 (runs ex_code) stuck_items stuck_acts /\
  reach 4096 4096 (fun _ _ => True) (fstart 4096 ex_names ex_types stuck_acts) s /\
  forall s', reach 4096 4096 (fun _ _ => True) s s' -> exists p, nth_error (f_procs s') 1 = Some p /\
    (q_threads p = [map PDo fa1 ++ [PExit]] \/ p = mkPr [] [] None []).
Proof.
  destruct (fplay 4096 4096 (fstart 4096 ex_names ex_types stuck_acts)
    (repeat (0, 0) (length fa1 + 1) ++ repeat (0, 1) 5 ++ [(0, 0)])%nat) as [s|] eqn:E; [|exfalso; vm_compute in E; discriminate E].
  exists s. repeat match goal with |- _ /\ _ => split end.
  - pose proof fk0_fine. pose proof fk1_fine. repeat (apply Forall_cons || apply Forall_nil || apply ev_pass || apply ev_fork || apply ev_exit || apply ev_nil); auto.
  - constructor; [|constructor; [|constructor]].
    + constructor; [exact fk1_run|]. constructor; [|repeat constructor]. constructor; [exact fk1_run|]. repeat constructor.
    + constructor; [exact fk0_run|]. constructor.
  - eapply fplay_reach; [apply re_start|exact E].
  - intros s' R. apply (blocked_lemma 4096 4096 s 1 1 (map PDo (tl fa1) ++ [PExit])) in R; [exact R|]. vm_compute in E. injection E as <-. eexists. reflexivity.
Qed.
Print Assumptions C87_stuck_refuted.
