(** C105: programs whose writes to the log fail, for example because the disk is full. *)
From Verif Require Import BaseProofs Types Stream SkipList MemMapSpec Reader FormatSpec ReaderMore ReaderProps.
From Verif Require Import Instr InstrRun InstrSpec InstrConc InstrProofs InstrEnd Ilp32 Full FullProofs P_Instr.

(** The threads do what they do without failures: mutex, bytes handed to the FILE and
    remaining actions are those of a run of InstrRun.v. *)
Theorem C105_undisturbed : forall back whole names types ths s, fsteps back whole (fstart names types ths) s ->
  exists d, rsteps (rstart names types ths) (mkR (f_lock s) (f_all s) d (f_threads s)).
Proof. exact undisturbed. Qed.
Print Assumptions C105_undisturbed.

(** From every state that the program reaches, all threads can finish, whether the disk
    has room again or not. *)
Theorem C105_goes_on : forall test kf sites names types code, Forall (site_ok kf) sites -> tells_apart test (all_texts sites) ->
  instrumented test sites names types code -> fits names types ->
  forall ths acts, Forall (Forall (event_ok sites)) ths -> Forall2 (Forall2 (fun e a => event_run code e = Ok a)) ths acts ->
  forall back whole s, fsteps back whole (fstart names types (map (@concat action) acts)) s ->
  exists s', fsteps back whole s s' /\ Forall (eq []) (f_threads s').
Proof. intros test kf sites names types code S T I F. exact (goes_on test kf sites names types code S T I F). Qed.
Print Assumptions C105_goes_on.

(** No write has failed up to the state [s1]; afterwards any writes fail, in any part, and
    others succeed.  The passes finished at [s1] can be read from the file at all times:
    with their number as limit the library gives exactly these. *)
Theorem C105_kept : forall test kf sites names types code, Forall (site_ok kf) sites -> tells_apart test (all_texts sites) ->
  instrumented test sites names types code -> fits names types ->
  forall ths, Forall (Forall (event_ok sites)) ths ->
  exists acts, Forall2 (Forall2 (fun e a => event_run code e = Ok a)) ths acts /\
    forall back whole s1 s2, fsteps back whole (fstart names types (map (@concat action) acts)) s1 -> f_failed s1 = false -> fsteps back whole s1 s2 ->
    exists order rest done part, merge ths (order ++ rest) /\ Forall2 (fun e a => event_run code e = Ok a) order done /\
      f_all s1 = written (write_trace_header names types) ++ concat (map written done) ++ part /\
      (f_lock s1 = None -> part = []) /\
      (part <> [] -> exists e rest' a more, rest = e :: rest' /\ event_run code e = Ok a /\ written a = part ++ more) /\
      (order <> [] -> first_passes sites names types (f_file s2) (length order) order).
Proof.
  intros test kf sites names types code S T I F ths HO.
  destruct (at_moment test kf sites names types code S T I F ths HO) as (acts & A & M). exists acts. split; [exact A|].
  intros back whole s1 s2 R1 NF R2. destruct (before_failure _ _ _ _ _ _ R1 NF) as [IA IB].
  destruct (M _ IB) as (order & rest & done & part & M1 & M2 & M3 & M4 & M5 & M6 & M7). cbn [r_out r_lock r_disk] in *.
  exists order, rest, done, part. pose proof F as (_ & _ & L3).
  rewrite header_bytes by (exact (names_free test kf sites S T names types code I) || exact L3). repeat split; auto.
  intros NE. specialize (M6 NE). rewrite <- IA, app_assoc in M3. symmetry in M3.
  destruct (prefix_long _ _ _ _ _ M3 M6) as (m & E). destruct (file_grows _ _ _ _ R2) as (m2 & E2). rewrite E2, E, <- !app_assoc.
  assert (LN : length order = length done) by (clear -M2; induction M2; cbn; congruence).
  specialize (M7 (length order) (m ++ m2)). replace (firstn (length order) done) with done in M7 by (rewrite LN; symmetry; apply firstn_all). apply M7. destruct order; [congruence|cbn; lia].
Qed.
Print Assumptions C105_kept.

(** The disk stays full: the file is at all times the beginning of what the program wrote,
    and every pass whose bytes are in it is read, in order. *)
Theorem C105_full : forall test kf sites names types code, Forall (site_ok kf) sites -> tells_apart test (all_texts sites) ->
  instrumented test sites names types code -> fits names types ->
  forall ths, Forall (Forall (event_ok sites)) ths ->
  exists acts, Forall2 (Forall2 (fun e a => event_run code e = Ok a)) ths acts /\
    forall whole s, fsteps false whole (fstart names types (map (@concat action) acts)) s ->
    (exists lost, f_all s = f_file s ++ lost) /\
    exists order rest done part, merge ths (order ++ rest) /\ Forall2 (fun e a => event_run code e = Ok a) order done /\
      f_all s = written (write_trace_header names types) ++ concat (map written done) ++ part /\
      (f_lock s = None -> part = []) /\
      forall n, (0 < n <= length order)%nat ->
        lenN (written (write_trace_header names types) ++ concat (map written (firstn n done))) <= lenN (f_file s) ->
        first_passes sites names types (f_file s) n order.
Proof.
  intros test kf sites names types code S T I F ths HO.
  destruct (at_moment test kf sites names types code S T I F ths HO) as (acts & A & M). exists acts. split; [exact A|].
  intros whole s R. destruct (file_prefix _ _ _ _ _ R) as (lost & EL & _). split; [exists lost; exact EL|].
  destruct (undisturbed _ _ _ _ _ _ R) as (d & U).
  destruct (M _ U) as (order & rest & done & part & M1 & M2 & M3 & M4 & M5 & M6 & M7). cbn [r_out r_lock r_disk] in *.
  exists order, rest, done, part. pose proof F as (_ & _ & L3).
  rewrite header_bytes by (exact (names_free test kf sites S T names types code I) || exact L3). repeat split; auto.
  intros n L LE. rewrite EL in M3. symmetry in M3.
  assert (E : (enc_header names types ++ concat (map written (firstn n done))) ++ (concat (map written (skipn n done)) ++ part) = f_file s ++ lost).
  { rewrite <- M3. rewrite <- (firstn_skipn n done) at 3. rewrite map_app, concat_app, <- !app_assoc. reflexivity. }
  destruct (prefix_long _ _ _ _ _ E LE) as (m & EM). rewrite EM, <- app_assoc. apply M7. exact L.
Qed.
Print Assumptions C105_full.

(** Without a limit too: whatever trace the library reads from the file at any moment, with
    any memory, shows the first ones of the passes, up to the end of the file. *)
Theorem C105_full_sound : forall test kf sites names types code, Forall (site_ok kf) sites -> tells_apart test (all_texts sites) ->
  instrumented test sites names types code -> fits names types ->
  forall ths, Forall (Forall (event_ok sites)) ths ->
  exists acts, Forall2 (Forall2 (fun e a => event_run code e = Ok a)) ths acts /\
    forall whole s, fsteps false whole (fstart names types (map (@concat action) acts)) s ->
    forall ok coins pos t tr, read_trace ok (skip_map coins pos) 0 (open_stream (f_file s) t) = Ok tr ->
    exists order rest, merge ths (order ++ rest) /\ tr_names tr = names /\ (tr_types tr = types \/ tr_points tr = []) /\
      Forall2 (event_shows sites tr) order (tr_points tr).
Proof.
  intros test kf sites names types code S T I F ths HO.
  destruct (C41_log_read_back test kf sites names types code S T I F ths HO) as (acts & A & RB). exists acts. split; [exact A|].
  intros whole s R ok coins pos t tr RD.
  destruct (goes_on test kf sites names types code S T I F ths acts HO A _ _ _ R) as (s' & R' & FI).
  destruct (undisturbed _ _ _ _ _ _ (fr_trans _ _ _ _ _ R R')) as (d & U).
  destruct (RB _ U FI (fun _ => true) coins pos t (fun _ _ => eq_refl)) as (order & tr0 & M & R0 & E1 & E2 & SH & _). cbn [r_out] in R0.
  destruct (file_prefix _ _ _ _ _ R) as (lost & EL & _). destruct (all_grows _ _ _ _ R') as (more & EM). rewrite EM, EL, <- app_assoc in R0.
  assert (RD' : read_trace (fun _ => true) (skip_map coins pos) 0 (open_stream (f_file s) t) = Ok tr).
  { apply read_iff. apply read_iff in RD. eapply NeedProofs.accepted_need; [|exact RD]. intros n _. reflexivity. }
  pose proof (truncation_lemma _ _ _ _ _ _ _ _ R0) as X. rewrite RD' in X. destruct X as (X1 & (pm & X2) & X3).
  rewrite X2 in SH. apply Forall2_app_inv_r in SH. destruct SH as (o1 & o2 & SH & _ & EO). subst order.
  exists o1, o2. split; [exact M|]. split; [congruence|]. split; [destruct X3; [left; congruence|right; assumption]|].
  destruct X3 as [X3|X3]; [exact (same_tables _ _ _ _ _ X1 X3 SH)|]. rewrite X3 in *. inversion SH; subst. constructor.
Qed.
Print Assumptions C105_full_sound.

(** Each write arrives as a whole or not at all and the header has arrived: whichever
    writes fail later, the finished log reads as a trace of some of the passes, in an
    order in which they happened and with the values that the variables had. *)
Theorem C105_whole : forall test kf sites names types code, Forall (site_ok kf) sites -> tells_apart test (all_texts sites) ->
  instrumented test sites names types code -> fits names types ->
  forall ths, Forall (Forall (event_ok sites)) ths ->
  exists acts, Forall2 (Forall2 (fun e a => event_run code e = Ok a)) ths acts /\
    forall back s1 s2, fsteps back true (fstart names types (map (@concat action) acts)) s1 -> f_failed s1 = false -> f_file s1 <> [] ->
    fsteps back true s1 s2 -> Forall (eq []) (f_threads s2) ->
    forall ok coins pos t, (forall n, n <= lenN (f_file s2) -> ok n = true) ->
    exists order kept tr, merge ths order /\ sublist kept order /\ read_trace ok (skip_map coins pos) 0 (open_stream (f_file s2) t) = Ok tr /\
      tr_names tr = names /\ tr_types tr = types /\ Forall2 (event_shows sites tr) kept (tr_points tr).
Proof. intros test kf sites names types code S T I F. exact (whole_read test kf sites names types code S T I F). Qed.
Print Assumptions C105_whole.

(** Otherwise the log can lie.  A program without variables passes two places once each,
    statements [id1] and [id2]; one byte of the first point arrives.  The library accepts
    the log and shows a statement that the program need not have, and a point without one. *)
Theorem C105_hole_refuted : forall names types id1 id2 env, tables_ok names types -> id2 < 2 ^ 56 ->
  exists a1 a2 s, event_run [[IId id1; IEnd]; [IId id2; IEnd]] (0%nat, env) = Ok a1 /\ event_run [[IId id1; IEnd]; [IId id2; IEnd]] (1%nat, env) = Ok a2 /\
    fsteps true false (fstart names types [a1 ++ a2]) s /\ Forall (eq []) (f_threads s) /\
    forall ok coins pos t, (forall n, n <= lenN (f_file s) -> ok n = true) ->
    exists tr, read_trace ok (skip_map coins pos) 0 (open_stream (f_file s) t) = Ok tr /\ map p_stmt (tr_points tr) = [Some (256 * id2 + 1); None].
Proof.
  intros names types id1 id2 env TO Q. set (H := written (write_trace_header names types)).
  assert (E : takeN (lenN H + 1) (H ++ bare_bytes id1) = H ++ [x01]).
  { change (bare_bytes id1) with ([x01] ++ le_bytes 8 id1 ++ [x00]). rewrite app_assoc. apply takeN_app. rewrite lenN_app. reflexivity. }
  destruct (hole_run false names types id1 id2 (lenN H + 1)) as (s & R & FI & FE).
  { fold H. rewrite lenN_app. unfold bare_bytes. rewrite !lenN_app, lenN_le_bytes. change (lenN [x01]) with 1. lia. }
  { discriminate. }
  exists (bare id1), (bare id2), s. repeat split; auto.
  intros ok coins pos t OK. fold H in FE. rewrite E, <- app_assoc in FE. exact (hole_read names types id2 TO Q _ FE ok coins pos t OK).
Qed.
Print Assumptions C105_hole_refuted.

(** And if the first write fails as a whole, the header is lost for good: no trace is
    ever read from the log, whatever its other points. *)
Theorem C105_header_refuted : forall names types id1 id2 env, 0 < id2 -> id2 < 2 ^ 56 ->
  exists a1 a2 s, event_run [[IId id1; IEnd]; [IId id2; IEnd]] (0%nat, env) = Ok a1 /\ event_run [[IId id1; IEnd]; [IId id2; IEnd]] (1%nat, env) = Ok a2 /\
    fsteps true true (fstart names types [a1 ++ a2]) s /\ Forall (eq []) (f_threads s) /\
    forall ok coins pos max t tr, read_trace ok (skip_map coins pos) max (open_stream (f_file s) t) <> Ok tr.
Proof.
  intros names types id1 id2 env P Q.
  destruct (hole_run true names types id1 id2 0) as (s & R & FI & FE).
  { rewrite lenN_app. unfold bare_bytes. rewrite !lenN_app, lenN_le_bytes. change (lenN [x01]) with 1. lia. }
  { reflexivity. }
  exists (bare id1), (bare id2), s. repeat split; auto.
  assert (FE' : f_file s = bare_bytes id2) by (rewrite FE; destruct (written (write_trace_header names types)); reflexivity).
  intros ok coins pos max t tr X. rewrite FE' in X. apply read_iff in X. exact (no_trace _ _ _ P Q _ X).
Qed.
Print Assumptions C105_header_refuted.

(** ** The program of C41_ex *)
Ltac go := repeat first
  [ eapply fr_one; [eapply fs_lock with (i := 0%nat); reflexivity|cbn [update app]]
  | eapply fr_one; [eapply fs_unlock with (i := 0%nat); reflexivity|cbn [update app]]
  | eapply fr_one; [eapply fs_write with (i := 0%nat); reflexivity|cbn [update]] ].

(** Its first pass arrives, its second one is lost; then the disk has room again. *)
Example C105_ex : exists a b s1 s2, event_run ex_code (0%nat, ex_env (-3)) = Ok a /\ event_run ex_code (1%nat, ex_env 7) = Ok b /\
  fsteps true true (fstart ex_names ex_types [a ++ b ++ a]) s1 /\ f_failed s1 = false /\ f_file s1 <> [] /\
  fsteps true true s1 s2 /\ Forall (eq []) (f_threads s2) /\
  f_file s2 = written (write_trace_header ex_names ex_types) ++ written a ++ written a.
Proof.
  do 4 eexists. split; [vm_compute; reflexivity|]. split; [vm_compute; reflexivity|]. unfold fstart. set (H := written (write_trace_header ex_names ex_types)). cbn [app].
  split; [|split; [|split; [|split; [|split]]]].
  - go. eapply fr_one; [eapply fs_flush with (i := 0%nat); [reflexivity|left; reflexivity]|]. cbn [update]. apply fr_refl.
  - reflexivity.
  - intros X. apply (f_equal (@length byte)) in X. vm_compute in X. discriminate.
  - go. eapply fr_one; [eapply fs_flush_fails with (i := 0%nat) (k := 0); [reflexivity|vm_compute; reflexivity|left; reflexivity]|]. cbn [update].
    go. eapply fr_one; [eapply fs_flush with (i := 0%nat); [reflexivity|right; reflexivity]|]. cbn [update]. go. apply fr_refl.
  - cbn [f_threads]. constructor; [reflexivity|constructor].
  - vm_compute. reflexivity.
Qed.
Example C105_hyps : Forall (site_ok ex_kf) ex_sites /\ tells_apart equal_test (all_texts ex_sites) /\ instrumented equal_test ex_sites ex_names ex_types ex_code /\
  fits ex_names ex_types /\ Forall (Forall (event_ok ex_sites)) ex_threads.
Proof. exact C41_hyps. Qed.
