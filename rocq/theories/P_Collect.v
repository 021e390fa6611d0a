(** Properties C64 - C66: collecting the traces of a test suite. *)
From Coq Require Import List Bool Arith ZArith Lia.
From Verif Require Import Base Handshake HandshakeSpec HandshakeProofs2 P_Handshake Collect CollectSpec CollectProofs.
Import ListNotations.
Open Scope nat_scope.

(** The traces of one test case: however the executions and the collector are
    interleaved, whatever dies or times out, no more than num-traces. *)
Theorem C64_one_case : forall c s n, reach c s -> cf_num c = Some n -> length (c_got s) <= n.
Proof.
  intros c s n HR HN.
  enough (H : length (c_got s) = c_i s /\ (c_pc s = CEnd -> c_i s <= n) /\ (c_pc s <> CEnd -> c_i s < n)).
  { destruct H as (-> & H1 & H2). destruct (c_pc s); try (apply Nat.lt_le_incl, H2; discriminate). apply H1. reflexivity. }
  assert (NX : forall s b got, length (c_got s) = c_i s -> c_i s < n ->
    let s' := next c b got s in length (c_got s') = c_i s' /\ (c_pc s' = CEnd -> c_i s' <= n) /\ (c_pc s' <> CEnd -> c_i s' < n)).
  { intros s0 b got H1 H2. unfold next. destruct b; [|split; [exact H1|split; [cbn; lia|cbn; congruence]]].
    cbv zeta. cbn [c_got c_i c_pc]. rewrite app_length, H1. cbn [length].
    destruct (more c (S (c_i s0))) eqn:E; unfold more in E; rewrite HN in E.
    - apply Nat.ltb_lt in E. split; [lia|split; [intros X; discriminate X|lia]].
    - split; [lia|split; [lia|congruence]]. }
  induction HR as [|s s' HR IH HS].
  - unfold start. cbn [c_got c_i c_pc]. destruct (more c 0) eqn:E; unfold more in E; rewrite HN in E.
    + apply Nat.ltb_lt in E. split; [reflexivity|split]; [intros X; discriminate X|lia].
    + split; [reflexivity|split]; [lia|congruence].
  - destruct IH as (H1 & H2 & H3). inversion HS as [s1 HC|l1 e l2 pc s1 HX HP|r t HT HA HE|HA HE]; subst.
    + assert (K : c_pc s <> CEnd -> c_i s < n) by exact H3.
      inversion HC; subst; try (apply NX; [exact H1|apply K; congruence]);
        try (cbn; split; [|split]; [exact H1|intros X; discriminate X|intros _; apply K; congruence]).
      * apply NX; [exact H1|]. apply K. intros E. match goal with H : In _ _ |- _ => rewrite E in H; cbn in H; intuition discriminate end.
      * cbn. split; [|split]; [exact H1|intros _; apply H2; assumption|congruence].
    + cbn. destruct HP; cbn; (split; [|split]; assumption).
    + cbn. split; [|split]; assumption.
    + cbn. split; [|split]; assumption.
Qed.
Print Assumptions C64_one_case.

(** C64.  A test suite: if no test case gives more traces than it is asked for
    (C64_one_case), the database never holds more than num-traces, whether
    collect-traces returns or is left by an error. *)
Theorem C64_limit : forall T n (ts : list (tcase T)) ph w d,
  Forall (fun t => forall m, length (tc_run t (Some m)) <= m) ts -> w_bin w = true \/ ph = PhOk true ->
  w_db (fst (collect_traces binary_case ph (Some n) ts w)) = Some d -> length d <= n.
Proof. exact collect_limit. Qed.
Print Assumptions C64_limit.

(** If the test cases can supply the traces [avail t], and collect-traces returns,
    the database holds exactly the first num-traces of them, in the order of the
    test cases.  Traces collected earlier are gone. *)
Theorem C64_collected : forall T (avail : tcase T -> list T) num ts ph w w', Forall (supplies avail) ts ->
  w_bin w = true \/ ph = PhOk true ->
  collect_traces binary_case ph num ts w = (w', Returns) -> w_db w' = Some (upto num (concat (map avail ts))).
Proof. exact collect_returns. Qed.
Print Assumptions C64_collected.

(** It does return if every test case supplies a trace and the limit is not
    reached before the last test case; if it is left by an error, the traces up
    to the failing test case are in the database, and that test case supplies
    none or the limit had been reached before it. *)
Theorem C64_succeeds : forall T (avail : tcase T -> list T) num ts ph w, Forall (supplies avail) ts ->
  w_bin w = true \/ ph = PhOk true -> Forall (fun t => avail t <> []) ts -> within avail num ts ->
  snd (collect_traces binary_case ph num ts w) = Returns.
Proof.
  intros T avail num ts ph w HS HB HA HW.
  destruct (collect_any T avail num ts ph w HS HB) as (l1 & l2 & EQ & _ & H).
  destruct (snd (collect_traces binary_case ph num ts w)); [reflexivity|]. exfalso.
  destruct (H eq_refl) as (a & t & -> & _ & H1). rewrite <- app_assoc in EQ. cbn in EQ. destruct H1 as [H1|(n & -> & H1)].
  - rewrite Forall_forall in HA. apply (HA t); [rewrite EQ; apply in_or_app; right; left; reflexivity|exact H1].
  - specialize (HW a t l2 EQ). lia.
Qed.
Print Assumptions C64_succeeds.

Theorem C64_error : forall T (avail : tcase T -> list T) num ts ph w w', Forall (supplies avail) ts ->
  w_bin w = true \/ ph = PhOk true ->
  collect_traces binary_case ph num ts w = (w', Signals) ->
  exists a t b, ts = a ++ t :: b /\ w_db w' = Some (upto num (concat (map avail (a ++ [t])))) /\ tc_ignore t = false /\
    (avail t = [] \/ exists n, num = Some n /\ n <= length (concat (map avail a))).
Proof.
  intros T avail num ts ph w w' HS HB HC.
  destruct (collect_any T avail num ts ph w HS HB) as (l1 & l2 & EQ & HD & H). rewrite HC in HD, H.
  destruct (H eq_refl) as (a & t & -> & H1 & H2). exists a, t, l2.
  split; [rewrite EQ, <- app_assoc; reflexivity|]. split; [exact HD|]. auto.
Qed.
Print Assumptions C64_error.

(** The test cases of C61: what their executions are expected to give is what
    they can supply. *)
Theorem C64_executions : forall R num runs, expected R num runs = upto num (expected R None runs).
Proof.
  intros R num runs. revert num. induction runs as [|log r IH]; intros num.
  - destruct num as [[|n]|]; reflexivity.
  - destruct num as [[|n]|]; [reflexivity| |reflexivity]. cbn. destruct (recorded R [] log); [|reflexivity].
    cbn. f_equal. apply (IH (Some n)).
Qed.
Print Assumptions C64_executions.

Definition case_of (R : reader) (runs : list (list chunk)) (ignore : bool) : tcase (list chunk) :=
  mkTC (fun num => expected R num runs) ignore (PhOk true).
Lemma case_supplies : forall R rs ignore, Forall (supplies (fun t => tc_run t None)) (map (fun r => case_of R r ignore) rs).
Proof. intros. apply Forall_forall. intros t H. apply in_map_iff in H. destruct H as (r & <- & _). intros num. apply C64_executions. Qed.

Example C64_ex : exists w,
  collect_traces binary_case (PhOk true) (Some 3) (map (fun r => case_of whole r false) [[log1; log2]; [log2; log1]]) (mkW false (Some [log2]) 0) = (w, Returns)
  /\ w_db w = Some [log1; log2; log2] /\ Forall (supplies (fun t => tc_run t None)) (map (fun r => case_of whole r false) [[log1; log2]; [log2; log1]]).
Proof. eexists. split; [vm_compute; reflexivity|]. split; [reflexivity|apply case_supplies]. Qed.
Example C64_ex_error :
  collect_traces binary_case (PhOk true) None (map (fun r => case_of whole r false) [[log1]; [[]]; [log2]]) (mkW false None 0) = (mkW false (Some [log1]) 0, Signals).
Proof. vm_compute. reflexivity. Qed.

(** Reaching the limit is not a quiet end: the next test case, asked for no
    traces, ends in an error. *)
Theorem C64_quiet_refuted : exists ts : list (tcase (list chunk)), Forall (supplies (fun t => tc_run t None)) ts /\
  Forall (fun t => tc_run t None <> []) ts /\ exists w, collect_traces binary_case (PhOk true) (Some 1) ts (mkW false None 0) = (w, Signals).
Proof.
  exists (map (fun r => case_of whole r false) [[log1]; [log2]]). split; [apply case_supplies|]. split.
  - constructor; [vm_compute; discriminate|]. constructor; [vm_compute; discriminate|]. constructor.
  - eexists. vm_compute. reflexivity.
Qed.
Print Assumptions C64_quiet_refuted.

(** The variant for logs of s-expressions does not look at num-traces. *)
Theorem C64_sexp_refuted : exists (ts : list (tcase (list chunk))) w d, Forall (fun t => forall m, length (tc_run t (Some m)) <= m) ts /\
  collect_traces sexp_case (PhOk true) (Some 1) ts (mkW false None 0) = (w, Returns) /\ w_db w = Some d /\ length d = 2.
Proof.
  exists (map (fun r => case_of whole r false) [[log1]; [log2]]). eexists. eexists. split; [|split; [vm_compute; reflexivity|split; reflexivity]].
  assert (H : forall t, In t (map (fun r => case_of whole r false) [[log1]; [log2]]) -> forall m, length (tc_run t (Some m)) <= m).
  { intros t H m. pose proof (proj1 (Forall_forall _ _) (case_supplies whole [[log1]; [log2]] false) t H (Some m)) as E.
    rewrite E. cbn. apply firstn_le_length. }
  apply Forall_forall. exact H.
Qed.
Print Assumptions C64_sexp_refuted.

(** It does give one trace for each test case, in order. *)
Theorem C64_sexp : forall T num (ts : list (tcase T)) ph w w', w_bin w = true \/ ph = PhOk true ->
  collect_traces sexp_case ph num ts w = (w', Returns) ->
  w_db w' = Some (concat (map (fun t => firstn 1 (tc_run t (Some 1))) ts)).
Proof.
  intros T num ts ph w w' HB H. unfold collect_traces, with_bin in H.
  assert (L : forall (ts : list (tcase T)) w1 w2 d, w_bin w1 = true -> w_db w1 = Some d -> cases_loop sexp_case num ts w1 = (w2, Returns) ->
    w_db w2 = Some (d ++ concat (map (fun t => firstn 1 (tc_run t (Some 1))) ts))).
  { clear. induction ts as [|t r IH]; intros w1 w2 d HB HD H; cbn in H.
    - injection H as <-. cbn. rewrite app_nil_r. exact HD.
    - unfold sexp_case at 1 in H. rewrite with_bin_true in H by exact HB. cbn [map concat].
      destruct (tc_run t (Some 1)) as [|tr rest] eqn:E.
      + destruct (tc_ignore t); [|discriminate H]. cbn. eapply IH; [| |exact H]; [exact HB|exact HD].
      + cbn [firstn app]. rewrite (IH (finish_test (add_traces [tr] (start_test w1))) w2 (d ++ [tr])); [rewrite <- app_assoc; reflexivity|exact HB| |exact H].
        cbn. rewrite HD. reflexivity. }
  destruct (w_bin w) eqn:EB.
  - apply L with (d := []) in H; [exact H|reflexivity|reflexivity].
  - destruct HB as [HB| ->]; [discriminate HB|]. cbn [set_bin w_bin w_db w_procs] in H.
    destruct (cases_loop sexp_case num ts _) as [w1 e1] eqn:E1. injection H as <- ->. apply L with (d := []) in E1; [exact E1|reflexivity|reflexivity].
Qed.
Print Assumptions C64_sexp.

(** C65.  The compiled program: it exists afterwards exactly if it existed
    before, whether the collection returns, is skipped, or is left by an error
    - unless a compilation that signals an error leaves a file. *)
Theorem C65_binary : forall T ph num (ts : list (tcase T)) w, tidy ph ->
  w_bin (fst (collect_traces binary_case ph num ts w)) = w_bin w /\
  w_bin (fst (collect_traces sexp_case ph num ts w)) = w_bin w.
Proof.
  intros. split; apply collect_bin; try assumption; intros; [apply binary_keeps|apply sexp_keeps]; assumption.
Qed.
Print Assumptions C65_binary.

Theorem C65_one_case : forall T (t : tcase T) num w, tidy (tc_phen t) ->
  w_bin (fst (binary_case t num w)) = w_bin w /\ w_bin (fst (sexp_case t num w)) = w_bin w.
Proof. exact case_bin. Qed.
Print Assumptions C65_one_case.

(** A program that was already there is left alone whatever compilation would do. *)
Theorem C65_existing : forall T ph num (ts : list (tcase T)) w, w_bin w = true ->
  w_bin (fst (collect_traces binary_case ph num ts w)) = true.
Proof.
  intros T ph num ts w H. unfold collect_traces. rewrite with_bin_true by exact H. apply loop_keeps; [apply binary_keeps|exact H].
Qed.
Print Assumptions C65_existing.

(** A compilation that signals an error runs no test.  The restart that skips leaves
    the traces as they were and the call returns; the restart that sets the traces to
    nothing does that, and the call returns; without a restart the call is left by the
    error and the traces are as they were. *)
Theorem C65_restarts : forall T one made num (ts : list (tcase T)) w, w_bin w = false ->
  (forall w' e, collect_traces one (PhErr made ChSkip) num ts w = (w', e) ->
     w_db w' = w_db w /\ w_procs w' = w_procs w /\ e = Returns) /\
  (forall w' e, collect_traces one (PhErr made ChNil) num ts w = (w', e) ->
     w_db w' = None /\ w_procs w' = w_procs w /\ e = Returns) /\
  (forall w' e, collect_traces one (PhErr made ChUnwind) num ts w = (w', e) ->
     w_db w' = w_db w /\ w_procs w' = w_procs w /\ e = Signals).
Proof.
  intros T one made num ts w H. unfold collect_traces, with_bin. rewrite H.
  repeat split; intros; match goal with h : _ = (_, _) |- _ => injection h as <- <- end; reflexivity.
Qed.
Print Assumptions C65_restarts.

(** The same for a single test case: the restart keeps the traces, and otherwise the
    error leaves the call with the traces as they were. *)
Theorem C65_case_restarts : forall T (t : tcase T) made ch num w, w_bin w = false -> tc_phen t = PhErr made ch ->
  forall f w' e, f = binary_case \/ f = sexp_case -> f t num w = (w', e) ->
  w_db w' = w_db w /\ w_procs w' = w_procs w /\ (e = Returns <-> ch = ChSkip).
Proof.
  intros T t made ch num w H P f w' e F E.
  destruct F as [-> | ->]; [unfold binary_case in E | unfold sexp_case in E]; unfold with_bin in E;
    rewrite H, P in E; destruct ch; injection E as <- <-; repeat split; intros; (reflexivity || discriminate).
Qed.
Print Assumptions C65_case_restarts.

Example C65_restarts_ex :
  w_db (fst (collect_traces binary_case (PhErr false ChNil) None [case_of whole [log1] false] (mkW false (Some [log2]) 0))) = None /\
  w_db (fst (collect_traces binary_case (PhErr false ChSkip) None [case_of whole [log1] false] (mkW false (Some [log2]) 0))) = Some [log2].
Proof. split; reflexivity. Qed.

Theorem C65_failed_compilation_refuted : exists ph (ts : list (tcase nat)) w,
  w_bin w = false /\ w_bin (fst (collect_traces binary_case ph None ts w)) = true /\ snd (collect_traces binary_case ph None ts w) = Returns.
Proof. exists (PhErr true ChSkip), [], (mkW false None 0). repeat split. Qed.
Print Assumptions C65_failed_compilation_refuted.

Example C65_ex : tidy (PhOk true) /\ tidy (PhErr false ChNil) /\
  w_bin (fst (collect_traces binary_case (PhOk true) None (map (fun r => case_of whole r false) [[log1]; [[]]; [log2]]) (mkW false None 0))) = false.
Proof. vm_compute. auto. Qed.

(** C66.  No test process is left running by the collection of binary traces,
    however it ends. *)
Theorem C66_processes : forall T ph num (ts : list (tcase T)) w,
  w_procs (fst (collect_traces binary_case ph num ts w)) = w_procs w.
Proof. exact collect_procs. Qed.
Print Assumptions C66_processes.

(** The variant for s-expressions leaves one running if no trace is found. *)
Theorem C66_sexp_refuted : exists (ts : list (tcase (list chunk))) w,
  collect_traces sexp_case (PhOk true) None ts (mkW false None 0) = (w, Signals) /\ w_procs w = 1.
Proof. exists [case_of whole [[]] false]. eexists. split; [vm_compute; reflexivity|reflexivity]. Qed.
Print Assumptions C66_sexp_refuted.

(** It leaves none running if it returns. *)
Theorem C66_sexp : forall T ph num (ts : list (tcase T)) w w',
  collect_traces sexp_case ph num ts w = (w', Returns) -> w_procs w' = w_procs w.
Proof.
  intros T ph num ts w w' H.
  assert (L : forall (ts : list (tcase T)) w1 w2, cases_loop sexp_case num ts w1 = (w2, Returns) -> w_procs w2 = w_procs w1).
  { clear. induction ts as [|t r IH]; intros w1 w2 H; cbn in H; [injection H as <-; reflexivity|].
    match type of H with context [sexp_case t ?n w1] => pose proof (sexp_procs_one T t n w1) as P; destruct (sexp_case t n w1) as [w3 [|]] end;
      [|discriminate H]. cbn in P. destruct P as [P|[_ P]]; [|discriminate P]. rewrite <- P. apply IH. exact H. }
  unfold collect_traces, with_bin in H. destruct (w_bin w).
  - apply L in H. exact H.
  - destruct ph as [made|made [| |]]; cbn in H; try discriminate H; try (injection H as <-; reflexivity).
    destruct (cases_loop sexp_case num ts _) as [w1 e1] eqn:E. injection H as <- ->. apply L in E. exact E.
Qed.
Print Assumptions C66_sexp.
