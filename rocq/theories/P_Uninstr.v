(** Property C91: instrumentation can be recognised and removed, however often it
    was applied, also in projects (instrumentation/instrument.lisp:20-58,
    c-cpp.lisp:417-420, 514-605).

    [instruments im js o]: the file [o] instrumented once for each element of [js],
    each time with any filter and any calls; [rounds]: the same for projects;
    [clean]: nothing in the file was inserted. *)
From Coq Require Import List Bool Arith NArith Lia.
From Verif Require Import Base Types Instr Splice SpliceSpec SetupSpec Uninstr SpliceProofs6 SetupProofs3 UninstrProofs.
From Verif Require P_Setup.
Import ListNotations.
Open Scope nat_scope.

Definition instruments (is_main : ast -> bool) (js : list job) (o : software) : software :=
  fold_left (instrument_with is_main) js o.
Definition rounds (is_main : ast -> bool) (jss : list (list job)) (p : cproject) : cproject :=
  fold_left (instrument_pr is_main) jss p.
(** How often a piece of support code stands in a file. *)
Definition copies (n : N) (o : software) : nat :=
  length (filter (fun c => match c with Setup k => N.eqb n k | _ => false end) (texts (sw_genome o))).

(** C91.  One call of uninstrument restores the text, however often the file was
    instrumented; a flag is left for each time. *)
Theorem C91_restored : forall is_main js o, clean (sw_genome o) = true ->
  sw_genome (uninstrument (instruments is_main js o)) = sw_genome o /\
  sw_flags (uninstrument (instruments is_main js o)) = sw_flags o ++ repeat lpthread (length js).
Proof.
  intros im js o C. split; [|apply flags_jobs]. unfold uninstrument. cbn [sw_genome].
  apply dressed_strip; [exact C|]. apply instruments_dressed, clean_dressed, C.
Qed.
Print Assumptions C91_restored.

(** So instrumenting afterwards has the same effect as on the original. *)
Theorem C91_afresh : forall is_main js j o, clean (sw_genome o) = true ->
  sw_genome (instrument_with is_main (uninstrument (instruments is_main js o)) j) = sw_genome (instrument_with is_main o j).
Proof. intros im js j o C. destruct (C91_restored im js o C) as [E _]. unfold instrument_with, instrument. cbn [sw_genome]. rewrite E. reflexivity. Qed.
Print Assumptions C91_afresh.

(** instrumented-p recognises every instrumented file that is not empty, and after
    uninstrument says what it said of the original. *)
Theorem C91_recognised : forall names_log is_main m js o, recognises is_main m -> n_kids (sw_genome o) <> [] -> js <> [] ->
  instrumented_p names_log (instruments is_main js o) = true /\
  (clean (sw_genome o) = true -> instrumented_p names_log (uninstrument (instruments is_main js o)) = instrumented_p names_log o).
Proof.
  intros nl im m js o R K J. split.
  - unfold instrumented_p. apply existsb_exists. exists (Setup 1). split; [|reflexivity]. apply cnt_pos_in. unfold instruments.
    rewrite (instruments_count im m R js o 1%N K). destruct js; [congruence|]. cbn. lia.
  - intros C. unfold instrumented_p. destruct (C91_restored im js o C) as [-> _]. reflexivity.
Qed.
Print Assumptions C91_recognised.

(** For projects: uninstrument restores all files that are developed (evolve-files),
    and the project is no longer instrumented. *)
Lemma files_dressed im js : forall ts os, Forall2 dressed ts (map sw_genome os) -> Forall2 dressed ts (map sw_genome (instrument_files im os js)).
Proof.
  induction js as [|j js IH]; intros ts os F; destruct os as [|o os]; cbn in *; auto.
  inversion F; subst. constructor; [apply instrument_dressed; assumption|auto].
Qed.
Theorem C91_project : forall names_log is_main jss p, Forall (fun o => clean (sw_genome o) = true) (pr_evolve p) ->
  map sw_genome (pr_evolve (uninstrument_pr (rounds is_main jss p))) = map sw_genome (pr_evolve p) /\
  instrumented_pr names_log (uninstrument_pr (rounds is_main jss p)) = instrumented_pr names_log p.
Proof.
  intros nl im jss p C.
  assert (E : map sw_genome (pr_evolve (uninstrument_pr (rounds im jss p))) = map sw_genome (pr_evolve p)).
  { assert (D : Forall2 dressed (map sw_genome (pr_evolve p)) (map sw_genome (pr_evolve (rounds im jss p)))).
    { assert (D0 : Forall2 dressed (map sw_genome (pr_evolve p)) (map sw_genome (pr_evolve p))).
      { induction C as [|o l H _ IH]; cbn; constructor; [apply clean_dressed, H|exact IH]. }
      revert D0. generalize (map sw_genome (pr_evolve p)) at 1 3 as ts. clear C. unfold rounds. revert p.
      induction jss as [|js jss IH]; intros p ts D; cbn [fold_left]; [exact D|]. apply IH. apply files_dressed, D. }
    cbn [uninstrument_pr pr_evolve]. revert D C. generalize (pr_evolve p) as os. generalize (pr_evolve (rounds im jss p)) as qs.
    induction qs as [|q qs IH]; intros [|o os] D C; inversion D; subst; cbn; [reflexivity|]. inversion C; subst. f_equal; [|apply IH; auto].
    apply dressed_strip; assumption. }
  split; [exact E|]. unfold instrumented_pr, instrumented_p. clear C. revert E.
  generalize (pr_evolve (uninstrument_pr (rounds im jss p))) as a. generalize (pr_evolve p) as b.
  induction b as [|y b IH]; intros [|x a] E; cbn in *; try discriminate; [reflexivity|]. injection E as E1 E2. rewrite E1, (IH _ E2). reflexivity.
Qed.
Print Assumptions C91_project.

(** In an instrumented project every file that is not empty is recognised, and
    the project is if it has such a file. *)
Theorem C91_project_recognised : forall names_log is_main m js p, recognises is_main m -> length js = length (pr_evolve p) ->
  Forall2 (fun o o' => n_kids (sw_genome o) <> [] -> instrumented_p names_log o' = true) (pr_evolve p) (pr_evolve (instrument_pr is_main p js)) /\
  (Exists (fun o => n_kids (sw_genome o) <> []) (pr_evolve p) -> instrumented_pr names_log (instrument_pr is_main p js) = true).
Proof.
  intros nl im m js p R L.
  assert (F : Forall2 (fun o o' => n_kids (sw_genome o) <> [] -> instrumented_p nl o' = true) (pr_evolve p) (pr_evolve (instrument_pr im p js))).
  { cbn [instrument_pr pr_evolve]. revert js L. induction (pr_evolve p) as [|o os IH]; intros [|j js] L; try discriminate L; cbn; constructor.
    - intros K. destruct (C91_recognised nl im m [j] o R K) as [H _]; [discriminate|exact H].
    - apply IH. injection L. auto. }
  split; [exact F|]. unfold instrumented_pr. clear L. induction F as [|o o' os os' H _ IH]; intros X; inversion X; subst; cbn; [rewrite H by (cbn in *; auto); reflexivity|].
  rewrite IH by assumption. apply orb_true_r.
Qed.
Print Assumptions C91_project_recognised.

(** Expected: uninstrument also removes the code from the other files of the
    project that have a main.  False: they keep all of it, but the project no longer
    counts as instrumented. *)
Theorem C91_others_refuted : forall names_log is_main m js p o,
  recognises is_main m -> Forall (fun o => clean (sw_genome o) = true) (pr_evolve p) -> instrumented_pr names_log p = false ->
  In o (pr_other p) -> n_kids (sw_genome o) <> [] -> mains is_main (sw_genome o) <> 0 ->
  let q := uninstrument_pr (rounds is_main [js] p) in
  instrumented_pr names_log q = false /\
  exists o', In o' (pr_other q) /\ instrumented_p names_log o' = true /\
    copies 1 o' = S (copies 1 o) /\ copies 2 o' = S (copies 2 o) /\ copies 3 o' = mains is_main (sw_genome o) + copies 3 o /\ copies 4 o' = S (copies 4 o).
Proof.
  intros nl im m js p o R C NI Ho K Z q. split; [unfold q; rewrite (proj2 (C91_project nl im [js] p C)); exact NI|].
  exists (setup_only im o). split; [unfold q; cbn; apply in_map, Ho|].
  pose proof (fun n => proj1 (setup_count im m o n R K Z)) as S. unfold support_count in S. destruct (Nat.eqb_spec (mains im (sw_genome o)) 0); [contradiction|].
  split; [apply existsb_exists; exists (Setup 1); split; [apply cnt_pos_in; rewrite S; cbn; lia|reflexivity]|].
  unfold copies. change (fun c => match c with Setup k => N.eqb 1 k | _ => false end) with (is_setup 1). change (fun c => match c with Setup k => N.eqb 2 k | _ => false end) with (is_setup 2).
  change (fun c => match c with Setup k => N.eqb 3 k | _ => false end) with (is_setup 3). change (fun c => match c with Setup k => N.eqb 4 k | _ => false end) with (is_setup 4).
  pose proof (S 1%N) as S1. pose proof (S 2%N) as S2. pose proof (S 3%N) as S3. pose proof (S 4%N) as S4. unfold cnt in *. cbn [N.eqb Pos.eqb] in *. repeat split; lia.
Qed.
Print Assumptions C91_others_refuted.

(** Expected: a file can be instrumented again, for example with other functions.
    The text contains the support code once for each time.  Declarations and
    implementation are guarded against repetition (lines 33-34, 102-103); the
    initialisation is not: a file with a main that is instrumented twice defines
    __bi_setup twice. *)
Theorem C91_twice_refuted : forall is_main m js o, recognises is_main m -> source_file (sw_genome o) ->
  copies 1 (instruments is_main js o) = length js /\ copies 2 (instruments is_main js o) = length js /\
  copies 3 (instruments is_main js o) = length js * mains is_main (sw_genome o) /\
  (mains is_main (sw_genome o) <> 0 -> copies 4 (instruments is_main js o) = length js).
Proof.
  intros im m js o R (_ & K & F).
  assert (Z : forall n, cnt n (texts (sw_genome o)) = 0) by (intros n; apply cnt_none; eapply Forall_impl; [|exact F]; intros a H; left; exact H).
  pose proof (fun n => instruments_count im m R js o n K) as S. unfold support_count in S.
  unfold copies. change (fun c => match c with Setup k => N.eqb 1 k | _ => false end) with (is_setup 1). change (fun c => match c with Setup k => N.eqb 2 k | _ => false end) with (is_setup 2).
  change (fun c => match c with Setup k => N.eqb 3 k | _ => false end) with (is_setup 3). change (fun c => match c with Setup k => N.eqb 4 k | _ => false end) with (is_setup 4).
  pose proof (S 1%N) as S1. pose proof (S 2%N) as S2. pose proof (S 3%N) as S3. pose proof (S 4%N) as S4. rewrite Z in S1, S2, S3, S4. unfold cnt, instruments in *. cbn [N.eqb Pos.eqb] in *.
  repeat split; try nia. intros Hm. destruct (Nat.eqb_spec (mains im (sw_genome o)) 0); [contradiction|]. lia.
Qed.
Print Assumptions C91_twice_refuted.

(** The file of C78 (parse error, f, main): *)
Definition job91 : job := mkJob (fun _ => false) (fun _ => false) (fun _ _ => true) (fun p => [IId (N.of_nat (length p)); IEnd]) (fun _ => [IEnd]).
Definition file91 : software := mkSW P_Setup.file78 [7%N].
Example C91_hyps : clean (sw_genome file91) = true /\ recognises P_Setup.is_main78 (fun c => match c with Txt 9 => true | _ => false end) /\
  source_file (sw_genome file91) /\ mains P_Setup.is_main78 (sw_genome file91) = 1 /\ instrumented_p (fun _ => false) file91 = false.
Proof. destruct P_Setup.C78_hyps as (H1 & H2 & H3). repeat split; auto; try apply H1; apply H2. Qed.
Example C91_ex :
  length (texts (sw_genome file91)) < length (texts (sw_genome (instruments P_Setup.is_main78 [job91] file91))) /\
  length (texts (sw_genome (instruments P_Setup.is_main78 [job91] file91))) < length (texts (sw_genome (instruments P_Setup.is_main78 [job91; job91] file91))) /\
  sw_genome (uninstrument (instruments P_Setup.is_main78 [job91; job91] file91)) = sw_genome file91 /\
  copies 4 (instruments P_Setup.is_main78 [job91; job91] file91) = 2.
Proof. vm_compute. repeat split; lia. Qed.
Example C91_ex_project : let e := mkSW (Node KRoot (Txt 0) false [] [] []) [] in
  let p := mkPr [file91; e] [] in let q := instrument_pr P_Setup.is_main78 p [job91; job91] in
  length [job91; job91] = length (pr_evolve p) /\ instrumented_pr (fun _ => false) p = false /\ instrumented_pr (fun _ => false) q = true /\
  map (instrumented_p (fun _ => false)) (pr_evolve q) = [true; false].
Proof. vm_compute. repeat split. Qed.
