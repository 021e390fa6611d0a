(** Property C89: projects with several files and several programs,
    instrumentation/c-cpp.lisp:541-605.
    [instrument_project test fs = r]: what is inserted in each file, in the order
    in which files are instrumented; [arrays test r entry names types]: the arrays
    of the program with this entry. *)
From Coq Require Import Strings.String Permutation.
From Verif Require Import BaseProofs Types Stream SkipList AMap MemMapSpec Reader Compare PrintPred FormatSpec ReaderMore ReaderProps.
From Verif Require Import Instr InstrRun InstrSpec InstrText InstrFloat InstrTable InstrConc InstrProofs InstrEnd InstrReq P_Instr.
From Verif Require Import Lisp Project ProjectSpec ProjectProofs.

(** C89.  A program linked from files of the project none of which is
    instrumented after its entry: all passes of all its threads through places
    of its files run without error, and once it has finished, reading its log
    yields exactly these passes, in an order that respects each thread's order,
    with the number of the file and of the AST in the statement id, and the
    variables logged. *)
Theorem C89_program : forall test kf fs r entry linked names types,
  project_ok kf fs -> tells_apart test (project_texts fs) ->
  instrument_project test fs = r -> arrays test r entry names types ->
  before entry linked -> fits names types ->
  forall ths, Forall (Forall (pass_ok fs linked)) ths ->
  exists acts, Forall2 (Forall2 (fun e a => pass_run (fst r) e = Ok a)) ths acts /\
    forall s, rsteps (rstart names types (map (@concat action) acts)) s -> Forall (eq []) (r_threads s) ->
    forall ok coins pos t, (forall n, n <= lenN (r_out s) -> ok n = true) ->
    exists order tr, merge ths order /\ reads ok coins pos t 0 (r_out s) = Ok tr /\
      tr_names tr = names /\ tr_types tr = types /\ Forall2 (pass_shows fs tr) order (tr_points tr) /\
      (order <> [] -> r_disk s = lenN (r_out s)).
Proof. intros. eapply project_lemma; eauto. Qed.
Print Assumptions C89_program.

(** A program whose files, except its entry, have no main: for such programs
    the condition on the order holds. *)
Theorem C89_libraries : forall fs k f linked,
  nth_error (project_files fs) k = Some f -> sf_main f = true ->
  (forall j, In j linked -> j = k \/ exists g, nth_error (project_files fs) j = Some g /\ sf_main g = false) ->
  before (EFile k) linked.
Proof.
  intros fs k f linked Hk Mk L. apply Forall_forall. intros j Hj. destruct (L j Hj) as [->|(g & Hg & Mg)]; [lia|].
  unfold project_files in *. set (a := filter (fun f => negb (sf_main f)) fs) in *. set (b := filter sf_main fs) in *.
  destruct (Nat.lt_ge_cases k (length a)) as [X|X].
  - rewrite nth_error_app1 in Hk by exact X. apply nth_error_In in Hk. apply filter_In in Hk. destruct Hk as [_ Hk]. rewrite Mk in Hk. discriminate.
  - destruct (Nat.lt_ge_cases j (length a)) as [Y|Y]; [lia|]. rewrite nth_error_app2 in Hg by exact Y. apply nth_error_In in Hg. apply filter_In in Hg. destruct Hg as [_ Hg]. congruence.
Qed.
Print Assumptions C89_libraries.

(** A project: the entry a.c, then util.c with a main of its own (say for its
    tests, and left out by the preprocessor in the program of a.c), and lib.c. *)
Definition pj_lib : sfile := mkSF false 10 [(5, [(true, [(text "x", t_int); (text "o", t_struct); (text "s", t_cstr); (text "p", t_ptr)])])].
Definition pj_a : sfile := mkSF true 20 [(9, [(false, [(text "f", t_float); (text "s", t_cstr)]); (false, [(text "x", t_int)])])].
Definition pj_util : sfile := mkSF true 8 [(3, [(false, [(text "q", t_ptr)])])].
Definition pj_files : list sfile := [pj_a; pj_util; pj_lib].
Definition pj_result : list done_file * istate := Eval vm_compute in instrument_project equal_test pj_files.
Definition pj_names : list name := ex_names.
Definition pj_types : list tdesc := ex_types.
(** Two threads of the program of a.c, which is linked with lib.c (number 0). *)
Definition pj_threads : list (list pass) :=
  [[((0, 0)%nat, ex_env (-3)); ((1, 0)%nat, ex_env 7)]; [((1, 0)%nat, ex_env 8)]].

Lemma pj_ok : project_ok ex_kf pj_files.
Proof.
  pose proof ex_sites_ok as T. inversion T as [|? ? T1 R1]; subst. inversion R1 as [|? ? T2 _]; subst. clear T R1.
  pose proof ex_type_ok as TY. split; [intro H; discriminate H|].
  apply Forall_cons; [|apply Forall_cons; [|apply Forall_cons; [|apply Forall_nil]]];
    (split; [intro H; discriminate H|split; [apply Forall_cons; [reflexivity|apply Forall_nil]|apply Forall_cons; [|apply Forall_nil]]]); auto.
  split; [reflexivity|]. split; [|split].
  - apply Forall_cons; [|apply Forall_nil]. intro H. vm_compute in H. intuition discriminate.
  - apply Forall_cons; [|apply Forall_nil]. rewrite Forall_forall in TY. apply TY. right. right. left. reflexivity.
  - apply Forall_cons; [|apply Forall_nil]. intro H. discriminate H.
Qed.
Lemma pj_passes_ok : Forall (Forall (pass_ok pj_files [0; 1]%nat)) pj_threads.
Proof.
  pose proof ex_events_ok as T. inversion T as [|? ? T1 R1]; subst. inversion R1 as [|? ? T2 _]; subst.
  inversion T1 as [|? ? (s1 & A1 & B1) R2]; subst. inversion R2 as [|? ? (s2 & A2 & B2) _]; subst. inversion T2 as [|? ? (s3 & A3 & B3) _]; subst.
  injection A1 as <-. injection A2 as <-. injection A3 as <-.
  apply Forall_cons; [apply Forall_cons; [|apply Forall_cons; [|apply Forall_nil]]|apply Forall_cons; [apply Forall_cons; [|apply Forall_nil]|apply Forall_nil]];
    (split; [cbn; auto|eexists; split; [reflexivity|]; assumption]).
Qed.
Example C89_hyps : project_ok ex_kf pj_files /\ tells_apart equal_test (project_texts pj_files) /\
  instrument_project equal_test pj_files = pj_result /\ arrays equal_test pj_result (EFile 1) pj_names pj_types /\
  before (EFile 1) [0; 1]%nat /\ fits pj_names pj_types /\ Forall (Forall (pass_ok pj_files [0; 1]%nat)) pj_threads /\
  nth_error (project_files pj_files) 1 = Some pj_a.
Proof.
  split; [exact pj_ok|]. split; [apply equal_tells|]. split; [crunch|]. split.
  { eexists. split; [crunch|]. do 2 eexists. split; [apply Permutation_refl|]. split; [apply Permutation_refl|]. split; crunch. }
  split; [apply Forall_cons; [lia|apply Forall_cons; [lia|apply Forall_nil]]|]. split; [split; [|split]; crunch|]. split; [exact pj_passes_ok|]. reflexivity.
Qed.
(** One pass through lib.c, then one through a.c: the statement ids are
    5 of file 0 and 9 of file 1. *)
Example C89_ex : exists a b tr, pass_run (fst pj_result) ((0, 0)%nat, ex_env (-3)) = Ok a /\ pass_run (fst pj_result) ((1, 0)%nat, ex_env 7) = Ok b /\
  (forall coins pos t, reads (fun _ => true) coins pos t 0 (written (write_trace_header pj_names pj_types) ++ written a ++ written b) = Ok tr) /\
  map (@p_stmt _) (tr_points tr) = [Some (2 ^ 63 + 5); Some (2 ^ 63 + 2 ^ 40 + 9)] /\
  map (fun p => map (fun v => nthN pj_names (v_name v)) (p_vars p)) (tr_points tr) =
    [[Some (text "x"); Some (text "p"); Some (text "s")]; [Some (text "f"); Some (text "s"); Some (text "x")]].
Proof.
  do 2 eexists. exists (mkTr ex_names ex_types [mkP 0 (Some (2 ^ 63 + 5)) [] [mkV (VBits (2 ^ 64 - 3)) 1 0 SIGNED 4 0 0; mkV (VBits 64) 5 2 POINTER 8 0 0; mkV (VBlob (text "hi")) 3 1 BLOB 2 0 0] [];
                  mkP 1 (Some (2 ^ 63 + 2 ^ 40 + 9)) [] [mkV (VBits 1065353216) 7 3 FLOAT 4 0 0; mkV (VBits 4096) 3 4 POINTER 8 0 0; mkV (VBits 7) 1 0 SIGNED 4 0 0] []]).
  split; [crunch|]. split; [crunch|]. split; [|split; crunch]. intros. unfold reads. rewrite read_trace_transfer. destruct t; crunch.
Qed.

(** The program of a.c may also be linked with util.c, whose own main is left
    out: util.c is instrumented after the arrays of a.c are made, so a pass
    through it logs a name that the log does not have, and the log cannot be
    read. *)
Theorem C89_later_refuted : exists kf fs r names types linked e a,
  project_ok kf fs /\ tells_apart equal_test (project_texts fs) /\
  instrument_project equal_test fs = r /\ arrays equal_test r (EFile 1) names types /\ fits names types /\
  (exists f, nth_error (project_files fs) 1 = Some f /\ sf_main f = true) /\
  pass_ok fs linked e /\ pass_run (fst r) e = Ok a /\
  forall coins pos t, exists x, reads (fun _ => true) coins pos t 0 (written (write_trace_header names types) ++ written a) = Throw x.
Proof.
  exists ex_kf, pj_files, pj_result, pj_names, pj_types, [0; 1; 2]%nat, ((2, 0)%nat, ex_env 1). eexists.
  destruct C89_hyps as (H1 & H2 & H3 & H4 & _ & H6 & _). split; [exact H1|]. split; [exact H2|]. split; [exact H3|]. split; [exact H4|]. split; [exact H6|].
  split; [exists pj_a; split; reflexivity|]. split.
  { split; [cbn; auto|]. eexists. split; [reflexivity|]. pose proof ex_events_ok as T. inversion T as [|? ? T1 R1]; subst.
    inversion T1 as [|? ? (s1 & A1 & B1) R2]; subst. injection A1 as <-. clear -B1. unfold env_ok in *. cbn [snd] in *.
    inversion B1 as [|? ? G _]; subst. cbn [snd fst] in *. inversion G as [|? ? _ G1]; subst. inversion G1 as [|? ? _ G2]; subst. inversion G2 as [|? ? _ G3]; subst. inversion G3 as [|? ? G4 _]; subst.
    apply Forall_cons; [|apply Forall_nil]. apply Forall_cons; [|apply Forall_nil]. cbn [fst snd] in *.
    exact G4. }
  split; [crunch|]. intros. unfold reads. rewrite read_trace_transfer. destruct t; eexists; crunch.
Qed.
Print Assumptions C89_later_refuted.
