(** C109: software objects and their copies have their own traces. *)
From Coq Require Import List Bool Arith ZArith.
From Verif Require Import Base Collect Copies CopiesProofs CopiesSpec CopiesSpecProofs.
Import ListNotations.
Open Scope nat_scope.

(** If traces are collected with collect-traces only, then after every history
    of making, copying and collecting, the traces of every object are those it
    would have if objects shared nothing. *)
Theorem C109_collect : forall T (l : list (op T)), Forall op_known l -> Forall whole_only l ->
  forall o, traces_of (run_ops no_objects l) o = option_map fst (nth_error (spec_run [] l) o).
Proof. intros T l K W. apply copies_lemma; [exact K|apply whole_own; exact W]. Qed.
Print Assumptions C109_collect.

(** The same if single test cases are collected as well, but only for objects
    that were not copied and are no copies since their last collect-traces. *)
Theorem C109_cases : forall T (l : list (op T)), Forall op_known l -> cases_own [] l ->
  forall o, traces_of (run_ops no_objects l) o = option_map fst (nth_error (spec_run [] l) o).
Proof. exact copies_lemma. Qed.
Print Assumptions C109_cases.

(** A database that was handed out is not changed by any later collect-traces,
    for any object. *)
Theorem C109_handed_out : forall T (l : list (op T)) st r d, Forall whole_only l ->
  nth_error (o_dbs st) r = Some d -> nth_error (o_dbs (run_ops st l)) r = Some d.
Proof. intros T l st r d. apply handed_lemma. Qed.
Print Assumptions C109_handed_out.

(** Collecting a test case for a copy changes the traces of the original, in
    every state in which the original has a database. *)
Theorem C109_shared_refuted : forall T (st : objects T) o d t num x l, traces_of st o = Some (Some d) ->
  tc_run t (limited num) = x :: l ->
  traces_of (run_ops st [Copy o; CollectCase (length (o_slots st)) binary_case true t num]) o = Some (Some (d ++ x :: l))
  /\ d ++ x :: l <> d.
Proof.
  intros T st o d t num x l H R. split; [apply shared_lemma; assumption|].
  intros E. apply (f_equal (@length T)) in E. rewrite app_length in E. cbn in E.
  rewrite Nat.add_comm in E. cbn in E. apply (Nat.succ_add_discr (length l) (length d)). symmetry. exact E.
Qed.
Print Assumptions C109_shared_refuted.

(** What holds for every history: the traces of a test case are added for the
    whole family of the object, and for nobody else. *)
Theorem C109_families : forall T (l : list (op T)), Forall op_known l ->
  forall o, traces_of (run_ops no_objects l) o = option_map snd (nth_error (f_objs (family_run no_families l)) o).
Proof. exact families_lemma. Qed.
Print Assumptions C109_families.

(** A history with two objects, a copy, and collections for both. *)
Definition gives (l : list nat) : tcase nat := mkTC (fun _ => l) false (PhOk true).
Definition history : list (op nat) :=
  [Make; Collect 0 binary_case false (PhOk true) None [gives [1; 2]; gives [3]];
   CollectCase 0 binary_case true (gives [4]) None;
   Copy 0; Collect 1 sexp_case false (PhOk true) None [gives [7]];
   Copy 1; Collect 2 binary_case false (PhErr false ChNil) None [gives [8]]; Copy 0].

Example C109_hyps : Forall op_known history /\ cases_own [] history /\
  map (traces_of (run_ops no_objects history)) [0; 1; 2; 3; 4] =
    [Some (Some [1; 2; 3; 4]); Some (Some [7]); Some None; Some (Some [1; 2; 3; 4]); None].
Proof.
  split; [unfold history; repeat (apply Forall_cons; [cbn; auto|]); apply Forall_nil|]. split; [|reflexivity].
  cbn. repeat split. intros v f H. congruence.
Qed.

Example C109_shared_ex :
  traces_of (run_ops no_objects history) 0 = Some (Some [1; 2; 3; 4]) /\ tc_run (gives [9]) (limited None) = [9] /\
  map (traces_of (run_ops no_objects (history ++ [CollectCase 3 binary_case true (gives [9]) None]))) [0; 1; 3] =
    [Some (Some [1; 2; 3; 4; 9]); Some (Some [7]); Some (Some [1; 2; 3; 4; 9])].
Proof. repeat split. Qed.

Example C109_families_ex : Forall op_known (history ++ [CollectCase 3 binary_case true (gives [9]) None]) /\
  map fst (f_objs (family_run no_families (history ++ [CollectCase 3 binary_case true (gives [9]) None]))) = [1; 2; 3; 1].
Proof. split; [unfold history; repeat (apply Forall_cons; [cbn; auto|]); apply Forall_nil|reflexivity]. Qed.
