(** Proofs about collect-traces. *)
From Coq Require Import List Bool Arith ZArith Lia.
From Verif Require Import Base Collect CollectSpec.
Import ListNotations.
Open Scope nat_scope.

Lemma firstn_step : forall T n (a b : list T), firstn n a ++ firstn (n - length (firstn n a)) b = firstn n (a ++ b).
Proof.
  intros T n a b. rewrite firstn_app. f_equal. rewrite firstn_length. destruct (Nat.le_gt_cases n (length a)) as [H|H].
  - rewrite Nat.min_l by exact H. replace (n - n) with 0 by lia. replace (n - length a) with 0 by lia. reflexivity.
  - rewrite Nat.min_r by lia. reflexivity.
Qed.

Lemma upto_step : forall T num (a b : list T),
  upto num a ++ upto (option_map (fun n => n - length (upto num a)) num) b = upto num (a ++ b).
Proof. intros T [n|] a b; cbn; [apply firstn_step|reflexivity]. Qed.

(** The body of the binary case: the binary is there. *)
Lemma binary_body : forall T (t : tcase T) num w, w_bin w = true ->
  binary_case t num w = (mkW true (option_map (fun d => d ++ tc_run t (limited num)) (w_db w)) (w_procs w),
    match tc_run t (limited num) with [] => if tc_ignore t then Returns else Signals | _ => Returns end).
Proof.
  intros T t num w H. unfold binary_case, with_bin. rewrite H. cbn [finish_test add_traces start_test w_bin w_db w_procs pred].
  unfold finish_test, add_traces, start_test. cbn [w_bin w_db w_procs pred]. rewrite H.
  destruct (tc_run t (limited num)); reflexivity.
Qed.

Lemma lim_sub : forall num d, limited (option_map (fun n => (Z.of_nat n - Z.of_nat d)%Z) num) = option_map (fun n => n - d) num.
Proof. intros [n|] d; cbn; [|reflexivity]. f_equal. lia. Qed.

(** The loop over the test cases. *)
Lemma loop_spec : forall T (avail : tcase T -> list T) num ts w d0 p, Forall (supplies avail) ts ->
  w = mkW true (Some (upto num d0)) p ->
  exists l1 l2, ts = l1 ++ l2 /\
    fst (cases_loop binary_case num ts w) = mkW true (Some (upto num (d0 ++ concat (map avail l1)))) p /\
    match snd (cases_loop binary_case num ts w) with
    | Returns => l2 = [] /\ forall a t b, ts = a ++ t :: b -> tc_ignore t = true \/
        upto (option_map (fun n => n - length (upto num (d0 ++ concat (map avail a)))) num) (avail t) <> []
    | Signals => exists a t, l1 = a ++ [t] /\ tc_ignore t = false /\
        upto (option_map (fun n => n - length (upto num (d0 ++ concat (map avail a)))) num) (avail t) = []
    end.
Proof.
  intros T avail num ts. induction ts as [|t r IH]; intros w d0 p HS ->.
  - exists [], []. cbn. rewrite app_nil_r. split; [reflexivity|]. split; [reflexivity|]. split; [reflexivity|].
    intros a t b E. destruct a; discriminate E.
  - inversion HS as [|? ? Ht Hr]; subst. cbn [cases_loop n_traces w_db].
    rewrite binary_body by reflexivity. rewrite lim_sub, Ht. cbn [w_db w_procs option_map].
    rewrite upto_step.
    set (got := upto (option_map (fun n => n - length (upto num d0)) num) (avail t)).
    assert (C : (got = [] /\ tc_ignore t = false) \/ (got <> [] \/ tc_ignore t = true)).
    { destruct got; [|right; left; discriminate]. destruct (tc_ignore t); auto. }
    destruct C as [[C1 C2]|C].
    + rewrite C1, C2. cbn. exists [t], r. split; [reflexivity|]. split; [cbn; rewrite app_nil_r; reflexivity|].
      exists [], t. split; [reflexivity|]. split; [exact C2|]. cbn. rewrite app_nil_r. exact C1.
    + assert (E : match got with [] => if tc_ignore t then Returns else Signals | _ :: _ => Returns end = Returns).
      { destruct got; [|reflexivity]. destruct C as [C|C]; [congruence|]. rewrite C. reflexivity. }
      rewrite E. destruct (IH _ (d0 ++ avail t) p Hr eq_refl) as (l1 & l2 & EQ & H1 & H2).
      exists (t :: l1), l2. split; [cbn; congruence|]. cbn [map concat]. rewrite app_assoc. split; [exact H1|].
      destruct (snd (cases_loop binary_case num r _)).
      * destruct H2 as [-> H2]. split; [reflexivity|]. intros a t' b EQ'. destruct a as [|x a]; cbn in EQ'.
        -- inversion EQ'; subst. cbn. rewrite app_nil_r. fold got. destruct C; auto.
        -- inversion EQ'; subst. cbn [map concat]. rewrite app_assoc. eapply H2. eassumption.
      * destruct H2 as (a & t' & -> & Q1 & Q2). exists (t :: a), t'. split; [reflexivity|]. split; [exact Q1|].
        cbn [map concat]. rewrite app_assoc. exact Q2.
Qed.

Lemma upto_nonempty : forall T num (l m : list T), m <> [] -> match num with Some n => length l < n | None => True end ->
  upto (option_map (fun n => n - length (upto num l)) num) m <> [].
Proof.
  intros T [n|] l m HM HL; cbn; [|exact HM]. rewrite firstn_length. replace (Nat.min n (length l)) with (length l) by lia.
  destruct m; [contradiction|]. destruct (n - length l) eqn:E; [lia|]. discriminate.
Qed.

Lemma collect_returns : forall T (avail : tcase T -> list T) num ts ph w w', Forall (supplies avail) ts ->
  w_bin w = true \/ ph = PhOk true ->
  collect_traces binary_case ph num ts w = (w', Returns) -> w_db w' = Some (upto num (concat (map avail ts))).
Proof.
  intros T avail num ts ph w w' HS HB H. unfold collect_traces, with_bin in H.
  assert (U : upto num [] = @nil T) by (destruct num as [[|]|]; reflexivity).
  destruct (w_bin w) eqn:EB.
  - destruct (loop_spec T avail num ts _ [] (w_procs w) HS eq_refl) as (l1 & l2 & EQ & H1 & H2).
    rewrite U in H1, H2. rewrite H in H1, H2. cbn in H1, H2. subst w'. destruct H2 as [-> _]. rewrite app_nil_r in EQ. subst l1. reflexivity.
  - destruct HB as [HB| ->]; [discriminate HB|]. cbn [set_bin w_bin w_db w_procs] in H.
    destruct (loop_spec T avail num ts _ [] (w_procs w) HS eq_refl) as (l1 & l2 & EQ & H1 & H2).
    rewrite U in H1, H2. destruct (cases_loop binary_case num ts _) as [w1 e1] eqn:E1. cbn in H1, H2.
    injection H as Hw He. subst e1 w'. destruct H2 as [-> _]. rewrite app_nil_r in EQ. subst l1. rewrite H1. reflexivity.
Qed.

Lemma collect_any : forall T (avail : tcase T -> list T) num ts ph w, Forall (supplies avail) ts ->
  w_bin w = true \/ ph = PhOk true ->
  exists l1 l2, ts = l1 ++ l2 /\ w_db (fst (collect_traces binary_case ph num ts w)) = Some (upto num (concat (map avail l1))) /\
    (snd (collect_traces binary_case ph num ts w) = Signals ->
       exists a t, l1 = a ++ [t] /\ tc_ignore t = false /\
         (avail t = [] \/ exists n, num = Some n /\ n <= length (concat (map avail a)))).
Proof.
  intros T avail num ts ph w HS HB. unfold collect_traces, with_bin.
  assert (U : upto num [] = @nil T) by (destruct num as [[|]|]; reflexivity).
  assert (K : forall (a : list (tcase T)) t,
    upto (option_map (fun n => n - length (upto num ([] ++ concat (map avail a)))) num) (avail t) = [] ->
    avail t = [] \/ exists n, num = Some n /\ n <= length (concat (map avail a))).
  { intros a t Q. cbn [app] in Q. destruct num as [n|]; [|left; exact Q].
    destruct (Nat.le_gt_cases n (length (concat (map avail a)))) as [L|L]; [right; eauto|]. left.
    destruct (avail t) as [|x m] eqn:E; [reflexivity|]. exfalso.
    apply (upto_nonempty T (Some n) (concat (map avail a)) (x :: m)); [discriminate|exact L|exact Q]. }
  destruct (loop_spec T avail num ts _ [] (w_procs w) HS eq_refl) as (l1 & l2 & EQ & H1 & H2). rewrite U in H1, H2.
  exists l1, l2. split; [exact EQ|]. destruct (w_bin w) eqn:EB.
  - rewrite H1. split; [reflexivity|]. intros E. rewrite E in H2. destruct H2 as (a & t & Q1 & Q2 & Q3). exists a, t. auto.
  - destruct HB as [HB| ->]; [discriminate HB|]. cbn [set_bin w_bin w_db w_procs] in *.
    destruct (cases_loop binary_case num ts _) as [w1 e1] eqn:E1. cbn in H1, H2 |- *. rewrite H1. split; [reflexivity|].
    intros ->. destruct H2 as (a & t & Q1 & Q2 & Q3). exists a, t. auto.
Qed.

(** The binary. *)
Lemma with_bin_bin : forall T ph restart body (w : world T), tidy ph ->
  (forall ch w1, w_bin (fst (restart ch w1)) = w_bin w1) -> (forall w1, w_bin w1 = true -> w_bin (fst (body w1)) = true) ->
  w_bin (fst (with_bin ph restart body w)) = w_bin w.
Proof.
  intros T ph restart body w HT HR HB. unfold with_bin. destruct (w_bin w) eqn:E; [auto|].
  destruct ph as [made|made ch]; cbn in *.
  - destruct (body (set_bin made w)) as [w' e]. reflexivity.
  - rewrite HR. cbn. exact HT.
Qed.

Lemma with_bin_true : forall T ph restart body (w : world T), w_bin w = true ->
  with_bin ph restart body w = body w.
Proof. intros T ph restart body w H. unfold with_bin. rewrite H. reflexivity. Qed.

Lemma binary_keeps : forall T (t : tcase T) num w, w_bin w = true -> w_bin (fst (binary_case t num w)) = true.
Proof. intros T t num w H. rewrite binary_body by exact H. reflexivity. Qed.
Lemma sexp_keeps : forall T (t : tcase T) num w, w_bin w = true -> w_bin (fst (sexp_case t num w)) = true.
Proof.
  intros T t num w H. unfold sexp_case. rewrite with_bin_true by exact H. destruct (tc_run t (Some 1)); [destruct (tc_ignore t)|]; exact H.
Qed.
Lemma loop_keeps : forall T one num (ts : list (tcase T)) w, (forall t n w, w_bin w = true -> w_bin (fst (one t n w)) = true) ->
  w_bin w = true -> w_bin (fst (cases_loop one num ts w)) = true.
Proof.
  intros T one num ts. induction ts as [|t r IH]; intros w H1 H2; [exact H2|]. cbn.
  match goal with |- context [one t ?n w] => pose proof (H1 t n w H2) as H; destruct (one t n w) as [w' [|]] end; [apply IH; assumption|exact H].
Qed.

Lemma collect_bin : forall T one ph num (ts : list (tcase T)) w, tidy ph ->
  (forall t n w, w_bin w = true -> w_bin (fst (one t n w)) = true) ->
  w_bin (fst (collect_traces one ph num ts w)) = w_bin w.
Proof.
  intros T one ph num ts w HT H1. unfold collect_traces. apply with_bin_bin; [exact HT| |].
  - intros [| |] w1; reflexivity.
  - intros w1 H. apply loop_keeps; assumption.
Qed.

Lemma case_bin : forall T (t : tcase T) num w, tidy (tc_phen t) ->
  w_bin (fst (binary_case t num w)) = w_bin w /\ w_bin (fst (sexp_case t num w)) = w_bin w.
Proof.
  intros T t num w HT. split; (apply with_bin_bin; [exact HT|intros [| |] w1; reflexivity|]); intros w1 H.
  - destruct (tc_run t (limited num)); exact H.
  - destruct (tc_run t (Some 1)); [destruct (tc_ignore t)|]; exact H.
Qed.

(** Test processes. *)
Lemma binary_procs : forall T (t : tcase T) num w, w_procs (fst (binary_case t num w)) = w_procs w.
Proof.
  intros T t num w. unfold binary_case, with_bin. destruct (w_bin w).
  - destruct (tc_run t (limited num)); reflexivity.
  - destruct (tc_phen t) as [made|made [| |]]; cbn; try reflexivity. destruct (tc_run t (limited num)); reflexivity.
Qed.
Lemma loop_procs : forall T num (ts : list (tcase T)) w, w_procs (fst (cases_loop binary_case num ts w)) = w_procs w.
Proof.
  intros T num ts. induction ts as [|t r IH]; intros w; [reflexivity|]. cbn.
  match goal with |- context [binary_case t ?n w] => pose proof (binary_procs T t n w) as H; destruct (binary_case t n w) as [w' [|]] end;
    [rewrite IH|]; exact H.
Qed.
Lemma collect_procs : forall T ph num (ts : list (tcase T)) w, w_procs (fst (collect_traces binary_case ph num ts w)) = w_procs w.
Proof.
  intros T ph num ts w. unfold collect_traces, with_bin. destruct (w_bin w); [rewrite loop_procs; reflexivity|].
  destruct ph as [made|made [| |]]; try reflexivity. cbn.
  match goal with |- context [cases_loop binary_case num ts ?x] => pose proof (loop_procs T num ts x) as H; destruct (cases_loop binary_case num ts x) as [w' e] end.
  exact H.
Qed.
Lemma sexp_procs_one : forall T (t : tcase T) num w,
  w_procs (fst (sexp_case t num w)) = w_procs w \/
  (w_procs (fst (sexp_case t num w)) = S (w_procs w) /\ snd (sexp_case t num w) = Signals).
Proof.
  intros T t num w. unfold sexp_case, with_bin. destruct (w_bin w).
  - destruct (tc_run t (Some 1)); [destruct (tc_ignore t)|]; auto.
  - destruct (tc_phen t) as [made|made [| |]]; cbn; auto. destruct (tc_run t (Some 1)); [destruct (tc_ignore t)|]; auto.
Qed.

(** Limits without any assumption about the executions. *)
Definition modest {T} (t : tcase T) : Prop := forall n, length (tc_run t (Some n)) <= n.

Lemma loop_limit : forall T n (ts : list (tcase T)) p d, Forall modest ts -> length d <= n ->
  exists d', w_db (fst (cases_loop binary_case (Some n) ts (mkW true (Some d) p))) = Some d' /\ length d' <= n.
Proof.
  intros T n ts p. induction ts as [|t r IH]; intros d HM HL; [exists d; auto|].
  inversion HM as [|? ? Ht Hr]; subst. cbn [cases_loop n_traces w_db].
  rewrite binary_body by reflexivity. rewrite lim_sub. cbn [w_db w_procs option_map].
  assert (L : length (d ++ tc_run t (Some (n - length d))) <= n) by (rewrite app_length; specialize (Ht (n - length d)); lia).
  destruct (match tc_run t (Some (n - length d)) with [] => _ | _ => _ end); [apply IH; assumption|]. eexists. split; [reflexivity|exact L].
Qed.

Lemma collect_limit : forall T n (ts : list (tcase T)) ph w d, Forall modest ts ->
  w_bin w = true \/ ph = PhOk true ->
  w_db (fst (collect_traces binary_case ph (Some n) ts w)) = Some d -> length d <= n.
Proof.
  intros T n ts ph w d HM HB H. unfold collect_traces, with_bin in H.
  destruct (loop_limit T n ts (w_procs w) [] HM (Nat.le_0_l n)) as (d' & H1 & H2).
  destruct (w_bin w) eqn:EB.
  - rewrite H1 in H. injection H as <-. exact H2.
  - destruct HB as [HB| ->]; [discriminate HB|]. cbn [set_bin w_bin w_db w_procs] in H.
    destruct (cases_loop binary_case (Some n) ts _) as [w1 e1]. cbn in H, H1. rewrite H1 in H. injection H as <-. exact H2.
Qed.
