(** Proofs about Uninstr.v. *)
From Coq Require Import List Bool Arith NArith Lia Permutation.
From Verif Require Import Base Types Instr Splice SpliceSpec SetupSpec SpliceProofs1 SpliceProofs6 SetupProofs SetupProofs2 SetupProofs3 Uninstr.
Import ListNotations.
Open Scope nat_scope.

(** ** Instrumented files stay dressed *)
Lemma rec_dressed_again sl el keep bef aft u : forall t, dressed t u -> forall p x, dressed t (rec sl (dress el keep bef aft) p x u).
Proof.
  induction u as [k c a b ks af _ Hk _] using ast_rect'. intros t D p x. rewrite rec_eq.
  assert (L : forall l0, Forall2 dressed l0 ks -> forall t0 i prev, Forall2 dressed l0 (rec_list sl (dress el keep bef aft) p x t0 i prev ks)).
  { intros l0 F t0. clear D. induction F as [|y y' r r' Hy F IH]; intros i prev; cbn [SpliceProofs1.rec_list]; constructor.
    - inversion Hk; subst. auto.
    - inversion Hk; subst. auto. }
  assert (W : forall ks' , dressed t (Node k c a b ks' af) -> dressed t (dress el keep bef aft p (mkPl [] x (Node k c a b ks af)) (Node k c a b ks' af))).
  { intros ks' D'. unfold dress. destruct (selb el keep p _); [|exact D'].
    assert (D2 : forall fb fa, Forall frag fb -> Forall frag fa -> dressed t (wrap_before_after (Node k c a b ks' af) fb fa)).
    { intros fb fa F1 F2. cbn [wrap_before_after]. inversion D'; subst.
      - rewrite <- !app_assoc. apply D_node; auto; apply Forall_app; auto.
      - apply D_wrap; auto; apply Forall_app; auto. }
    unfold wrap_in_compound_if_needed. match goal with |- context [if ?b then _ else _] => destruct b end.
    - apply D2; apply frags_frag.
    - apply D_wrap; [|constructor|constructor]. apply D2; apply frags_frag. }
  apply W. inversion D; subst.
  - apply D_node; auto.
  - apply D_wrap; auto. match goal with H : dressed t ?y |- _ => assert (F : Forall2 dressed [t] [y]) by (constructor; auto) end.
    specialize (L _ F (Node KCompound c true b [t'] af) 0 None). cbn [SpliceProofs1.rec_list] in *. inversion L; subst. assumption.
Qed.

Section Jobs.
Variable is_main : ast -> bool.

Lemma setup_dressed t r : dressed t r -> forall ps, dressed t (fold_left (fun r p => inject p [fragment (Setup 3)] [] r) ps r).
Proof.
  intros D ps. revert r D. induction ps as [|p ps IH]; intros r D; cbn [fold_left]; [exact D|]. apply IH.
  apply inject_dressed; [repeat constructor; eexists; reflexivity|constructor|exact D].
Qed.
Lemma instrument_dressed t o j : dressed t (sw_genome o) -> dressed t (sw_genome (instrument_with is_main o j)).
Proof.
  intros D. unfold instrument_with, Splice.instrument. cbn [sw_genome].
  assert (S1 : forall n, Forall frag [fragment (Setup n)]) by (intros n; constructor; [eexists; reflexivity|constructor]).
  assert (S0 : Forall frag []) by constructor.
  assert (D3 : dressed t (instrument_genome (j_struct j) (j_else j) (j_keep j) (j_bef j) (j_aft j) (sw_genome o))) by (rewrite instrument_rec; apply rec_dressed_again, D).
  match goal with |- context [main_paths ?a ?b ?c] => destruct (main_paths a b c) as [|p ps] end.
  - cbn [fold_left]. repeat (apply inject_opt_dressed; auto).
  - apply inject_opt_dressed; auto. apply setup_dressed. repeat (apply inject_opt_dressed; auto).
Qed.
Lemma clean_dressed t : clean t = true -> dressed t t.
Proof.
  induction t as [k c a b ks af _ Hk _] using ast_rect'. cbn [clean]. intros C.
  repeat (apply andb_prop in C; destruct C as [C ?]). destruct a; [discriminate|].
  rewrite <- (app_nil_r b) at 2. rewrite <- (app_nil_r af) at 2. apply D_node; [|constructor|constructor].
  assert (Ck : forallb clean ks = true) by assumption. clear -Hk Ck.
  induction Hk as [|y r Hy _ IH]; constructor; cbn in Ck; apply andb_prop in Ck; [apply Hy, Ck|apply IH, Ck].
Qed.
Lemma instruments_dressed js : forall t o, dressed t (sw_genome o) -> dressed t (sw_genome (fold_left (instrument_with is_main) js o)).
Proof. induction js as [|j js IH]; intros t o D; cbn [fold_left]; [exact D|]. apply IH, instrument_dressed, D. Qed.
Lemma flags_jobs js : forall o, sw_flags (fold_left (instrument_with is_main) js o) = sw_flags o ++ repeat lpthread (length js).
Proof.
  induction js as [|j js IH]; intros o; cbn [fold_left length repeat]; [symmetry; apply app_nil_r|].
  rewrite IH. cbn [instrument_with Splice.instrument sw_flags]. rewrite <- app_assoc. reflexivity.
Qed.

(** ** How often each piece of support code occurs *)
Lemma concretize_lookup pick : (forall l i c, pick l = Some (i, c) -> nth_error l i = Some c) ->
  forall f t, exists u, lookup t (concretize f pick t) = Some u.
Proof.
  intros P. induction f as [|f IH]; intros t; cbn [concretize]; [eexists; reflexivity|].
  destruct (cls_eqb (n_cls t) KError); [|eexists; reflexivity].
  destruct (pick (n_kids t)) as [[i c]|] eqn:E; [|eexists; reflexivity].
  cbn [lookup]. rewrite (P _ _ _ E). apply IH.
Qed.
Lemma pick_first_nth l i c : pick_first l = Some (i, c) -> nth_error l i = Some c.
Proof. destruct l; cbn; [discriminate|]. intros H. injection H as <- <-. reflexivity. Qed.
Lemma pick_last_nth l i c : pick_last l = Some (i, c) -> nth_error l i = Some c.
Proof.
  unfold pick_last. destruct (rev l) as [|x r] eqn:E; [discriminate|]. intros H. injection H as <- <-.
  apply (f_equal (@rev ast)) in E. rewrite rev_involutive in E. subst l. cbn [rev]. rewrite app_length. cbn [length].
  rewrite nth_error_app2 by lia. replace (length (rev r) + 1 - 1 - length (rev r)) with 0 by lia. reflexivity.
Qed.
Lemma setup_path_lookup pick t : (forall l i c, pick l = Some (i, c) -> nth_error l i = Some c) -> (forall l, l <> [] -> pick l <> None) ->
  n_kids t <> [] -> exists p u, setup_path pick t = Some p /\ p <> [] /\ lookup t p = Some u.
Proof.
  intros P Q K. unfold setup_path. specialize (Q _ K). destruct (pick (n_kids t)) as [[i c]|] eqn:E; [|congruence].
  destruct (concretize_lookup pick P (height t) c) as [u U]. exists (i :: concretize (height t) pick c), u.
  split; [reflexivity|]. split; [discriminate|]. cbn [lookup]. rewrite (P _ _ _ E). exact U.
Qed.
Lemma cnt_fT_ins n l : cnt n (flat_map texts (map (fun i => fragment (Ins i)) l)) = 0.
Proof. apply cnt_none, frags_texts. Qed.
Lemma cnt_wrap n t bs cs : cnt n (texts (wrap_before_after t bs cs)) = cnt n (texts t) + cnt n (flat_map texts bs) + cnt n (flat_map texts cs).
Proof. destruct (texts_wrap t bs cs) as (X & Y & E & _ & _ & ->). rewrite E, !cnt_app. lia. Qed.
Lemma cnt_dress el keep bef aft n p q t : cnt n (texts (dress el keep bef aft p q t)) = cnt n (texts t).
Proof.
  unfold dress. destruct (selb _ _ _ _); [|reflexivity]. unfold wrap_in_compound_if_needed.
  match goal with |- context [if ?b then _ else _] => destruct b end.
  - rewrite cnt_wrap, !cnt_fT_ins. lia.
  - cbn [texts flat_map app]. rewrite cnt_cons, !app_nil_r, cnt_wrap, !cnt_fT_ins. cbn [is_setup]. lia.
Qed.
Lemma cnt_rec sl el keep bef aft n t : forall p x, cnt n (texts (rec sl (dress el keep bef aft) p x t)) = cnt n (texts t).
Proof.
  induction t as [k c a b ks af _ Hk _] using ast_rect'. intros p x. rewrite rec_eq, cnt_dress. cbn [texts].
  rewrite !cnt_app, !cnt_cons, !cnt_app. do 3 f_equal.
  set (t0 := Node k c a b ks af). clearbody t0. generalize 0 as i. generalize (@None ast) as prev.
  clear -Hk. induction Hk as [|y r Hy _ IH]; intros prev i; cbn [SpliceProofs1.rec_list flat_map]; [reflexivity|].
  rewrite !cnt_app, Hy, IH. reflexivity.
Qed.
Lemma rec_kids sl el keep bef aft t : n_kids t <> [] -> n_kids (rec sl (dress el keep bef aft) [] ctx0 t) <> [].
Proof.
  destruct t as [k c a b ks af]. intros K H. rewrite rec_eq in H. unfold dress, selb in H. cbn [pl_ctx pl_ast] in H.
  replace (can_be_made_traceable_p el ctx0 (Node k c a b ks af)) with false in H
    by (unfold can_be_made_traceable_p, traceable_stmt_p; cbn; rewrite !andb_false_r; reflexivity).
  cbn [andb n_kids] in H. apply rec_list_nil in H. exact (K H).
Qed.
Lemma inject_kids t p bs cs : n_kids t <> [] -> n_kids (inject p bs cs t) <> [].
Proof.
  intros K. unfold inject. destruct (lookup t p) as [u|] eqn:E; [|exact K]. destruct p as [|i p].
  - cbn in *. injection E as ->. destruct u. exact K.
  - apply with_kids; [discriminate|exact K].
Qed.
Lemma cnt_inject n t p u bs cs : lookup t p = Some u ->
  cnt n (texts (inject p bs cs t)) = cnt n (texts t) + cnt n (flat_map texts bs) + cnt n (flat_map texts cs).
Proof. intros E. rewrite (cnt_perm _ _ _ (inject_perm t p u bs cs E)), !cnt_app. lia. Qed.
Lemma cnt_setup n k : cnt n (flat_map texts [fragment (Setup k)]) = if N.eqb n k then 1 else 0.
Proof. cbn. unfold cnt. cbn. destruct (N.eqb n k); reflexivity. Qed.
Lemma lookup_after t p u bs cs : lookup t p = Some u -> forall q v, lookup t q = Some v -> exists v', lookup (inject p bs cs t) q = Some v'.
Proof.
  intros E q v F. unfold inject. rewrite E. destruct (list_eq_dec Nat.eq_dec p q) as [<-|N].
  - revert t E F. clear. induction p as [|i p IH]; intros t E F; [eexists; reflexivity|]. destruct t as [k c a b ks af]. cbn [lookup n_kids with_at] in *.
    destruct (nth_error ks i) as [x|] eqn:X; [|discriminate]. cbn [n_kids].
    destruct (set_nth_split ks i x (with_at x p (wrap_before_after u bs cs)) X) as (l & r & -> & -> & <-).
    rewrite nth_error_app2, Nat.sub_diag by lia. cbn [nth_error]. eauto.
  - destruct (lookup_other t p u bs cs E q v N F) as (v' & H & _). eauto.
Qed.
Lemma cnt_macros n ps : forall t, (forall p, In p ps -> exists u, lookup t p = Some u) ->
  cnt n (texts (fold_left (fun r p => inject p [fragment (Setup 3)] [] r) ps t)) = cnt n (texts t) + (if N.eqb n 3 then length ps else 0).
Proof.
  induction ps as [|p ps IH]; intros t H; cbn [fold_left length]; [destruct (N.eqb n 3); lia|].
  destruct (H p (or_introl eq_refl)) as [u U]. rewrite IH.
  - rewrite (cnt_inject n t p u _ _ U), cnt_setup. cbn [flat_map]. destruct (N.eqb n 3); cbn; lia.
  - intros q Q. destruct (H q (or_intror Q)) as [v V]. exact (lookup_after t p u _ _ U q v V).
Qed.
Lemma macros_kids ps : forall t, n_kids t <> [] -> n_kids (fold_left (fun r p => inject p [fragment (Setup 3)] [] r) ps t) <> [].
Proof. induction ps as [|p ps IH]; intros t K; cbn [fold_left]; [exact K|]. apply IH, inject_kids, K. Qed.

(** One pass of support code: what it adds. *)
Definition support_count (mn : nat) (n : N) : nat :=
  (if N.eqb n 1 then 1 else 0) + (if N.eqb n 2 then 1 else 0) + (if N.eqb n 3 then mn else 0) + (if N.eqb n 4 then (if mn =? 0 then 0 else 1) else 0).

Variable m : content -> bool.
Hypothesis R : recognises is_main m.
Lemma instrument_count o j n : n_kids (sw_genome o) <> [] ->
  cnt n (texts (sw_genome (instrument_with is_main o j))) = cnt n (texts (sw_genome o)) + support_count (mains is_main (sw_genome o)) n /\
  n_kids (sw_genome (instrument_with is_main o j)) <> [] /\
  mains is_main (sw_genome (instrument_with is_main o j)) = mains is_main (sw_genome o).
Proof.
  intros K. unfold instrument_with, Splice.instrument. cbn [sw_genome]. rewrite instrument_rec.
  set (r1 := rec _ _ _ _ _).
  assert (K1 : n_kids r1 <> []) by (apply rec_kids, K).
  assert (C1 : cnt n (texts r1) = cnt n (texts (sw_genome o))) by apply cnt_rec.
  assert (M1 : mains is_main r1 = mains is_main (sw_genome o)) by (apply (mains_rec _ _ _ _ _ _ _ R)).
  clearbody r1.
  destruct (setup_path_lookup pick_first r1 pick_first_nth pick_first_some K1) as (p2 & u2 & E2 & N2 & L2). rewrite E2. cbn [inject_opt].
  set (r2 := inject p2 _ _ r1). assert (K2 : n_kids r2 <> []) by (apply inject_kids, K1).
  assert (C2 : cnt n (texts r2) = cnt n (texts r1) + (if N.eqb n 1 then 1 else 0)) by (unfold r2; rewrite (cnt_inject n _ _ _ _ _ L2), cnt_setup; cbn; lia).
  assert (M2 : mains is_main r2 = mains is_main r1) by (apply (mains_inject _ _ R)). clearbody r2.
  destruct (setup_path_lookup pick_last r2 pick_last_nth pick_last_some K2) as (p3 & u3 & E3 & N3 & L3). rewrite E3. cbn [inject_opt].
  set (r3 := inject p3 _ _ r2). assert (K3 : n_kids r3 <> []) by (apply inject_kids, K2).
  assert (C3 : cnt n (texts r3) = cnt n (texts r2) + (if N.eqb n 2 then 1 else 0)) by (unfold r3; rewrite (cnt_inject n _ _ _ _ _ L3), cnt_setup; cbn; lia).
  assert (M3 : mains is_main r3 = mains is_main r2) by (apply (mains_inject _ _ R)). clearbody r3.
  destruct (main_paths_spec (j_struct j) is_main r3) as (_ & LP & FP). set (ps := main_paths _ _ r3) in *.
  assert (C4 := cnt_macros n ps r3 (fun p I => match FP p I with ex_intro _ u (conj H _) => ex_intro _ u H end)).
  assert (K4 := macros_kids ps r3 K3).
  assert (M4 : forall l t, mains is_main (fold_left (fun r p => inject p [fragment (Setup 3)] [] r) l t) = mains is_main t).
  { induction l as [|p l IH]; intros t; cbn [fold_left]; [reflexivity|]. rewrite IH. apply (mains_inject _ _ R). }
  specialize (M4 ps r3). set (r4 := fold_left _ ps r3) in *. clearbody r4.
  assert (LM : length ps = mains is_main (sw_genome o)) by congruence. rewrite <- LM. unfold support_count.
  destruct ps as [|q ps'].
  - split; [|split; [exact K4|cbn [length] in *; lia]]. rewrite C4, C3, C2, C1. cbn [length Nat.eqb]. destruct (N.eqb n 4); lia.
  - destruct (setup_path_lookup pick_last r4 pick_last_nth pick_last_some K4) as (p5 & u5 & E5 & N5 & L5). rewrite E5. cbn [inject_opt].
    split; [|split; [apply inject_kids, K4|rewrite (mains_inject _ _ R); lia]].
    rewrite (cnt_inject n _ _ _ _ _ L5), cnt_setup, C4, C3, C2, C1. cbn [length Nat.eqb flat_map]. change (cnt n []) with 0. lia.
Qed.
Lemma instruments_count js : forall o n, n_kids (sw_genome o) <> [] ->
  cnt n (texts (sw_genome (fold_left (instrument_with is_main) js o))) = cnt n (texts (sw_genome o)) + length js * support_count (mains is_main (sw_genome o)) n.
Proof.
  induction js as [|j js IH]; intros o n K; cbn [fold_left length]; [lia|].
  destruct (instrument_count o j n K) as (C & K1 & M1). rewrite (IH _ n K1), C, M1. lia.
Qed.
End Jobs.

Lemma cnt_pos_in n l : 0 < cnt n l -> In (Setup n) l.
Proof.
  induction l as [|c l IH]; [unfold cnt; cbn; lia|]. rewrite cnt_cons. destruct (is_setup n c) eqn:E; [|right; apply IH; lia].
  intros _. left. destruct c; try discriminate. cbn in E. apply N.eqb_eq in E. congruence.
Qed.

(** Support code alone. *)
Lemma setup_count is_main m o n : recognises is_main m -> n_kids (sw_genome o) <> [] -> mains is_main (sw_genome o) <> 0 ->
  cnt n (texts (sw_genome (setup_only is_main o))) = cnt n (texts (sw_genome o)) + support_count (mains is_main (sw_genome o)) n /\
  n_kids (sw_genome (setup_only is_main o)) <> [] /\ mains is_main (sw_genome (setup_only is_main o)) = mains is_main (sw_genome o).
Proof.
  intros R K Z. destruct (main_paths_spec (fun _ => false) is_main (sw_genome o)) as (_ & LP & FP).
  unfold setup_only, contains_main. rewrite LP. destruct (Nat.eqb_spec (mains is_main (sw_genome o)) 0) as [E|_]; [contradiction|]. cbn [negb sw_genome].
  set (r1 := sw_genome o) in *. set (ps := main_paths _ _ r1) in *. clearbody ps r1.
  destruct (setup_path_lookup pick_first r1 pick_first_nth pick_first_some K) as (p2 & u2 & E2 & N2 & L2). rewrite E2. cbn [inject_opt].
  set (r2 := inject p2 _ _ r1). assert (K2 : n_kids r2 <> []) by (apply inject_kids, K).
  assert (C2 : cnt n (texts r2) = cnt n (texts r1) + (if N.eqb n 1 then 1 else 0)) by (unfold r2; rewrite (cnt_inject n _ _ _ _ _ L2), cnt_setup; cbn; lia).
  assert (M2 : mains is_main r2 = mains is_main r1) by (apply (mains_inject _ _ R)).
  assert (F2 : forall q, In q ps -> exists v, lookup r2 q = Some v) by (intros q Q; destruct (FP q Q) as (v & V & _); exact (lookup_after _ _ _ _ _ L2 q v V)). clearbody r2.
  destruct (setup_path_lookup pick_last r2 pick_last_nth pick_last_some K2) as (p3 & u3 & E3 & N3 & L3). rewrite E3. cbn [inject_opt].
  set (r3 := inject p3 _ _ r2). assert (K3 : n_kids r3 <> []) by (apply inject_kids, K2).
  assert (C3 : cnt n (texts r3) = cnt n (texts r2) + (if N.eqb n 2 then 1 else 0)) by (unfold r3; rewrite (cnt_inject n _ _ _ _ _ L3), cnt_setup; cbn; lia).
  assert (M3 : mains is_main r3 = mains is_main r2) by (apply (mains_inject _ _ R)).
  assert (F3 : forall q, In q ps -> exists v, lookup r3 q = Some v) by (intros q Q; destruct (F2 q Q) as (v & V); exact (lookup_after _ _ _ _ _ L3 q v V)). clearbody r3.
  assert (C4 := cnt_macros n ps r3 F3). assert (K4 := macros_kids ps r3 K3).
  assert (M4 : forall l t, mains is_main (fold_left (fun r p => inject p [fragment (Setup 3)] [] r) l t) = mains is_main t).
  { induction l as [|p l IH]; intros t; cbn [fold_left]; [reflexivity|]. rewrite IH. apply (mains_inject _ _ R). }
  specialize (M4 ps r3). set (r4 := fold_left _ ps r3) in *. clearbody r4.
  destruct (setup_path_lookup pick_last r4 pick_last_nth pick_last_some K4) as (p5 & u5 & E5 & N5 & L5). rewrite E5. cbn [inject_opt].
  split; [|split; [apply inject_kids, K4|rewrite (mains_inject _ _ R); lia]].
  rewrite (cnt_inject n _ _ _ _ _ L5), cnt_setup, C4, C3, C2, LP. unfold support_count. destruct (Nat.eqb_spec (mains is_main r1) 0); [contradiction|].
  cbn [flat_map]. change (cnt n []) with 0. lia.
Qed.
