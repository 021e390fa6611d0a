(** Proofs about the support code of instrumented files, part 2. *)
From Coq Require Import List Bool Arith NArith Lia Permutation Sorted.
From Verif Require Import Base Types Instr Splice SpliceProofs1 SetupSpec SetupProofs.
Import ListNotations.
Open Scope nat_scope.

Notation S3 := (Setup 3).

Lemma exists_last_or_nil {A} (l : list A) : l = [] \/ exists l' y, l = l' ++ [y].
Proof. destruct l as [|x l]; [auto|]. right. destruct (@exists_last A (x :: l)) as (l' & y & E); [discriminate|]. eauto. Qed.

(** ** The root as the first link of the chain *)
Definition as_error (t : ast) : ast := let 'Node _ c a b ks af := t in Node KError c a b ks af.
Lemma as_error_texts t : texts (as_error t) = texts t.
Proof. destruct t. reflexivity. Qed.
Lemma as_error_lookup t p : p <> [] -> lookup (as_error t) p = lookup t p.
Proof. destruct t, p; [congruence|reflexivity]. Qed.
Lemma as_error_with t p n : p <> [] -> with_at (as_error t) p n = as_error (with_at t p n).
Proof.
  destruct t as [k c a b ks af], p as [|i p]; [congruence|]. intros _. cbn.
  destruct (nth_error ks i); reflexivity.
Qed.
Lemma setup_as_error pick t : (forall l, l <> [] -> pick l <> None) -> n_kids t <> [] ->
  setup_path pick t = Some (concretize (S (height t)) pick (as_error t)) /\
  concretize (S (height t)) pick (as_error t) <> [].
Proof.
  intros H K. destruct t as [k c a b ks af]. unfold setup_path. cbn [n_kids as_error] in *.
  cbn [concretize n_cls cls_eqb n_kids]. destruct (pick ks) as [[i x]|] eqn:E; [|apply H in K; congruence].
  split; [reflexivity|discriminate].
Qed.
Lemma pick_first_some l : l <> [] -> pick_first l <> None.
Proof. destruct l; [congruence|discriminate]. Qed.
Lemma pick_last_some l : l <> [] -> pick_last l <> None.
Proof.
  intros H. unfold pick_last. destruct (rev l) eqn:E; [|discriminate].
  apply (f_equal (@rev ast)) in E. rewrite rev_involutive in E. contradiction.
Qed.
Lemma height_as_error t : height (as_error t) = height t.
Proof. destruct t. reflexivity. Qed.

Record state (Qf Ql : list content -> Prop) (t : ast) : Prop := mkState {
  s_cls : n_cls t = KRoot;
  s_kids : n_kids t <> [];
  s_first : firstly Qf (as_error t);
  s_last : lastly Ql (as_error t)
}.

Lemma with_cls t p n : p <> [] -> n_cls (with_at t p n) = n_cls t.
Proof. destruct t as [k c a b ks af], p as [|i p]; [congruence|]. intros _. cbn. destruct (nth_error ks i); reflexivity. Qed.
Lemma with_kids t p n : p <> [] -> n_kids t <> [] -> n_kids (with_at t p n) <> [].
Proof.
  destruct t as [k c a b ks af], p as [|i p]; [congruence|]. intros _ H. cbn in *.
  destruct (nth_error ks i) eqn:E; [|exact H]. cbn. intros H2. exact (set_nth_nil _ _ _ _ E H2).
Qed.

Lemma state_first (Qf Qf' Ql : list content -> Prop) bs t : state Qf Ql t -> (forall l, Qf l -> Qf' (l ++ fT bs)) ->
  exists p u, setup_path pick_first t = Some p /\ lookup t p = Some u /\ p <> [] /\
    inject_opt (setup_path pick_first t) bs [] t = with_at t p (wrap_before_after u bs []) /\
    state Qf' Ql (inject_opt (setup_path pick_first t) bs [] t).
Proof.
  intros [C K F L] I. destruct (setup_as_error pick_first t pick_first_some K) as [E NE].
  set (p := concretize (S (height t)) pick_first (as_error t)) in *.
  destruct (firstly_path Qf Qf' bs _ F I (S (height t))) as (u & E1 & E2); [rewrite height_as_error; lia|]. fold p in E1, E2.
  rewrite as_error_lookup in E1 by exact NE. rewrite as_error_with in E2 by exact NE.
  exists p, u. rewrite E. cbn [inject_opt]. unfold inject. rewrite E1.
  split; [reflexivity|]. split; [reflexivity|]. split; [exact NE|]. split; [reflexivity|].
  constructor; [rewrite with_cls; assumption|apply with_kids; assumption|exact E2|].
  rewrite <- as_error_with by exact NE. apply lastly_before; [exact L|]. rewrite as_error_lookup; assumption.
Qed.
Lemma state_last (Qf Ql Ql' : list content -> Prop) as_ t : state Qf Ql t -> (forall l, Ql l -> Ql' (l ++ fT as_)) ->
  exists p u, setup_path pick_last t = Some p /\ lookup t p = Some u /\ p <> [] /\
    inject_opt (setup_path pick_last t) [] as_ t = with_at t p (wrap_before_after u [] as_) /\
    state Qf Ql' (inject_opt (setup_path pick_last t) [] as_ t).
Proof.
  intros [C K F L] I. destruct (setup_as_error pick_last t pick_last_some K) as [E NE].
  set (p := concretize (S (height t)) pick_last (as_error t)) in *.
  destruct (lastly_path Ql Ql' as_ _ L I (S (height t))) as (u & E1 & E2); [rewrite height_as_error; lia|]. fold p in E1, E2.
  rewrite as_error_lookup in E1 by exact NE. rewrite as_error_with in E2 by exact NE.
  exists p, u. rewrite E. cbn [inject_opt]. unfold inject. rewrite E1.
  split; [reflexivity|]. split; [reflexivity|]. split; [exact NE|]. split; [reflexivity|].
  constructor; [rewrite with_cls; assumption|apply with_kids; assumption| |exact E2].
  rewrite <- as_error_with by exact NE. apply firstly_after; [exact F|]. rewrite as_error_lookup; assumption.
Qed.
Lemma state_main (Qf Ql : list content -> Prop) bs t p u : state Qf Ql t -> (forall l, Qf l -> Qf (l ++ fT bs)) ->
  lookup t p = Some u -> n_cls u = KExpr -> p <> [] /\ state Qf Ql (with_at t p (wrap_before_after u bs [])).
Proof.
  intros [C K F L] I E Cu.
  assert (NE : p <> []) by (intros ->; cbn in E; injection E as <-; congruence).
  split; [exact NE|].
  constructor; [rewrite with_cls; assumption|apply with_kids; assumption| |]; rewrite <- as_error_with by exact NE.
  - apply firstly_before; [exact I|exact F|rewrite as_error_lookup; assumption|congruence].
  - apply lastly_before; [exact L|rewrite as_error_lookup; assumption].
Qed.

(** ** The calls *)
Section Calls.
Variable struct_like else_like : ast -> bool.
Variable keep : path -> ast -> bool.
Variable bef aft : path -> list istmt.
Notation dress := (dress else_like keep bef aft).
Notation rec := (rec struct_like dress).
Notation rec_list := (rec_list struct_like dress).

Definition low (x : ctx) : Prop := x_body x = false /\ forall k, In k (x_parents x) -> k = KRoot \/ k = KError.
Lemma low_plain pre x t u : low x -> dress pre (mkPl [] x t) u = u.
Proof.
  intros [B P]. unfold SpliceProofs1.dress, selb. cbn [pl_ctx pl_ast].
  replace (can_be_made_traceable_p else_like x t) with false; [reflexivity|].
  unfold can_be_made_traceable_p. rewrite B, andb_false_r. cbn [andb]. rewrite orb_false_r.
  unfold traceable_stmt_p. replace (existsb (cls_eqb KCompound) (x_parents x)) with false.
  - rewrite !andb_false_r. reflexivity.
  - symmetry. apply not_true_iff_false. intros H. apply existsb_exists in H. destruct H as (k & Hk & Ek).
    destruct (P k Hk) as [-> | ->]; discriminate.
Qed.
Lemma low_child x t i prev next : low x -> n_cls t = KRoot \/ n_cls t = KError ->
  low (child_ctx struct_like x t i prev next).
Proof.
  intros [B P] C. split; cbn.
  - destruct C as [-> | ->]; reflexivity.
  - intros k [<-|H]; auto.
Qed.
Lemma rec_list_last pre x t l y : forall i prev, exists l' j prev',
  rec_list pre x t i prev (l ++ [y]) = l' ++ [rec (pre ++ [j]) (child_ctx struct_like x t j prev' None) y].
Proof.
  induction l as [|z l IH]; intros i prev; cbn [SpliceProofs1.rec_list app].
  - exists [], i, prev. reflexivity.
  - destruct (IH (S i) (Some z)) as (l' & j & prev' & ->). eexists (_ :: l'), j, prev'. reflexivity.
Qed.
Lemma rec_list_nil pre x t l i prev : rec_list pre x t i prev l = [] -> l = [].
Proof. destruct l; [reflexivity|discriminate]. Qed.

Lemma texts_parts k c a b ks af : Forall T (texts (Node k c a b ks af)) ->
  Forall T (fT b) /\ T c /\ Forall T (fT ks) /\ Forall T (fT af).
Proof.
  cbn [texts]. intros H. apply Forall_app in H. destruct H as [H1 H]. apply Forall_cons_iff in H. destruct H as [H2 H].
  apply Forall_app in H. tauto.
Qed.
Lemma rec_ends t : forall pre x, low x -> Forall T (texts t) ->
  firstly (Forall T) (rec pre x t) /\ lastly (Forall T) (rec pre x t).
Proof.
  induction t as [k c a b ks af _ IH _] using ast_rect'. intros pre x Lx F.
  apply texts_parts in F. destruct F as (Fb & Fc & Fk & Fa).
  rewrite rec_eq, low_plain by exact Lx.
  destruct (cls_eqb k KError) eqn:Ek.
  - assert (k = KError) by (destruct k; cbn in Ek; congruence). subst k. split.
    + destruct ks as [|y r]; cbn [SpliceProofs1.rec_list]; [apply first_here; auto|].
      apply first_down; [exact Fc|exact Fb|].
      apply (Forall_inv IH); [apply low_child; auto|]. cbn in Fk. apply Forall_app in Fk. tauto.
    + destruct (exists_last_or_nil ks) as [->|(l & y & ->)]; [apply last_here; auto|].
      destruct (rec_list_last pre x (Node KError c a b (l ++ [y]) af) l y 0 None) as (l' & j & pv & ->).
      apply last_down; [exact Fa|]. rewrite Forall_app in IH. destruct IH as [_ IH]. rewrite flat_map_app in Fk. apply Forall_app in Fk.
      destruct Fk as [_ Fk]. cbn in Fk. rewrite app_nil_r in Fk.
      apply (Forall_inv IH); [apply low_child; auto|exact Fk].
  - assert (k <> KError) by (intros ->; discriminate). split; [apply first_here|apply last_here]; auto.
Qed.

Lemma rec_state root : source_file root -> state (Forall T) (Forall T) (rec [] ctx0 root).
Proof.
  intros (C & K & F). destruct root as [k c a b ks af]. cbn in C. subst k. cbn [n_kids] in K.
  apply texts_parts in F. destruct F as (Fb & Fc & Fk & Fa).
  assert (L0 : low ctx0) by (split; [reflexivity|intros k []]).
  rewrite rec_eq, low_plain by exact L0.
  set (t0 := Node KRoot c a b ks af).
  constructor.
  - reflexivity.
  - cbn [n_kids]. intros H. apply rec_list_nil in H. contradiction.
  - cbn [as_error]. destruct ks as [|y r]; [congruence|]. cbn [SpliceProofs1.rec_list]. apply first_down; [exact Fc|exact Fb|].
    apply rec_ends; [apply low_child; auto|]. cbn in Fk. apply Forall_app in Fk. tauto.
  - cbn [as_error]. destruct (exists_last_or_nil ks) as [E|(l & y & E)]; [congruence|]. rewrite E.
    destruct (rec_list_last [] ctx0 t0 l y 0 None) as (l' & j & pv & ->).
    apply last_down; [exact Fa|]. rewrite E, flat_map_app in Fk. apply Forall_app in Fk.
    destruct Fk as [_ Fk]. cbn in Fk. rewrite app_nil_r in Fk.
    apply rec_ends; [apply low_child; auto|exact Fk].
Qed.

Definition plain_or_call (c : content) : Prop := T c \/ a_call c.
Lemma frags_texts l : Forall plain_or_call (fT (map (fun i => fragment (Ins i)) l)).
Proof. induction l as [|i l IH]; cbn; constructor; [right; exact Logic.I|exact IH]. Qed.
Lemma wrap_texts_all (P : content -> Prop) t bs as_ : Forall P (texts t) -> Forall P (fT bs) -> Forall P (fT as_) ->
  Forall P (texts (wrap_before_after t bs as_)).
Proof.
  intros H1 H2 H3. destruct (texts_wrap t bs as_) as (X & Y & E & _ & _ & ->). rewrite E in H1.
  apply Forall_app in H1. destruct H1. repeat (apply Forall_app; split); assumption.
Qed.
Lemma dress_texts pre q t : Forall plain_or_call (texts t) -> Forall plain_or_call (texts (dress pre q t)).
Proof.
  intros H. unfold SpliceProofs1.dress. destruct (selb _ _ _ _); [|exact H].
  unfold wrap_in_compound_if_needed. destruct (traceable_stmt_p _ _ _).
  - apply wrap_texts_all; [exact H|apply frags_texts|apply frags_texts].
  - cbn [texts flat_map app]. rewrite !app_nil_r. constructor; [left; exact Logic.I|].
    apply wrap_texts_all; [exact H|apply frags_texts|apply frags_texts].
Qed.
Lemma rec_texts t : forall pre x, Forall T (texts t) -> Forall plain_or_call (texts (rec pre x t)).
Proof.
  induction t as [k c a b ks af _ IH _] using ast_rect'. intros pre x F.
  apply texts_parts in F. destruct F as (Fb & Fc & Fk & Fa). rewrite rec_eq. apply dress_texts.
  assert (W : forall l, Forall T l -> Forall plain_or_call l).
  { intros l H. eapply Forall_impl; [|exact H]. intros d Hd. left. exact Hd. }
  cbn [texts]. apply Forall_app. split; [auto|]. constructor; [left; exact Fc|]. apply Forall_app. split; [|auto].
  generalize (Node k c a b ks af) as t0. generalize (None : option ast) as pv. generalize 0 as i.
  clear - IH Fk. induction IH as [|y r Hy _ IHr]; intros i pv t0; cbn; [constructor|].
  cbn in Fk. apply Forall_app in Fk. destruct Fk as [F1 F2]. apply Forall_app. split; [apply Hy; exact F1|apply IHr; exact F2].
Qed.

(** ** Declarators of main *)
Variable is_main : ast -> bool.
Variable m : content -> bool.
Hypothesis R : recognises is_main m.
Notation mains := (mains is_main).
Notation kmains l := (fold_right (fun x n => mains x + n) 0 l).

Lemma mains_eq k c a b ks af : mains (Node k c a b ks af) = (if is_main (Node k c a b ks af) then 1 else 0) + kmains ks.
Proof. reflexivity. Qed.
Lemma is_main_same k c a b ks af a' b' ks' af' : is_main (Node k c a b ks af) = is_main (Node k c a' b' ks' af').
Proof. rewrite !(proj1 R). reflexivity. Qed.
Lemma mains_wrap t bs as_ : mains (wrap_before_after t bs as_) = mains t.
Proof. destruct t as [k c a b ks af]. rewrite wrap_eq, !mains_eq. erewrite is_main_same. reflexivity. Qed.
Lemma kmains_app l r : kmains (l ++ r) = kmains l + kmains r.
Proof. induction l as [|x l IH]; cbn; [reflexivity|]. rewrite IH. lia. Qed.
Lemma mains_with t : forall p u n, lookup t p = Some u -> mains n = mains u -> mains (with_at t p n) = mains t.
Proof.
  intros p. revert t. induction p as [|i p IH]; intros [k c a b ks af] u n E M; cbn in E.
  - injection E as <-. exact M.
  - cbn [with_at]. destruct (nth_error ks i) as [x|] eqn:Ex; [|discriminate].
    destruct (set_nth_split ks i x (with_at x p n) Ex) as (l & r & E1 & E2 & _).
    rewrite !mains_eq, E2, E1, !kmains_app. cbn [fold_right]. rewrite (IH x u n E M).
    f_equal. erewrite is_main_same. reflexivity.
Qed.
Lemma mains_inject t p bs as_ : mains (inject p bs as_ t) = mains t.
Proof. unfold inject. destruct (lookup t p) as [u|] eqn:E; [|reflexivity]. eapply mains_with; [exact E|apply mains_wrap]. Qed.
Lemma mains_inject_opt t p bs as_ : mains (inject_opt p bs as_ t) = mains t.
Proof. destruct p; [apply mains_inject|reflexivity]. Qed.
Lemma mains_dress pre q t : mains (dress pre q t) = mains t.
Proof.
  unfold SpliceProofs1.dress. destruct (selb _ _ _ _); [|reflexivity].
  unfold wrap_in_compound_if_needed. destruct (traceable_stmt_p _ _ _); [apply mains_wrap|].
  rewrite mains_eq. rewrite (proj1 R). cbn [n_cls cls_eqb andb fold_right]. rewrite mains_wrap. lia.
Qed.
Lemma mains_rec t : forall pre x, mains (rec pre x t) = mains t.
Proof.
  induction t as [k c a b ks af _ IH _] using ast_rect'. intros pre x. rewrite rec_eq, mains_dress, !mains_eq.
  f_equal; [erewrite is_main_same; reflexivity|].
  assert (G : forall i pv t0, kmains (rec_list pre x t0 i pv ks) = kmains ks); [|apply G].
  clear - IH. induction IH as [|y r Hy _ IHr]; intros i pv t0; cbn; [reflexivity|]. rewrite Hy, IHr. reflexivity.
Qed.
End Calls.

Section Mains.
Variable struct_like : ast -> bool.
Variable is_main : ast -> bool.
Notation mains := (mains is_main).

Lemma mains_asts t : forall x, length (filter (fun p => is_main (pl_ast p)) (asts struct_like x t)) = mains t.
Proof.
  induction t as [k c a b ks af _ IH _] using ast_rect'. intros x. rewrite asts_eq. cbn [filter pl_ast].
  rewrite mains_eq. cbn [n_kids].
  assert (E : length (filter (fun p => is_main (pl_ast p)) (asts_list struct_like x (Node k c a b ks af) 0 None ks)) =
    fold_right (fun x n => mains x + n) 0 ks).
  { assert (G : forall i pv t0, length (filter (fun p => is_main (pl_ast p)) (asts_list struct_like x t0 i pv ks)) =
      fold_right (fun x n => mains x + n) 0 ks); [|apply G].
    clear - IH. induction IH as [|y r Hy _ IHr]; intros i pv t0; cbn [asts_list]; [reflexivity|].
    rewrite filter_app, app_length, IHr. cbn [fold_right]. f_equal. rewrite <- (Hy (child_ctx struct_like x t0 i pv (hd_error r))).
    generalize (asts struct_like (child_ctx struct_like x t0 i pv (hd_error r)) y). clear.
    induction l as [|p l IH]; cbn; [reflexivity|]. destruct (is_main (pl_ast p)); cbn; rewrite IH; reflexivity. }
  destruct (is_main (Node k c a b ks af)); cbn [length]; rewrite E; reflexivity.
Qed.
Lemma asts_lookup t : forall x q, In q (asts struct_like x t) -> lookup t (pl_path q) = Some (pl_ast q).
Proof.
  induction t as [k c a b ks af _ IH _] using ast_rect'. intros x q H. rewrite asts_eq in H. destruct H as [<-|H]; [reflexivity|].
  cbn [n_kids] in H.
  assert (G : forall t0 l, Forall (fun t => forall x q, In q (asts struct_like x t) -> lookup t (pl_path q) = Some (pl_ast q)) l ->
    forall i pv pk, length pk = i -> In q (asts_list struct_like x t0 i pv l) ->
    lookup (Node k c a b (pk ++ l) af) (pl_path q) = Some (pl_ast q)).
  { clear. intros t0 l F. induction F as [|y r Hy _ IHr]; intros i pv pk L H; cbn [asts_list] in H; [destruct H|].
    apply in_app_or in H. destruct H as [H|H].
    - apply in_map_iff in H. destruct H as (q' & <- & H). cbn [down pl_path pl_ast lookup n_kids]. subst i.
      rewrite nth_app_mid. eapply Hy. exact H.
    - replace (pk ++ y :: r) with ((pk ++ [y]) ++ r) by (rewrite <- app_assoc; reflexivity).
      eapply IHr; [|exact H]. rewrite app_length. cbn. lia. }
  exact (G (Node k c a b ks af) ks IH 0 None [] eq_refl H).
Qed.
Lemma paths_nodup t x : NoDup (map pl_path (asts struct_like x t)).
Proof.
  apply (Permutation_NoDup (l := map pl_path (desc struct_like x t))).
  - apply Permutation_map, Permutation_sym, asts_desc.
  - pose proof (desc_sorted struct_like t x) as H. induction H as [|p l _ IH F]; cbn; constructor; [|exact IH].
    intros H. apply in_map_iff in H. destruct H as (q & E & Hq).
    rewrite Forall_forall in F. specialize (F q Hq). unfold later in F. rewrite E in F.
    pose proof (later_asym _ _ F). congruence.
Qed.
Lemma main_paths_spec t : NoDup (main_paths struct_like is_main t) /\ length (main_paths struct_like is_main t) = mains t /\ forall p, In p (main_paths struct_like is_main t) -> exists u, lookup t p = Some u /\ is_main u = true.
Proof.
  unfold main_paths. split; [|split].
  - pose proof (paths_nodup t ctx0) as H. revert H. generalize (asts struct_like ctx0 t). induction l as [|q l IH]; cbn; intros H; [constructor|].
    apply NoDup_cons_iff in H. destruct H as [H1 H2]. destruct (is_main (pl_ast q)); [|auto]. cbn. constructor; [|auto].
    intros H3. apply H1. apply in_map_iff in H3. destruct H3 as (q' & E & H3). apply filter_In in H3.
    apply in_map_iff. exists q'. tauto.
  - rewrite map_length. apply mains_asts.
  - intros p H. apply in_map_iff in H. destruct H as (q & <- & H). apply filter_In in H. destruct H as [H1 H2].
    exists (pl_ast q). split; [eapply asts_lookup; exact H1|exact H2].
Qed.
End Mains.
