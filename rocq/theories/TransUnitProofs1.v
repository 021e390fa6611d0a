(** Proofs for TransUnit.v: instrumentation keeps the program's text in order, and what
    stands above the declarations and below the implementation. *)
From Coq Require Import List Bool Arith NArith Lia.
From Verif Require Import Base Types Instr Splice SpliceProofs1 SetupSpec SetupProofs SetupProofs2 SetupProofs3 TransUnit TransUnitSpec.
Import ListNotations.
Open Scope nat_scope.

(** Text with content, and support code of kind [i]. *)
Definition keepc (i : N) (c : content) : bool :=
  match c with Txt a => negb (N.eqb a 0) | Setup n => N.eqb n i | _ => false end.
Notation er i l := (filter (keepc i) l).

Lemma er_frags i l : er i (fT (map (fun x => fragment (Ins x)) l)) = [].
Proof. induction l as [|x l IH]; [reflexivity|]. cbn. exact IH. Qed.
Lemma er_wrap i t bs as_ : er i (fT bs) = [] -> er i (fT as_) = [] -> er i (texts (wrap_before_after t bs as_)) = er i (texts t).
Proof.
  intros B A. destruct (texts_wrap t bs as_) as (X & Y & -> & _ & _ & ->). rewrite !filter_app, A, B, app_nil_r. reflexivity.
Qed.
Lemma er_inject i t p bs as_ : er i (fT bs) = [] -> er i (fT as_) = [] -> er i (texts (inject p bs as_ t)) = er i (texts t).
Proof.
  intros B A. unfold inject. destruct (lookup t p) as [u|] eqn:E; [|reflexivity].
  destruct (texts_with t p u E) as (L & R & H). replace (texts t) with (L ++ texts u ++ R) by (rewrite <- H, with_at_same by exact E; reflexivity). rewrite H.
  rewrite !filter_app, er_wrap by assumption. reflexivity.
Qed.
Lemma er_inject_opt i t p bs as_ : er i (fT bs) = [] -> er i (fT as_) = [] -> er i (texts (inject_opt p bs as_ t)) = er i (texts t).
Proof. destruct p; [apply er_inject|reflexivity]. Qed.
Lemma er_fold i ps : i <> 3%N -> forall t, er i (texts (fold_left (fun r p => inject p [fragment (Setup 3)] [] r) ps t)) = er i (texts t).
Proof.
  intros Hi. induction ps as [|p ps IH]; intros t; cbn [fold_left]; [reflexivity|]. rewrite IH.
  apply er_inject; [|reflexivity]. cbn [flat_map fragment texts app filter keepc]. rewrite (proj2 (N.eqb_neq 3 i)) by congruence. reflexivity.
Qed.

Section Calls.
Variable struct_like else_like : ast -> bool.
Variable keep : path -> ast -> bool.
Variable bef aft : path -> list istmt.
Notation dress := (dress else_like keep bef aft).
Notation rec := (rec struct_like dress).
Notation rec_list := (rec_list struct_like dress).
Lemma er_dress i pre q t : er i (texts (dress pre q t)) = er i (texts t).
Proof.
  unfold SpliceProofs1.dress. destruct (selb _ _ _ _); [|reflexivity].
  unfold wrap_in_compound_if_needed. destruct (traceable_stmt_p _ _ _).
  - apply er_wrap; apply er_frags.
  - cbn [texts flat_map app]. rewrite !app_nil_r. cbn [filter keepc N.eqb negb].
    apply er_wrap; apply er_frags.
Qed.
Lemma er_rec i t : forall pre x, er i (texts (rec pre x t)) = er i (texts t).
Proof.
  induction t as [k c a b ks af _ IH _] using ast_rect'. intros pre x. rewrite rec_eq, er_dress. cbn [texts].
  rewrite !filter_app. f_equal. cbn [filter]. rewrite !filter_app.
  assert (G : forall t0 j pv, er i (fT (rec_list pre x t0 j pv ks)) = er i (fT ks)).
  { clear - IH. intros t0. induction IH as [|y r Hy _ IHr]; intros j pv; cbn; [reflexivity|].
    rewrite !filter_app, Hy, IHr. reflexivity. }
  rewrite G. reflexivity.
Qed.

(** ** The ends of the file *)
Lemma above_rec t : forall pre x, low x -> above (rec pre x t) = above t.
Proof.
  induction t as [k c a b ks af _ IH _] using ast_rect'. intros pre x L. rewrite rec_eq, low_plain by exact L.
  destruct ks as [|y r]; [reflexivity|]. cbn [SpliceProofs1.rec_list above]. f_equal. destruct k; try reflexivity.
  f_equal. apply (Forall_inv IH). apply low_child; auto.
Qed.
Lemma top_rec t : n_cls t = KRoot -> top (rec [] ctx0 t) = top t.
Proof.
  destruct t as [k c a b ks af]. cbn [n_cls]. intros ->.
  assert (L0 : low ctx0) by (split; [reflexivity|intros k []]).
  rewrite rec_eq, low_plain by exact L0. destruct ks as [|y r]; [reflexivity|]. cbn [SpliceProofs1.rec_list top].
  rewrite above_rec; [reflexivity|]. apply low_child; auto.
Qed.
Lemma last_of_app l y : (fix last_of (l : list ast) : list content :=
         match l with [] => [] | [x] => below x | _ :: r => last_of r end) (l ++ [y]) = below y.
Proof. induction l as [|x l IH]; [reflexivity|]. cbn. destruct (l ++ [y]) eqn:E; [destruct l; discriminate|exact IH]. Qed.
Lemma below_err c a b l y af : below (Node KError c a b (l ++ [y]) af) = below y ++ fT af.
Proof. cbn [below]. rewrite last_of_app. destruct (l ++ [y]) eqn:E; [destruct l; discriminate|reflexivity]. Qed.
Lemma below_rec t : forall pre x, low x -> below (rec pre x t) = below t.
Proof.
  induction t as [k c a b ks af _ IH _] using ast_rect'. intros pre x L. rewrite rec_eq, low_plain by exact L.
  destruct (exists_last_or_nil ks) as [->|(l & y & E)]; [reflexivity|].
  destruct (cls_eqb k KError) eqn:Ek; [|destruct k; try discriminate; subst ks; destruct l; reflexivity].
  assert (k = KError) by (destruct k; cbn in Ek; congruence). subst k.
  subst ks.
  destruct (rec_list_last struct_like else_like keep bef aft pre x (Node KError c a b (l ++ [y]) af) l y 0 None) as (l' & j & pv & ->).
  rewrite !below_err. f_equal. rewrite Forall_app in IH. destruct IH as [_ IH].
  apply (Forall_inv IH). apply low_child; auto.
Qed.
Lemma bottom_rec t : n_cls t = KRoot -> bottom (rec [] ctx0 t) = bottom t.
Proof.
  destruct t as [k c a b ks af]. cbn [n_cls]. intros ->.
  assert (L0 : low ctx0) by (split; [reflexivity|intros k []]).
  rewrite rec_eq, low_plain by exact L0.
  destruct (exists_last_or_nil ks) as [->|(l & y & E)]; [reflexivity|].
  subst ks.
  destruct (rec_list_last struct_like else_like keep bef aft [] ctx0 (Node KRoot c a b (l ++ [y]) af) l y 0 None) as (l' & j & pv & ->).
  cbn [bottom]. rewrite !rev_app_distr. cbn [rev app]. rewrite below_rec; [reflexivity|]. apply low_child; auto.
Qed.
End Calls.

(** Injection at the first AST. *)
Lemma first_at bs fuel : forall t, height t <= fuel ->
  exists u rest, lookup t (concretize fuel pick_first t) = Some u /\
    texts (with_at t (concretize fuel pick_first t) (wrap_before_after u bs [])) = above t ++ fT bs ++ rest.
Proof.
  induction fuel as [|f IH]; intros [k c a b ks af] H; cbn [height] in H; [lia|]. cbn [concretize n_cls n_kids].
  assert (D : (k = KError /\ ks <> []) \/ k <> KError \/ ks = []) by (destruct ks; [auto|destruct k; try (right; left; discriminate); left; split; congruence]).
  destruct D as [[-> K]|D].
  - destruct ks as [|x r]; [congruence|]. cbn [cls_eqb pick_first].
    destruct (IH x) as (u & rest & L & E); [cbn in H; lia|].
    exists u, (rest ++ fT r ++ fT af). cbn [lookup n_kids nth_error]. split; [exact L|].
    cbn [with_at nth_error set_nth texts flat_map above]. rewrite E. repeat (rewrite <- ?app_assoc; cbn [app]). reflexivity.
  - replace (if cls_eqb k KError then _ else []) with (@nil nat).
    + exists (Node k c a b ks af), (c :: fT ks ++ fT af). split; [reflexivity|]. cbn [with_at wrap_before_after texts].
      rewrite flat_map_app, app_nil_r. replace (above (Node k c a b ks af)) with (fT b).
      * repeat (rewrite <- ?app_assoc; cbn [app]). reflexivity.
      * cbn [above]. destruct D as [D| ->]; [destruct k; try (rewrite app_nil_r; reflexivity); congruence|destruct k; rewrite app_nil_r; reflexivity].
    + destruct D as [D| ->]; [destruct k; try reflexivity; congruence|destruct k; reflexivity].
Qed.
Lemma height_kid y ks : In y ks -> height y <= fold_right Nat.max 0 (map height ks).
Proof. induction ks as [|x r IH]; [intros []|]. intros [->|H]; cbn; [lia|]. specialize (IH H). lia. Qed.
Lemma first_setup t bs : n_kids t <> [] -> exists rest,
  texts (inject_opt (setup_path pick_first t) bs [] t) = top t ++ fT bs ++ rest.
Proof.
  destruct t as [k c a b ks af]. cbn [n_kids]. intros K. destruct ks as [|x r]; [congruence|].
  unfold setup_path. cbn [n_kids pick_first inject_opt]. unfold inject.
  destruct (first_at bs (height (Node k c a b (x :: r) af)) x) as (u & rest & L & E); [cbn; lia|].
  cbn [lookup n_kids nth_error]. rewrite L. exists (rest ++ fT r ++ fT af).
  cbn [with_at nth_error set_nth texts flat_map top]. rewrite E. repeat (rewrite <- ?app_assoc; cbn [app]). reflexivity.
Qed.

(** Injection at the last AST. *)
Lemma pick_last_app l y : pick_last (l ++ [y]) = Some (length l, y).
Proof. unfold pick_last. rewrite rev_app_distr. cbn [rev app]. rewrite app_length. cbn. do 2 f_equal. lia. Qed.
Lemma last_at bs fuel : forall t, height t <= fuel ->
  exists u rest, lookup t (concretize fuel pick_last t) = Some u /\
    texts (with_at t (concretize fuel pick_last t) (wrap_before_after u [] bs)) = rest ++ fT bs ++ below t.
Proof.
  induction fuel as [|f IH]; intros [k c a b ks af] H; cbn [height] in H; [lia|]. cbn [concretize n_cls n_kids].
  assert (D : (k = KError /\ ks <> []) \/ k <> KError \/ ks = []) by (destruct ks; [auto|destruct k; try (right; left; discriminate); left; split; congruence]).
  destruct D as [[-> K]|D].
  - destruct (exists_last_or_nil ks) as [->|(l & y & ->)]; [congruence|]. cbn [cls_eqb]. rewrite pick_last_app.
    destruct (IH y) as (u & rest & L & E).
    { pose proof (height_kid y (l ++ [y]) ltac:(apply in_or_app; right; left; reflexivity)). lia. }
    exists u, (fT b ++ c :: fT l ++ rest). cbn [lookup n_kids]. rewrite nth_app_mid. split; [exact L|].
    cbn [with_at]. rewrite nth_app_mid, set_nth_app, below_err. cbn [texts]. rewrite flat_map_app. cbn [flat_map]. rewrite app_nil_r, E.
    repeat (rewrite <- ?app_assoc; cbn [app]). reflexivity.
  - replace (if cls_eqb k KError then _ else []) with (@nil nat).
    + exists (Node k c a b ks af), (fT b ++ c :: fT ks ++ fT af). split; [reflexivity|]. cbn [with_at wrap_before_after texts].
      rewrite app_nil_r, flat_map_app. replace (below (Node k c a b ks af)) with (@nil content).
      * rewrite app_nil_r. repeat (rewrite <- ?app_assoc; cbn [app]). reflexivity.
      * cbn [below]. destruct D as [D| ->]; [destruct k; try reflexivity; congruence|destruct k; reflexivity].
    + destruct D as [D| ->]; [destruct k; try reflexivity; congruence|destruct k; reflexivity].
Qed.
Lemma last_setup t bs : n_kids t <> [] -> exists rest,
  texts (inject_opt (setup_path pick_last t) [] bs t) = rest ++ fT bs ++ bottom t.
Proof.
  destruct t as [k c a b ks af]. cbn [n_kids]. intros K. destruct (exists_last_or_nil ks) as [->|(l & x & ->)]; [congruence|].
  unfold setup_path. cbn [n_kids]. rewrite pick_last_app. cbn [inject_opt]. unfold inject.
  destruct (last_at bs (height (Node k c a b (l ++ [x]) af)) x) as (u & rest & L & E).
  { pose proof (height_kid x (l ++ [x]) ltac:(apply in_or_app; right; left; reflexivity)). cbn [height]. lia. }
  cbn [lookup n_kids]. rewrite nth_app_mid, L. exists (fT b ++ c :: fT l ++ rest).
  cbn [with_at bottom]. rewrite nth_app_mid, set_nth_app, rev_app_distr. cbn [rev app texts]. rewrite flat_map_app. cbn [flat_map]. rewrite app_nil_r, E.
  repeat (rewrite <- ?app_assoc; cbn [app]). reflexivity.
Qed.

(** The first injection leaves the bottom as it is (the bottom of the file is outside
    the last AST; injection before the first AST changes at most lists before ASTs). *)
Lemma below_before bs fuel : forall t, height t <= fuel -> forall u, lookup t (concretize fuel pick_first t) = Some u ->
  below (with_at t (concretize fuel pick_first t) (wrap_before_after u bs [])) = below t.
Proof.
  induction fuel as [|f IH]; intros [k c a b ks af] H u; cbn [height] in H; [lia|]. cbn [concretize n_cls n_kids].
  assert (D : (k = KError /\ ks <> []) \/ k <> KError \/ ks = []) by (destruct ks; [auto|destruct k; try (right; left; discriminate); left; split; congruence]).
  destruct D as [[-> K]|D].
  - destruct ks as [|x r]; [congruence|]. cbn [cls_eqb pick_first lookup n_kids nth_error]. intros L.
    cbn [with_at nth_error set_nth].
    destruct (exists_last_or_nil r) as [->|(l & y & ->)].
    + rewrite (below_err c a b [] _ af : below (Node KError c a b [_] af) = _), (below_err c a b [] x af : below (Node KError c a b [x] af) = _).
      rewrite IH; [reflexivity|cbn in H; lia|exact L].
    + rewrite (below_err c a b (_ :: l) y af : below (Node KError c a b (_ :: l ++ [y]) af) = _).
      rewrite (below_err c a b (x :: l) y af : below (Node KError c a b (x :: l ++ [y]) af) = _). reflexivity.
  - replace (if cls_eqb k KError then _ else []) with (@nil nat).
    + cbn [lookup]. intros [= <-]. cbn [with_at wrap_before_after]. rewrite app_nil_r.
      destruct k; try reflexivity.
    + destruct D as [D| ->]; [destruct k; try reflexivity; congruence|destruct k; reflexivity].
Qed.
Lemma bottom_before t bs : n_kids t <> [] -> bottom (inject_opt (setup_path pick_first t) bs [] t) = bottom t.
Proof.
  destruct t as [k c a b ks af]. cbn [n_kids]. intros K. destruct ks as [|x r]; [congruence|].
  unfold setup_path. cbn [n_kids pick_first inject_opt]. unfold inject.
  set (fu := height (Node k c a b (x :: r) af)).
  assert (Hf : height x <= fu) by (unfold fu; cbn; lia).
  destruct (first_at bs fu x Hf) as (u & rest & L & _). pose proof (below_before bs fu x Hf u L) as E.
  cbn [lookup n_kids nth_error]. rewrite L. cbn [with_at nth_error set_nth bottom].
  destruct (exists_last_or_nil r) as [->|(l & y & ->)]; cbn [rev app]; [rewrite E; reflexivity|].
  rewrite !rev_app_distr. reflexivity.
Qed.

Section Whole.
Variable struct_like else_like : ast -> bool.
Variable keep : path -> ast -> bool.
Variable bef aft : path -> list istmt.
Variable is_main : ast -> bool.
Variable o : software.
Hypothesis Src : source_file (sw_genome o).
Notation result := (sw_genome (instrument struct_like else_like keep bef aft is_main o)).

(** The program's text is all there, in the same order. *)
Theorem own_text : er 0 (texts result) = er 0 (texts (sw_genome o)).
Proof.
  unfold instrument. cbn [sw_genome]. set (t1 := instrument_genome struct_like else_like keep bef aft (sw_genome o)).
  assert (E1 : er 0 (texts t1) = er 0 (texts (sw_genome o))) by (unfold t1; rewrite instrument_rec; apply er_rec).
  set (t2 := inject_opt (setup_path pick_first t1) _ _ t1). set (t3 := inject_opt (setup_path pick_last t2) _ _ t2).
  assert (E3 : er 0 (texts t3) = er 0 (texts t1)) by (unfold t3, t2; rewrite !er_inject_opt; reflexivity).
  set (ps := main_paths struct_like is_main t3).
  assert (E4 := er_fold 0 ps ltac:(discriminate) t3).
  set (t4 := fold_left _ ps t3) in *.
  destruct ps; [congruence|]. rewrite er_inject_opt by reflexivity. congruence.
Qed.

Lemma uniq (n : N) (a b c d : list content) : a ++ Setup n :: b = c ++ Setup n :: d -> ~ In (Setup n) a -> ~ In (Setup n) c -> a = c /\ b = d.
Proof.
  revert c. induction a as [|x a IH]; intros [|y c] E A C; cbn in E.
  - injection E as ->. auto.
  - injection E as <- _. destruct C. left. reflexivity.
  - injection E as -> _. destruct A. left. reflexivity.
  - injection E as -> E. destruct (IH c E) as [-> ->]; [intros H; apply A; right; exact H|intros H; apply C; right; exact H|auto].
Qed.
Lemma t1_kids : n_kids (instrument_genome struct_like else_like keep bef aft (sw_genome o)) <> [].
Proof.
  rewrite instrument_rec. destruct (rec_state struct_like else_like keep bef aft (sw_genome o) Src). assumption.
Qed.
Lemma above_incl t : incl (above t) (texts t).
Proof.
  induction t as [k c a b ks af _ IH _] using ast_rect'. cbn [above texts]. apply incl_app; [apply incl_appl, incl_refl|].
  apply incl_appr. destruct ks as [|x r]; [destruct k; apply incl_nil_l|]. destruct k; try apply incl_nil_l.
  apply incl_cons; [left; reflexivity|]. apply incl_tl, incl_appl. cbn. apply incl_appl. apply (Forall_inv IH).
Qed.
Lemma top_incl t : incl (top t) (texts t).
Proof.
  destruct t as [k c a b ks af]. cbn [top texts]. apply incl_app; [apply incl_appl, incl_refl|]. apply incl_appr.
  apply incl_cons; [left; reflexivity|]. apply incl_tl, incl_appl. destruct ks; [apply incl_nil_l|]. cbn. apply incl_appl, above_incl.
Qed.
Lemma below_incl t : incl (below t) (texts t).
Proof.
  induction t as [k c a b ks af _ IH _] using ast_rect'.
  destruct (exists_last_or_nil ks) as [->|(l & y & ->)]; [destruct k; apply incl_nil_l|].
  destruct (cls_eqb k KError) eqn:Ek; [|destruct k; try discriminate; destruct l; apply incl_nil_l].
  assert (k = KError) by (destruct k; cbn in Ek; congruence). subst k. rewrite below_err. cbn [texts].
  apply incl_appr, incl_tl. rewrite flat_map_app. apply incl_app; [|apply incl_appr, incl_refl].
  apply incl_appl, incl_appr. cbn. rewrite app_nil_r. rewrite Forall_app in IH. destruct IH as [_ IH]. apply (Forall_inv IH).
Qed.
Lemma bottom_incl t : incl (bottom t) (texts t).
Proof.
  destruct t as [k c a b ks af]. cbn [bottom texts]. apply incl_appr, incl_tl. apply incl_app; [|apply incl_appr, incl_refl].
  destruct (exists_last_or_nil ks) as [->|(l & y & ->)]; [apply incl_nil_l|]. rewrite rev_app_distr, flat_map_app. cbn.
  rewrite app_nil_r. apply incl_appl, incl_appr, below_incl.
Qed.

Theorem front_text front rest : texts result = front ++ Setup 1 :: rest -> Forall of_program front ->
  er 0 front = er 0 (top (sw_genome o)).
Proof.
  intros E F. apply (f_equal (filter (keepc 1))) in E. rewrite filter_app in E. cbn [filter keepc N.eqb Pos.eqb] in E.
  unfold instrument in E. cbn [sw_genome] in E. pose proof t1_kids as K1.
  set (t1 := instrument_genome struct_like else_like keep bef aft (sw_genome o)) in *.
  assert (T1 : top t1 = top (sw_genome o)) by (unfold t1; rewrite instrument_rec; apply top_rec; apply Src).
  destruct (first_setup t1 [fragment (Setup 1)] K1) as (r2 & E2).
  set (t2 := inject_opt (setup_path pick_first t1) _ _ t1) in *. set (t3 := inject_opt (setup_path pick_last t2) _ _ t2) in *.
  assert (E3 : er 1 (texts t3) = er 1 (texts t2)) by (unfold t3; rewrite !er_inject_opt; reflexivity).
  set (ps := main_paths struct_like is_main t3) in *.
  assert (E4 := er_fold 1 ps ltac:(discriminate) t3).
  set (t4 := fold_left _ ps t3) in *.
  assert (E5 : er 1 (texts (match ps with [] => t4 | _ :: _ => inject_opt (setup_path pick_last t4) [] [fragment (Setup 4)] t4 end)) = er 1 (texts t2))
    by (destruct ps; [|rewrite er_inject_opt by reflexivity]; congruence).
  rewrite E5, E2, !filter_app in E. cbn [flat_map fragment texts app filter keepc N.eqb Pos.eqb] in E.
  assert (NT : forall l, Forall of_program l -> er 1 l = er 0 l /\ ~ In (Setup 1) (er 1 l)).
  { intros l Fl. split.
    - apply filter_ext_in. intros c Hc. rewrite Forall_forall in Fl. specialize (Fl c Hc). destruct c; cbn in *; tauto.
    - intros H. apply filter_In in H. rewrite Forall_forall in Fl. exact (Fl _ (proj1 H)). }
  assert (FT : Forall of_program (top (sw_genome o))).
  { apply Forall_forall. intros c Hc. destruct Src as (_ & _ & Fs). rewrite Forall_forall in Fs. apply Fs. apply top_incl, Hc. }
  rewrite T1 in E. destruct (NT _ F) as [A1 A2]. destruct (NT _ FT) as [B1 B2].
  destruct (uniq 1 _ _ _ _ E B2 A2) as [H _].
  congruence.
Qed.

Theorem back_text back rest e : texts result = rest ++ Setup 2 :: e ++ back -> (e = [] \/ e = [Setup 4]) -> Forall of_program back ->
  er 0 back = er 0 (bottom (sw_genome o)).
Proof.
  intros E Ee F. apply (f_equal (filter (keepc 2))) in E. rewrite filter_app in E. cbn [filter keepc N.eqb Pos.eqb] in E.
  rewrite filter_app in E. replace (er 2 e) with (@nil content) in E by (destruct Ee as [-> | ->]; reflexivity). cbn [app] in E.
  unfold instrument in E. cbn [sw_genome] in E. pose proof t1_kids as K1.
  set (t1 := instrument_genome struct_like else_like keep bef aft (sw_genome o)) in *.
  assert (T1 : bottom t1 = bottom (sw_genome o)) by (unfold t1; rewrite instrument_rec; apply bottom_rec; apply Src).
  assert (K2 : n_kids (inject_opt (setup_path pick_first t1) [fragment (Setup 1)] [] t1) <> []).
  { unfold t1. rewrite instrument_rec.
    pose proof (rec_state struct_like else_like keep bef aft (sw_genome o) Src) as St.
    destruct (state_first _ (fun _ => True) _ [fragment (Setup 1)] _ St (fun _ _ => Logic.I)) as (p & u & _ & _ & _ & _ & [ ]). assumption. }
  assert (T2 := bottom_before t1 [fragment (Setup 1)] K1).
  set (t2 := inject_opt (setup_path pick_first t1) _ _ t1) in *.
  destruct (last_setup t2 [fragment (Setup 2)] K2) as (r2 & E2).
  set (t3 := inject_opt (setup_path pick_last t2) _ _ t2) in *.
  set (ps := main_paths struct_like is_main t3) in *.
  assert (E4 := er_fold 2 ps ltac:(discriminate) t3).
  set (t4 := fold_left _ ps t3) in *.
  assert (E5 : er 2 (texts (match ps with [] => t4 | _ :: _ => inject_opt (setup_path pick_last t4) [] [fragment (Setup 4)] t4 end)) = er 2 (texts t3))
    by (destruct ps; [|rewrite er_inject_opt by reflexivity]; congruence).
  rewrite E5, E2, !filter_app in E. cbn [flat_map fragment texts app filter keepc N.eqb Pos.eqb] in E.
  assert (NT : forall l, Forall of_program l -> er 2 l = er 0 l /\ ~ In (Setup 2) (er 2 l)).
  { intros l Fl. split.
    - apply filter_ext_in. intros c Hc. rewrite Forall_forall in Fl. specialize (Fl c Hc). destruct c; cbn in *; tauto.
    - intros H. apply filter_In in H. rewrite Forall_forall in Fl. exact (Fl _ (proj1 H)). }
  assert (FT : Forall of_program (bottom (sw_genome o))).
  { apply Forall_forall. intros c Hc. destruct Src as (_ & _ & Fs). rewrite Forall_forall in Fs. apply Fs. apply bottom_incl, Hc. }
  rewrite T2, T1 in E. destruct (NT _ F) as [A1 A2]. destruct (NT _ FT) as [B1 B2].
  apply (f_equal (@rev content)) in E. rewrite !rev_app_distr in E. cbn [rev] in E. rewrite <- !app_assoc in E. cbn [app] in E.
  destruct (uniq 2 _ _ _ _ E) as [H _]; [rewrite <- in_rev; exact B2|rewrite <- in_rev; exact A2|].
  apply (f_equal (@rev content)) in H. rewrite !rev_involutive in H. congruence.
Qed.
End Whole.
