(** Proofs about the support code of instrumented files. *)
From Coq Require Import List Bool Arith NArith Lia Permutation.
From Verif Require Import Base Types Instr Splice SpliceProofs1 SetupSpec.
Import ListNotations.
Open Scope nat_scope.

Notation T := of_program.
Notation fT l := (flat_map texts l).

Lemma set_nth_split ks : forall i x y, nth_error ks i = Some x ->
  exists l r, ks = l ++ x :: r /\ set_nth ks i y = l ++ y :: r /\ length l = i.
Proof.
  induction ks as [|z ks IH]; intros [|i] x y E; cbn in E; try discriminate.
  - injection E as ->. exists [], ks. auto.
  - destruct (IH _ _ y E) as (l & r & -> & E2 & L). exists (z :: l), r. cbn. rewrite E2, L. auto.
Qed.

(** ** Positions in the text *)
Lemma texts_with t : forall p u, lookup t p = Some u ->
  exists A B, forall n, texts (with_at t p n) = A ++ texts n ++ B.
Proof.
  intros p; revert t. induction p as [|i p IH]; intros [k c a b ks af] u E; cbn in E.
  - exists [], []. intros n. cbn. rewrite app_nil_r. reflexivity.
  - destruct (nth_error ks i) as [x|] eqn:Ex; [|discriminate].
    destruct (IH _ _ E) as (A & B & H).
    destruct (set_nth_split ks i x x Ex) as (l & r & -> & _ & L).
    exists (fT b ++ c :: fT l ++ A), (B ++ fT r ++ fT af). intros n. cbn [with_at]. rewrite Ex.
    rewrite <- L. rewrite set_nth_app. cbn [texts]. rewrite flat_map_app. cbn [flat_map]. rewrite H.
    repeat (rewrite <- ?app_assoc; cbn [app]). reflexivity.
Qed.

Lemma texts_wrap t bs as_ : exists X Y, texts t = X ++ Y /\ fT (match t with Node _ _ _ b _ _ => b end) = X /\
  (exists Y', Y = n_content t :: Y') /\
  texts (wrap_before_after t bs as_) = X ++ fT bs ++ Y ++ fT as_.
Proof.
  destruct t as [k c a b ks af]. exists (fT b), (c :: fT ks ++ fT af). cbn [wrap_before_after texts n_content].
  split; [reflexivity|]. split; [reflexivity|]. split; [eexists; reflexivity|].
  rewrite !flat_map_app. repeat (rewrite <- ?app_assoc; cbn [app]). reflexivity.
Qed.

Lemma inject_perm t p u bs as_ : lookup t p = Some u ->
  Permutation (texts (inject p bs as_ t)) (fT bs ++ fT as_ ++ texts t).
Proof.
  intros E. unfold inject. rewrite E. destruct (texts_with t p u E) as (A & B & H).
  rewrite <- (with_at_same t p u E) at 2. rewrite !H.
  destruct (texts_wrap u bs as_) as (X & Y & E1 & _ & _ & E2). rewrite E1, E2.
  rewrite <- !app_assoc.
  rewrite (Permutation_app_swap_app A X). rewrite (Permutation_app_swap_app A (fT bs)).
  rewrite (Permutation_app_swap_app X (fT bs)). apply Permutation_app_head.
  rewrite (Permutation_app_swap_app A X).
  rewrite (app_assoc Y), (Permutation_app_comm Y (fT as_)), <- app_assoc.
  rewrite (Permutation_app_swap_app A (fT as_)). rewrite (Permutation_app_swap_app X (fT as_)). reflexivity.
Qed.

(** ** The first and the last AST of the file *)
Inductive firstly (Q : list content -> Prop) : ast -> Prop :=
| first_here k c a b ks af : k <> KError \/ ks = [] -> Q (fT b) -> firstly Q (Node k c a b ks af)
| first_down c a b x ks af : T c -> Forall T (fT b) -> firstly Q x -> firstly Q (Node KError c a b (x :: ks) af).
Inductive lastly (Q : list content -> Prop) : ast -> Prop :=
| last_here k c a b ks af : k <> KError \/ ks = [] -> Q (fT af) -> lastly Q (Node k c a b ks af)
| last_down c a b ks x af : Forall T (fT af) -> lastly Q x -> lastly Q (Node KError c a b (ks ++ [x]) af).

Lemma wrap_eq k c a b ks af bs as_ : wrap_before_after (Node k c a b ks af) bs as_ = Node k c a (b ++ bs) ks (af ++ as_).
Proof. reflexivity. Qed.
Lemma err_dec k (ks : list ast) : (k <> KError \/ ks = []) -> cls_eqb k KError = true -> ks = [].
Proof. intros [H|H] E; [destruct k; cbn in E; congruence|exact H]. Qed.

Lemma set_nth_nil ks i x y : nth_error ks i = Some x -> set_nth ks i y = [] -> False.
Proof. destruct ks, i; cbn; discriminate. Qed.

Lemma firstly_path (Q Q' : list content -> Prop) bs t : firstly Q t -> (forall l, Q l -> Q' (l ++ fT bs)) ->
  forall f, height t <= f -> exists u, lookup t (concretize f pick_first t) = Some u /\
    firstly Q' (with_at t (concretize f pick_first t) (wrap_before_after u bs [])).
Proof.
  intros H I. induction H as [k c a b ks af E H|c a b x ks af Tc Tb _ IH]; intros f Hf.
  - assert (C : concretize f pick_first (Node k c a b ks af) = []).
    { destruct f as [|f]; [reflexivity|]. cbn [concretize n_cls n_kids]. destruct (cls_eqb k KError) eqn:Ek; [|reflexivity].
      rewrite (err_dec _ _ E Ek). reflexivity. }
    rewrite C. exists (Node k c a b ks af). split; [reflexivity|]. cbn [with_at]. rewrite wrap_eq.
    apply first_here; [exact E|]. rewrite flat_map_app. apply I. exact H.
  - destruct f as [|f]; [cbn in Hf; lia|].
    assert (Hx : height x <= f) by (cbn in Hf; lia).
    destruct (IH f Hx) as (u & E1 & E2). cbn [concretize n_cls n_kids cls_eqb pick_first]. exists u.
    split; [exact E1|]. cbn [with_at nth_error set_nth]. apply first_down; assumption.
Qed.
Lemma lastly_path (Q Q' : list content -> Prop) as_ t : lastly Q t -> (forall l, Q l -> Q' (l ++ fT as_)) ->
  forall f, height t <= f -> exists u, lookup t (concretize f pick_last t) = Some u /\
    lastly Q' (with_at t (concretize f pick_last t) (wrap_before_after u [] as_)).
Proof.
  intros H I. induction H as [k c a b ks af E H|c a b ks x af Tb _ IH]; intros f Hf.
  - assert (C : concretize f pick_last (Node k c a b ks af) = []).
    { destruct f as [|f]; [reflexivity|]. cbn [concretize n_cls n_kids]. destruct (cls_eqb k KError) eqn:Ek; [|reflexivity].
      rewrite (err_dec _ _ E Ek). reflexivity. }
    rewrite C. exists (Node k c a b ks af). split; [reflexivity|]. cbn [with_at]. rewrite wrap_eq.
    apply last_here; [exact E|]. rewrite flat_map_app. apply I. exact H.
  - destruct f as [|f]; [cbn in Hf; lia|].
    assert (Hx : height x <= f).
    { cbn in Hf. rewrite map_app, fold_right_app in Hf. cbn in Hf.
      assert (M : forall l n, n <= fold_right Nat.max n l) by (induction l; cbn; intros; [lia|specialize (IHl n); lia]).
      specialize (M (map height ks) (Nat.max (height x) 0)). lia. }
    destruct (IH f Hx) as (u & E1 & E2). cbn [concretize n_cls n_kids cls_eqb]. unfold pick_last at 1 3. rewrite rev_app_distr. cbn [rev app].
    rewrite app_length. cbn [length]. replace (length ks + 1 - 1) with (length ks) by lia.
    exists u. cbn [lookup with_at n_kids]. rewrite nth_app_mid, set_nth_app.
    split; [exact E1|]. apply last_down; assumption.
Qed.

(** Changes elsewhere. *)
Lemma firstly_after Q t as_ : firstly Q t -> forall p u, lookup t p = Some u ->
  firstly Q (with_at t p (wrap_before_after u [] as_)).
Proof.
  intros H. induction H as [k c a b ks af E H|c a b x ks af Tc Tb H IH]; intros p u L.
  - destruct p as [|i p]; cbn in L.
    + injection L as <-. cbn [with_at]. rewrite wrap_eq, app_nil_r. apply first_here; assumption.
    + cbn [with_at]. destruct (nth_error ks i) as [y|] eqn:Ey; [|discriminate].
      apply first_here; [|exact H]. destruct E as [E| ->]; [auto|destruct i; discriminate].
  - destruct p as [|i p]; cbn in L.
    + injection L as <-. cbn [with_at]. rewrite wrap_eq, app_nil_r. apply first_down; assumption.
    + cbn [with_at]. destruct i as [|i]; cbn [nth_error set_nth] in *.
      * apply first_down; auto.
      * destruct (nth_error ks i) as [y|] eqn:Ey; [|discriminate]. apply first_down; assumption.
Qed.
Lemma firstly_before (Q : list content -> Prop) t bs : (forall l, Q l -> Q (l ++ fT bs)) -> firstly Q t -> forall p u, lookup t p = Some u ->
  n_cls u <> KError -> firstly Q (with_at t p (wrap_before_after u bs [])).
Proof.
  intros I H. induction H as [k c a b ks af E H|c a b x ks af Tc Tb H IH]; intros p u L C.
  - destruct p as [|i p]; cbn in L.
    + injection L as <-. cbn [with_at]. rewrite wrap_eq. apply first_here; [exact E|]. rewrite flat_map_app. auto.
    + cbn [with_at]. destruct (nth_error ks i) as [y|] eqn:Ey; [|discriminate].
      apply first_here; [|exact H]. destruct E as [E| ->]; [auto|destruct i; discriminate].
  - destruct p as [|i p]; cbn in L.
    + injection L as <-. cbn in C. congruence.
    + cbn [with_at]. destruct i as [|i]; cbn [nth_error set_nth] in *.
      * apply first_down; auto.
      * destruct (nth_error ks i) as [y|] eqn:Ey; [|discriminate]. apply first_down; assumption.
Qed.
Lemma lastly_before Q t bs : lastly Q t -> forall p u, lookup t p = Some u ->
  lastly Q (with_at t p (wrap_before_after u bs [])).
Proof.
  intros H. induction H as [k c a b ks af E H|c a b ks x af Tb H IH]; intros p u L.
  - destruct p as [|i p]; cbn in L.
    + injection L as <-. cbn [with_at]. rewrite wrap_eq, app_nil_r. apply last_here; assumption.
    + cbn [with_at]. destruct (nth_error ks i) as [y|] eqn:Ey; [|discriminate].
      apply last_here; [|exact H]. destruct E as [E| ->]; [auto|destruct i; discriminate].
  - destruct p as [|i p]; cbn in L.
    + injection L as <-. cbn [with_at]. rewrite wrap_eq, app_nil_r. apply last_down; assumption.
    + cbn [with_at]. destruct (nth_error (ks ++ [x]) i) as [y|] eqn:Ey; [|discriminate].
      destruct (Nat.lt_ge_cases i (length ks)) as [Hi|Hi].
      * rewrite nth_error_app1 in Ey by exact Hi.
        destruct (set_nth_split ks i y (with_at y p (wrap_before_after u bs [])) Ey) as (l & r & -> & _ & <-).
        rewrite <- app_assoc. cbn [app]. rewrite set_nth_app.
        change (l ++ ?y :: r ++ [x]) with (l ++ (y :: r) ++ [x]). rewrite app_assoc. apply last_down; assumption.
      * rewrite nth_error_app2 in Ey by exact Hi.
        destruct (i - length ks) as [|j] eqn:Ej; [|destruct j; discriminate]. cbn in Ey. injection Ey as <-.
        assert (i = length ks) by lia. subst i. rewrite set_nth_app. apply last_down; auto.
Qed.

Definition begins (l : list content) : Prop := exists x y, l = x ++ Setup 1 :: y /\ Forall T x.
Lemma firstly_texts t : firstly begins t -> begins (texts t).
Proof.
  intros H. induction H as [k c a b ks af E (x & y & H & F)|c a b x ks af Tc Tb _ (A & R & H & F)]; cbn [texts flat_map].
  - rewrite H. exists x. eexists. split; [rewrite <- app_assoc; cbn [app]; reflexivity|exact F].
  - rewrite H. exists (fT b ++ c :: A). eexists. split; [repeat (rewrite <- ?app_assoc; cbn [app]); reflexivity|].
    apply Forall_app. split; [exact Tb|constructor; assumption].
Qed.
Definition ends (e l : list content) : Prop := exists x y, l = x ++ Setup 2 :: e ++ y /\ Forall T y.
Lemma lastly_texts e t : lastly (ends e) t -> ends e (texts t).
Proof.
  intros H. induction H as [k c a b ks af E (x & y & H & F)|c a b ks x af Tb _ (A & R & H & F)]; cbn [texts flat_map].
  - rewrite H. exists (fT b ++ c :: fT ks ++ x), y. split; [|exact F]. repeat (rewrite <- ?app_assoc; cbn [app]). reflexivity.
  - rewrite flat_map_app. cbn [flat_map]. rewrite H. exists (fT b ++ c :: fT ks ++ A), (R ++ fT af).
    split; [repeat (rewrite <- ?app_assoc; cbn [app]); reflexivity|]. apply Forall_app. auto.
Qed.
