(** Proofs about the support code of instrumented files, part 3. *)
From Coq Require Import List Bool Arith NArith Lia Permutation.
From Verif Require Import Base Types Instr Splice SpliceProofs1 SetupSpec SetupProofs SetupProofs2.
Import ListNotations.
Open Scope nat_scope.

Definition n_before (t : ast) : list ast := let 'Node _ _ _ b _ _ := t in b.

Lemma nth_set_other ks : forall i j y, i <> j -> nth_error (set_nth ks i y) j = nth_error ks j.
Proof. induction ks as [|x ks IH]; intros [|i] [|j] y H; cbn; try reflexivity; try congruence. apply IH. congruence. Qed.
Lemma lookup_other t p u bs as_ : lookup t p = Some u -> forall q v, p <> q -> lookup t q = Some v ->
  exists v', lookup (with_at t p (wrap_before_after u bs as_)) q = Some v' /\
    n_cls v' = n_cls v /\ n_content v' = n_content v /\ n_before v' = n_before v.
Proof.
  revert t. induction p as [|i p IH]; intros [k c a b ks af] E q v N L.
  - destruct q as [|j q]; [congruence|]. cbn in E. injection E as <-. cbn [with_at]. rewrite wrap_eq.
    cbn in *. eexists. split; [exact L|auto].
  - cbn in E. cbn [with_at]. destruct (nth_error ks i) as [x|] eqn:Ex; [|discriminate]. destruct q as [|j q].
    + cbn in *. injection L as <-. eexists. split; [reflexivity|auto].
    + cbn in *. destruct (Nat.eq_dec i j) as [<-|D].
      * rewrite (nth_set_nth _ _ _ _ Ex). rewrite Ex in L. apply IH; [exact E|congruence|exact L].
      * rewrite nth_set_other by exact D. eexists. split; [exact L|auto].
Qed.

Definition no3 (l : list content) : Prop := ~ In (Setup 3) l.
Section Deep.
Variable m : content -> bool.

(** Each entry macro stands directly before the text of a declarator of main. *)
Fixpoint adj (l : list content) : Prop :=
  match l with
  | [] => True
  | x :: r => (x = Setup 3 -> exists c b, r = c :: b /\ m c = true) /\ adj r
  end.
Lemma adj_app l r : adj l -> adj r -> adj (l ++ r).
Proof.
  induction l as [|x l IH]; cbn; intros A B; [exact B|]. destruct A as [A1 A2]. split; [|auto].
  intros E. destruct (A1 E) as (c & b & -> & M). exists c, (b ++ r). auto.
Qed.
Lemma no3_adj l : no3 l -> adj l.
Proof.
  induction l as [|x l IH]; cbn; intros H; [exact Logic.I|]. split.
  - intros ->. destruct H. left. reflexivity.
  - apply IH. intros K. apply H. right. exact K.
Qed.
Lemma no3_app l r : no3 (l ++ r) <-> no3 l /\ no3 r.
Proof. unfold no3. rewrite in_app_iff. tauto. Qed.
Lemma adj_spec l : adj l -> forall a b, l = a ++ Setup 3 :: b -> exists c b', b = c :: b' /\ m c = true.
Proof.
  induction l as [|x l IH]; intros A a b E; [destruct a; discriminate|]. destruct A as [A1 A2].
  destruct a as [|y a]; cbn in E; injection E as -> ->; [auto|]. eapply IH; [exact A2|reflexivity].
Qed.

Inductive deep : ast -> Prop :=
| deep_node k c a b ks af :
    (no3 (fT b) \/ exists x, fT b = x ++ [Setup 3] /\ no3 x /\ m c = true) ->
    c <> Setup 3 -> Forall deep ks -> no3 (fT af) -> deep (Node k c a b ks af).

Lemma deep_adj t : deep t -> adj (texts t).
Proof.
  induction t as [k c a b ks af _ IH _] using ast_rect'. intros D. inversion D as [k' c' a' b' ks' af' B C K A]; subst.
  cbn [texts].
  assert (R : adj (fT ks ++ fT af)).
  { apply adj_app; [|apply no3_adj; exact A]. clear - IH K. induction IH as [|x l Hx _ IHl]; cbn; [exact Logic.I|].
    apply adj_app; [apply Hx; exact (Forall_inv K)|apply IHl; exact (Forall_inv_tail K)]. }
  assert (R1 : adj (c :: fT ks ++ fT af)) by (split; [intros H; contradiction|exact R]).
  destruct B as [B|(x & E & Nx & M)].
  - apply adj_app; [apply no3_adj; exact B|exact R1].
  - rewrite E, <- app_assoc. apply adj_app; [apply no3_adj; exact Nx|]. cbn [app]. split; [|exact R1].
    intros _. eexists _, _. split; [reflexivity|exact M].
Qed.
Lemma no3_deep t : no3 (texts t) -> deep t.
Proof.
  induction t as [k c a b ks af _ IH _] using ast_rect'. cbn [texts]. intros H.
  apply no3_app in H. destruct H as [H1 H]. assert (C : c <> Setup 3) by (intros ->; apply H; left; reflexivity).
  assert (H2 : no3 (fT ks ++ fT af)) by (intros K; apply H; right; exact K). apply no3_app in H2. destruct H2 as [H2 H3].
  constructor; [left; exact H1|exact C| |exact H3].
  clear - IH H2. induction IH as [|x l Hx _ IHl]; [constructor|]. cbn in H2. apply no3_app in H2. destruct H2.
  constructor; auto.
Qed.
Lemma deep_lookup t p u : deep t -> lookup t p = Some u -> deep u.
Proof.
  revert t. induction p as [|i p IH]; intros t D E; cbn in E; [congruence|].
  destruct D as [k c a b ks af B C K A]. cbn in E. destruct (nth_error ks i) as [x|] eqn:Ex; [|discriminate].
  apply (IH x); [|exact E]. apply nth_error_In in Ex. rewrite Forall_forall in K. auto.
Qed.
Lemma deep_with t p n : deep t -> deep n -> deep (with_at t p n).
Proof.
  revert t. induction p as [|i p IH]; intros t D Dn; [exact Dn|].
  destruct D as [k c a b ks af B C K A]. cbn [with_at]. destruct (nth_error ks i) as [x|] eqn:Ex; [|constructor; assumption].
  constructor; [exact B|exact C| |exact A].
  destruct (set_nth_split ks i x (with_at x p n) Ex) as (l & r & E1 & E2 & _). rewrite E2. rewrite E1 in K.
  apply Forall_app in K. destruct K as [K1 K2]. apply Forall_app. split; [exact K1|].
  constructor; [apply IH; [exact (Forall_inv K2)|exact Dn]|exact (Forall_inv_tail K2)].
Qed.
Lemma deep_after t as_ : deep t -> no3 (fT as_) -> deep (wrap_before_after t [] as_).
Proof.
  intros [k c a b ks af B C K A] H. rewrite wrap_eq, app_nil_r. constructor; try assumption.
  rewrite flat_map_app. apply no3_app. auto.
Qed.
Lemma deep_main t : deep t -> no3 (fT (n_before t)) -> m (n_content t) = true -> deep (wrap_before_after t [fragment (Setup 3)] []).
Proof.
  intros [k c a b ks af B C K A] H M. cbn in H, M. rewrite wrap_eq, app_nil_r. constructor; try assumption.
  right. exists (fT b). rewrite flat_map_app. auto.
Qed.

(** The macro at each declarator. *)
Variable is_main : ast -> bool.
Hypothesis R : recognises is_main m.
Variable Qf Ql : list content -> Prop.
Hypothesis Qf3 : forall l, Qf l -> Qf (l ++ [Setup 3]).
Lemma fold_mains ps : forall t, NoDup ps -> state Qf Ql t -> deep t ->
  (forall p, In p ps -> exists u, lookup t p = Some u /\ n_cls u = KExpr /\ m (n_content u) = true /\ no3 (fT (n_before u))) ->
  let t' := fold_left (fun r p => inject p [fragment (Setup 3)] [] r) ps t in
  state Qf Ql t' /\ deep t' /\ Permutation (texts t') (repeat (Setup 3) (length ps) ++ texts t).
Proof.
  induction ps as [|p ps IH]; intros t N St D L; cbn [fold_left].
  - split; [exact St|]. split; [exact D|]. reflexivity.
  - apply NoDup_cons_iff in N. destruct N as [N1 N2].
    destruct (L p (or_introl eq_refl)) as (u & E & C & M & B).
    set (t1 := inject p [fragment (Setup 3)] [] t).
    assert (E1 : t1 = with_at t p (wrap_before_after u [fragment (Setup 3)] [])) by (unfold t1, inject; rewrite E; reflexivity).
    destruct (state_main Qf Ql [fragment (Setup 3)] t p u St Qf3 E C) as [_ St1]. rewrite <- E1 in St1.
    assert (D1 : deep t1).
    { rewrite E1. apply deep_with; [exact D|]. apply deep_main; [exact (deep_lookup _ _ _ D E)|exact B|exact M]. }
    destruct (IH t1 N2 St1 D1) as (H1 & H2 & H3).
    + intros q Hq. destruct (L q (or_intror Hq)) as (v & Ev & Cv & Mv & Bv).
      assert (Nq : p <> q) by (intros ->; contradiction).
      destruct (lookup_other t p u [fragment (Setup 3)] [] E q v Nq Ev) as (v' & E' & C' & M' & B').
      exists v'. rewrite E1, C', M', B'. auto.
    + split; [exact H1|]. split; [exact H2|]. rewrite H3. unfold t1. rewrite (inject_perm t p u _ _ E). cbn [flat_map fragment texts app length repeat].
      apply Permutation_sym, Permutation_middle.
Qed.
End Deep.

(** ** The whole *)
Definition is_setup (n : N) (c : content) : bool := match c with Setup k => N.eqb n k | _ => false end.
Definition cnt (n : N) (l : list content) : nat := length (filter (is_setup n) l).
Lemma cnt_app n a b : cnt n (a ++ b) = cnt n a + cnt n b.
Proof. unfold cnt. rewrite filter_app, app_length. reflexivity. Qed.
Lemma cnt_cons n c l : cnt n (c :: l) = (if is_setup n c then 1 else 0) + cnt n l.
Proof. unfold cnt. cbn [filter]. destruct (is_setup n c); reflexivity. Qed.
Lemma cnt_perm n a b : Permutation a b -> cnt n a = cnt n b.
Proof. intros H. apply Permutation_length. apply perm_filter. exact H. Qed.
Lemma cnt_none n l : Forall plain_or_call l -> cnt n l = 0.
Proof.
  induction 1 as [|c l H _ IH]; [reflexivity|]. rewrite cnt_cons, IH. destruct H as [H|H]; destruct c; cbn in H; try contradiction; reflexivity.
Qed.
Lemma cnt_in n l : cnt n l = 0 -> ~ In (Setup n) l.
Proof.
  induction l as [|c l IH]; intros E; [intros []|]. rewrite cnt_cons in E. intros [->|H]; [cbn in E; rewrite N.eqb_refl in E; discriminate|].
  revert H. apply IH. lia.
Qed.
Lemma cnt_repeat n k j : cnt n (repeat (Setup k) j) = if N.eqb n k then j else 0.
Proof. induction j as [|j IH]; cbn [repeat]; [destruct (N.eqb n k); reflexivity|]. rewrite cnt_cons, IH. cbn. destruct (N.eqb n k); lia. Qed.

Lemma between A R L e Y : A ++ Setup 1 :: R = L ++ Setup 2 :: e ++ Y -> Forall T A ->
  exists M, L = A ++ Setup 1 :: M /\ R = M ++ Setup 2 :: e ++ Y.
Proof.
  revert L. induction A as [|x A IH]; intros L E F; cbn in E.
  - destruct L as [|y L]; cbn in E; [discriminate|]. injection E as -> ->. exists L. auto.
  - destruct L as [|y L]; cbn in E.
    + injection E as -> _. apply Forall_inv in F. destruct F.
    + injection E as -> E. destruct (IH L E (Forall_inv_tail F)) as (M & -> & ->). exists M. auto.
Qed.

Section Whole.
Variable struct_like else_like : ast -> bool.
Variable keep : path -> ast -> bool.
Variable bef aft : path -> list istmt.
Variable is_main : ast -> bool.
Variable m : content -> bool.
Hypothesis Rm : recognises is_main m.
Variable o : software.
Hypothesis Src : source_file (sw_genome o).
Notation result := (sw_genome (instrument struct_like else_like keep bef aft is_main o)).
Notation many := (mains is_main (sw_genome o)).
Definition ending : list content := if many =? 0 then [] else [Setup 4].

Lemma lastly_mono (P Q : list content -> Prop) t : (forall l, P l -> Q l) -> lastly P t -> lastly Q t.
Proof. intros H F. induction F; [apply last_here|apply last_down]; auto. Qed.

Theorem support :
  begins (texts result) /\ ends ending (texts result) /\ adj m (texts result) /\
  exists r1, Forall plain_or_call r1 /\
    Permutation (texts result) (ending ++ repeat (Setup 3) many ++ Setup 2 :: Setup 1 :: r1).
Proof.
  unfold instrument. cbn [sw_genome].
  set (t1 := instrument_genome struct_like else_like keep bef aft (sw_genome o)).
  assert (S1 : state (Forall T) (Forall T) t1) by (unfold t1; rewrite instrument_rec; apply rec_state; exact Src).
  assert (P1 : Forall plain_or_call (texts t1)) by (unfold t1; rewrite instrument_rec; apply rec_texts; apply Src).
  assert (M1 : mains is_main t1 = many) by (unfold t1; rewrite instrument_rec; apply (mains_rec _ _ _ _ _ _ _ Rm)).
  set (t2 := inject_opt (setup_path pick_first t1) [fragment (Setup 1)] [] t1).
  assert (F2 : exists p u, setup_path pick_first t1 = Some p /\ lookup t1 p = Some u /\ state begins (Forall T) t2).
  { destruct (state_first (Forall T) begins (Forall T) [fragment (Setup 1)] t1 S1) as (p & u & E1 & E2 & _ & _ & S2).
    - intros l H. exists l, []. auto.
    - exists p, u. auto. }
  destruct F2 as (p2 & u2 & E2 & L2 & S2).
  assert (P2 : Permutation (texts t2) (Setup 1 :: texts t1)) by (unfold t2; rewrite E2; cbn [inject_opt]; rewrite (inject_perm _ _ _ _ _ L2); reflexivity).
  set (t3 := inject_opt (setup_path pick_last t2) [] [fragment (Setup 2)] t2).
  set (Q3 := fun l : list content => exists x, l = x ++ [Setup 2]).
  assert (F3 : exists p u, setup_path pick_last t2 = Some p /\ lookup t2 p = Some u /\ state begins Q3 t3).
  { destruct (state_last begins (Forall T) Q3 [fragment (Setup 2)] t2 S2) as (p & u & E1 & E3 & _ & _ & S3).
    - intros l H. exists l. reflexivity.
    - exists p, u. auto. }
  destruct F3 as (p3 & u3 & E3 & L3 & S3').
  assert (P3 : Permutation (texts t3) (Setup 2 :: texts t2)) by (unfold t3; rewrite E3; cbn [inject_opt]; rewrite (inject_perm _ _ _ _ _ L3); reflexivity).
  assert (M3 : mains is_main t3 = many) by (unfold t3, t2; rewrite !(mains_inject_opt _ _ Rm); exact M1).
  destruct (main_paths_spec struct_like is_main t3) as (ND & Len & Lk). rewrite M3 in Len.
  set (ps := main_paths struct_like is_main t3) in *.
  assert (N3 : no3 (texts t3)).
  { apply cnt_in. rewrite (cnt_perm _ _ _ P3), cnt_cons, (cnt_perm _ _ _ P2), cnt_cons, (cnt_none _ _ P1). reflexivity. }
  assert (D3 : deep m t3) by (apply no3_deep; exact N3).
  assert (B3 : forall l, begins l -> begins (l ++ [Setup 3])).
  { intros l (x & y & -> & H). exists x, (y ++ [Setup 3]). split; [rewrite <- app_assoc; reflexivity|exact H]. }
  destruct (fold_mains m begins Q3 B3 ps t3 ND S3' D3) as (S4 & D4 & P4).
  { intros p Hp. destruct (Lk p Hp) as (u & E & Mu). exists u. split; [exact E|]. rewrite (proj1 Rm) in Mu. apply andb_prop in Mu.
    destruct Mu as [C Mc]. split; [destruct (n_cls u); cbn in C; congruence|]. split; [exact Mc|].
    destruct (texts_with t3 p u E) as (A & B & H). specialize (H u). rewrite (with_at_same t3 p u E) in H. rewrite H in N3.
    apply no3_app in N3. destruct N3 as [_ N3]. apply no3_app in N3. destruct N3 as [N3 _].
    destruct u as [k c a b ks af]. cbn [texts n_before] in *. apply no3_app in N3. tauto. }
  set (t4 := fold_left (fun r p => inject p [fragment (Setup 3)] [] r) ps t3) in *. rewrite Len in P4.
  unfold ending. destruct ps as [|q ps'] eqn:Eps.
  - cbn [length] in Len. rewrite <- Len in *. cbn [Nat.eqb].
    split; [|split; [|split]].
    + rewrite <- as_error_texts. apply firstly_texts, S4.
    + rewrite <- as_error_texts. apply lastly_texts. eapply lastly_mono; [|apply S4].
      intros l (x & ->). exists x, []. auto.
    + apply deep_adj. exact D4.
    + exists (texts t1). split; [exact P1|]. rewrite P4, P3, P2. reflexivity.
  - rewrite <- Eps in *. replace (many =? 0) with false by (rewrite <- Len, Eps; reflexivity).
    set (Q5 := fun l : list content => exists x, l = x ++ [Setup 2; Setup 4]).
    destruct (state_last begins Q3 Q5 [fragment (Setup 4)] t4 S4) as (p & u & E1 & E5 & _ & E6 & S5).
    { intros l (x & ->). exists x. rewrite <- app_assoc. reflexivity. }
    split; [|split; [|split]].
    + rewrite <- as_error_texts. apply firstly_texts, S5.
    + rewrite <- as_error_texts. apply lastly_texts. eapply lastly_mono; [|apply S5].
      intros l (x & ->). exists x, []. auto.
    + rewrite E6. apply deep_adj. apply deep_with; [exact D4|]. apply deep_after; [exact (deep_lookup _ _ _ _ D4 E5)|].
      intros [H|[]]. discriminate.
    + exists (texts t1). split; [exact P1|]. rewrite E1. cbn [inject_opt]. rewrite (inject_perm _ _ _ _ _ E5).
      cbn [flat_map fragment texts app]. apply perm_skip. rewrite P4, P3, P2. reflexivity.
Qed.

Theorem support_code : exists front middle back,
  texts result = front ++ Setup 1 :: middle ++ Setup 2 :: ending ++ back /\
  Forall T front /\ Forall T back /\
  Forall (fun c => T c \/ a_call c \/ c = Setup 3) middle /\
  length (filter (is_setup 3) middle) = many.
Proof.
  destruct support as ((A & R & E1 & FA) & (L & Y & E2 & FY) & _ & (r1 & F1 & P)).
  assert (E : A ++ Setup 1 :: R = L ++ Setup 2 :: ending ++ Y) by congruence.
  destruct (between _ _ _ _ _ E FA) as (M & -> & ->).
  exists A, M, Y. split; [exact E1|]. split; [exact FA|]. split; [exact FY|].
  assert (TA : Forall plain_or_call A) by (eapply Forall_impl; [|exact FA]; intros; left; assumption).
  assert (TY : Forall plain_or_call Y) by (eapply Forall_impl; [|exact FY]; intros; left; assumption).
  assert (C : forall n, cnt n A + ((if is_setup n (Setup 1) then 1 else 0) + (cnt n M + ((if is_setup n (Setup 2) then 1 else 0) + (cnt n ending + cnt n Y)))) =
    cnt n ending + (cnt n (repeat (Setup 3) many) + ((if is_setup n (Setup 2) then 1 else 0) + ((if is_setup n (Setup 1) then 1 else 0) + cnt n r1)))).
  { intros n. rewrite <- !cnt_cons, <- !cnt_app, <- cnt_cons, <- !cnt_app, <- !cnt_cons, <- !cnt_app.
    apply cnt_perm. rewrite <- E1. exact P. }
  assert (C' : forall n, cnt n M = cnt n (repeat (Setup 3) many)).
  { intros n. specialize (C n). rewrite (cnt_none n A TA), (cnt_none n Y TY), (cnt_none n r1 F1) in C. lia. }
  split.
  - apply Forall_forall. intros c Hc.
    assert (I : In c (ending ++ repeat (Setup 3) many ++ Setup 2 :: Setup 1 :: r1)).
    { apply (Permutation_in _ P). rewrite E1. apply in_or_app. right. right. apply in_or_app. left. exact Hc. }
    assert (No : forall n, n <> 3%N -> c <> Setup n).
    { intros n Hn ->. specialize (C' n). rewrite cnt_repeat in C'. rewrite (proj2 (N.eqb_neq n 3) Hn) in C'.
      exact (cnt_in _ _ C' Hc). }
    apply in_app_or in I. destruct I as [I|I].
    { unfold ending in I. destruct (many =? 0); [destruct I|destruct I as [I|[]]]. exfalso. apply (No 4%N); [discriminate|auto]. }
    apply in_app_or in I. destruct I as [I|I]; [apply repeat_spec in I; auto|].
    destruct I as [I|[I|I]]; [exfalso; apply (No 2%N); [discriminate|auto]|exfalso; apply (No 1%N); [discriminate|auto]|].
    rewrite Forall_forall in F1. destruct (F1 c I); auto.
  - change (cnt 3 M = many). rewrite C', cnt_repeat. reflexivity.
Qed.
End Whole.
