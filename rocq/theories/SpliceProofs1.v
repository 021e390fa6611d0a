(** Proofs about Splice.v, part 1: the loop over sorted positions is a recursion
    over the AST. *)
From Coq Require Import List Bool Arith NArith Lia Permutation Sorted.
From Verif Require Import Base Types Instr Splice SpliceSpec.
Import ListNotations.
Open Scope nat_scope.

Section AstInd.
Variable P : ast -> Prop.
Hypothesis H : forall k c a b ks af, Forall P b -> Forall P ks -> Forall P af -> P (Node k c a b ks af).
Fixpoint ast_rect' (t : ast) : P t :=
  let all := fix all (l : list ast) : Forall P l :=
     match l with [] => Forall_nil P | x :: r => Forall_cons x (ast_rect' x) (all r) end in
  match t with Node k c a b ks af => H k c a b ks af (all b) (all ks) (all af) end.
End AstInd.

(** ** Sorting *)
Lemma later_asym a b : path_later a b = true -> path_later b a = false.
Proof.
  revert b; induction a as [|i a IH]; intros [|j b]; cbn [path_later]; try congruence.
  destruct (Nat.ltb_spec j i), (Nat.ltb_spec i j); intros E; try lia; try congruence. apply IH, E.
Qed.
Definition later (p q : place) : Prop := path_later (pl_path p) (pl_path q) = true.

Lemma ss_app_inv (d1 d2 : list place) :
  StronglySorted later (d1 ++ d2) ->
  StronglySorted later d1 /\ StronglySorted later d2 /\ (forall p q, In p d1 -> In q d2 -> later p q).
Proof.
  induction d1 as [|a d1 IH]; cbn; intros Hs.
  - split; [constructor|]. split; [exact Hs|]. intros p q [].
  - inversion Hs as [|? ? H1 H2]; subst. destruct (IH H1) as (A & B & C).
    rewrite Forall_app in H2. destruct H2 as [H2 H3]. rewrite Forall_forall in H3.
    split; [constructor; assumption|]. split; [exact B|].
    intros p q [<-|Hp] Hq; [apply H3, Hq|apply C; assumption].
Qed.
Lemma ss_app (d1 d2 : list place) :
  StronglySorted later d1 -> StronglySorted later d2 ->
  (forall p q, In p d1 -> In q d2 -> later p q) -> StronglySorted later (d1 ++ d2).
Proof.
  induction d1 as [|a d1 IH]; cbn; intros H1 H2 H3; [exact H2|].
  inversion H1 as [|? ? H4 H5]; subst. constructor.
  - apply IH; [assumption..|]. intros p q Hp Hq. apply H3; [right|]; assumption.
  - apply Forall_app; split; [exact H5|]. apply Forall_forall. intros q Hq. apply H3; [left; reflexivity|exact Hq].
Qed.
Lemma insert_mid a d1 d2 :
  (forall q, In q d1 -> later q a) -> (forall q, In q d2 -> later a q) ->
  insert_later a (d1 ++ d2) = d1 ++ a :: d2.
Proof.
  intros H1 H2. induction d1 as [|q d1 IH]; cbn.
  - destruct d2 as [|q d2]; cbn; [reflexivity|].
    rewrite (later_asym _ _ (H2 q (or_introl eq_refl))). reflexivity.
  - pose proof (H1 q (or_introl eq_refl)) as Hq. unfold later in Hq. rewrite Hq.
    rewrite IH; [reflexivity|]. intros p Hp. apply H1; right; exact Hp.
Qed.
Lemma sort_unique l : forall d, Permutation l d -> StronglySorted later d -> sort_asts l = d.
Proof.
  induction l as [|a l IH]; intros d Hp Hs.
  - apply Permutation_nil in Hp. subst. reflexivity.
  - assert (Hin : In a d) by (apply (Permutation_in _ Hp); left; reflexivity).
    apply in_split in Hin. destruct Hin as (d1 & d2 & ->).
    apply Permutation_cons_app_inv in Hp.
    apply ss_app_inv in Hs. destruct Hs as (A & B & C).
    inversion B as [|? ? B1 B2]; subst. rewrite Forall_forall in B2.
    cbn [sort_asts fold_right]. fold (sort_asts l).
    rewrite (IH (d1 ++ d2) Hp).
    + apply insert_mid; [intros q Hq; apply C; [exact Hq|left; reflexivity]|exact B2].
    + apply ss_app; [assumption..|]. intros p q H1 H2. apply C; [|right]; assumption.
Qed.
Lemma ss_filter (f : place -> bool) d : StronglySorted later d -> StronglySorted later (filter f d).
Proof.
  induction 1 as [|a d H IH H2]; cbn; [constructor|].
  destruct (f a); [|exact IH]. constructor; [exact IH|].
  apply Forall_forall. intros q Hq. apply filter_In in Hq. rewrite Forall_forall in H2. apply H2, Hq.
Qed.

Lemma perm_filter {A} (f : A -> bool) l l' : Permutation l l' -> Permutation (filter f l) (filter f l').
Proof.
  induction 1; cbn.
  - constructor.
  - destruct (f x); [constructor|]; assumption.
  - destruct (f x), (f y); try reflexivity. constructor.
  - etransitivity; eassumption.
Qed.

Section Rec.
Variable struct_like else_like : ast -> bool.
Notation asts := (asts struct_like).
Notation child_ctx := (child_ctx struct_like).

(** ** The ASTs in the order of the loop *)
Section List1.
Variable x : ctx.
Variable t : ast.
Fixpoint asts_list (i : nat) (prev : option ast) (l : list ast) : list place :=
  match l with
  | [] => []
  | c :: r => map (down i) (asts (child_ctx x t i prev (hd_error r)) c) ++ asts_list (S i) (Some c) r
  end.
End List1.
Lemma asts_eq x t : asts x t = mkPl [] x t :: asts_list x t 0 None (n_kids t).
Proof. destruct t. reflexivity. Qed.

Fixpoint desc (x : ctx) (t : ast) : list place :=
  let 'Node _ _ _ _ ks _ := t in
  (fix go (i : nat) (prev : option ast) (l : list ast) : list place :=
     match l with
     | [] => []
     | c :: r => go (S i) (Some c) r ++ map (down i) (desc (child_ctx x t i prev (hd_error r)) c)
     end) 0 None ks ++ [mkPl [] x t].
Section List2.
Variable x : ctx.
Variable t : ast.
Fixpoint desc_list (i : nat) (prev : option ast) (l : list ast) : list place :=
  match l with
  | [] => []
  | c :: r => desc_list (S i) (Some c) r ++ map (down i) (desc (child_ctx x t i prev (hd_error r)) c)
  end.
End List2.
Lemma desc_eq x t : desc x t = desc_list x t 0 None (n_kids t) ++ [mkPl [] x t].
Proof. destruct t. reflexivity. Qed.

Lemma asts_desc t : forall x, Permutation (asts x t) (desc x t).
Proof.
  induction t as [k c a b ks af _ IH _] using ast_rect'. intros x.
  rewrite asts_eq, desc_eq. cbn [n_kids]. rewrite <- Permutation_cons_append. constructor.
  set (t := Node k c a b ks af). clearbody t.
  assert (G : forall i prev, Permutation (asts_list x t i prev ks) (desc_list x t i prev ks)); [|apply G].
  induction IH as [|y r Hy _ IHr]; intros i prev; cbn; [constructor|].
  rewrite Permutation_app_comm. apply Permutation_app; [apply IHr|].
  apply Permutation_map, Hy.
Qed.

Lemma desc_list_ge x t l : forall i prev p, In p (desc_list x t i prev l) ->
  exists j q, i <= j /\ pl_path p = j :: q.
Proof.
  induction l as [|c r IH]; cbn; intros i prev p Hp; [destruct Hp|].
  apply in_app_iff in Hp. destruct Hp as [Hp|Hp].
  - destruct (IH _ _ _ Hp) as (j & q & Hj & E). exists j, q. split; [lia|exact E].
  - apply in_map_iff in Hp. destruct Hp as (y & <- & _). exists i, (pl_path y). split; [lia|reflexivity].
Qed.
Lemma down_later i p q : later p q -> later (down i p) (down i q).
Proof. unfold later. cbn [down pl_path path_later]. rewrite Nat.ltb_irrefl. auto. Qed.
Lemma ss_down i l : StronglySorted later l -> StronglySorted later (map (down i) l).
Proof.
  induction 1 as [|a l H IH H2]; cbn; [constructor|]. constructor; [exact IH|].
  rewrite Forall_forall in *. intros q Hq. apply in_map_iff in Hq. destruct Hq as (y & <- & Hy).
  apply down_later, H2, Hy.
Qed.
Lemma desc_sorted t : forall x, StronglySorted later (desc x t).
Proof.
  induction t as [k c a b ks af _ IH _] using ast_rect'. intros x.
  rewrite desc_eq. cbn [n_kids]. set (t := Node k c a b ks af). clearbody t.
  apply ss_app.
  - assert (G : forall i prev, StronglySorted later (desc_list x t i prev ks)); [|apply G].
    induction IH as [|y r Hy _ IHr]; intros i prev; cbn; [constructor|].
    apply ss_app; [apply IHr|apply ss_down, Hy|].
    intros p q Hp Hq. destruct (desc_list_ge _ _ _ _ _ _ Hp) as (j & q' & Hj & E).
    apply in_map_iff in Hq. destruct Hq as (z & <- & _). unfold later. rewrite E. cbn [down pl_path path_later].
    destruct (Nat.ltb_spec i j); [reflexivity|lia].
  - constructor; constructor.
  - intros p q Hp [<-|[]]. destruct (desc_list_ge _ _ _ _ _ _ Hp) as (j & q' & Hj & E).
    unfold later. rewrite E. reflexivity.
Qed.

(** Positions are unique. *)
Lemma desc_unique t x p q : In p (desc x t) -> In q (desc x t) -> pl_path p = pl_path q -> p = q.
Proof.
  pose proof (desc_sorted t x) as Hs. induction Hs as [|a l _ IH H]; [intros []|].
  rewrite Forall_forall in H.
  assert (Irr : forall r, In r l -> pl_path a = pl_path r -> a = r).
  { intros r Hr E. pose proof (H r Hr) as L. unfold later in L. rewrite E in L.
    pose proof (later_asym _ _ L). congruence. }
  intros [<-|Hp] [<-|Hq] E.
  - reflexivity.
  - apply Irr; assumption.
  - symmetry; apply Irr; [assumption|symmetry; exact E].
  - apply IH; assumption.
Qed.

(** ** Applying changes at positions *)
Definition apply_at (g : ast -> ast) (p : path) (r : ast) : ast :=
  match lookup r p with Some t => with_at r p (g t) | None => r end.

Lemma set_nth_same l : forall i c, nth_error l i = Some c -> set_nth l i c = l.
Proof.
  induction l as [|x l IH]; intros [|i] c; cbn; try congruence.
  intros E. rewrite IH; [reflexivity|exact E].
Qed.
Lemma set_nth_set l : forall i c d, set_nth (set_nth l i c) i d = set_nth l i d.
Proof. induction l as [|x l IH]; intros [|i] c d; cbn; try reflexivity. rewrite IH; reflexivity. Qed.
Lemma nth_set_nth l : forall i c d, nth_error l i = Some d -> nth_error (set_nth l i c) i = Some c.
Proof. induction l as [|x l IH]; intros [|i] c d; cbn; try congruence. apply IH. Qed.
Lemma set_nth_app l1 y l2 z : set_nth (l1 ++ y :: l2) (length l1) z = l1 ++ z :: l2.
Proof. induction l1 as [|x l1 IH]; cbn; [reflexivity|]. rewrite IH; reflexivity. Qed.
Lemma nth_app_mid (l1 : list ast) y l2 : nth_error (l1 ++ y :: l2) (length l1) = Some y.
Proof. induction l1; cbn; [reflexivity|assumption]. Qed.

Lemma apply_down g i p k c a b ks af x :
  nth_error ks i = Some x ->
  apply_at g (i :: p) (Node k c a b ks af) = Node k c a b (set_nth ks i (apply_at g p x)) af.
Proof.
  intros E. unfold apply_at. cbn [lookup n_kids with_at]. rewrite E.
  destruct (lookup x p); [reflexivity|]. rewrite set_nth_same; [reflexivity|exact E].
Qed.

Section Changes.
Variable g : path -> place -> ast -> ast.    (* the change at a place below a position *)
Definition change (pre : path) (r : ast) (p : place) : ast := apply_at (g pre p) (pl_path p) r.

Hypothesis g_down : forall pre i p, g pre (down i p) = g (pre ++ [i]) p.

Lemma fold_down pre i L : forall k c a b ks af x,
  nth_error ks i = Some x ->
  fold_left (change pre) (map (down i) L) (Node k c a b ks af) =
  Node k c a b (set_nth ks i (fold_left (change (pre ++ [i])) L x)) af.
Proof.
  induction L as [|p L IH]; intros k c a b ks af x E; cbn [map fold_left].
  - rewrite set_nth_same; [reflexivity|exact E].
  - unfold change at 2. cbn [down pl_path]. rewrite apply_down with (x := x) by exact E.
    change (mkPl (i :: pl_path p) (pl_ctx p) (pl_ast p)) with (down i p). rewrite g_down.
    rewrite IH with (x := apply_at (g (pre ++ [i]) p) (pl_path p) x).
    + rewrite set_nth_set. reflexivity.
    + apply nth_set_nth with x. exact E.
Qed.

Fixpoint rec (pre : path) (x : ctx) (t : ast) : ast :=
  let 'Node k c a b ks af := t in
  g pre (mkPl [] x t)
    (Node k c a b
       ((fix go (i : nat) (prev : option ast) (l : list ast) : list ast :=
           match l with
           | [] => []
           | y :: r => rec (pre ++ [i]) (child_ctx x t i prev (hd_error r)) y :: go (S i) (Some y) r
           end) 0 None ks) af).
Section List3.
Variable pre : path.
Variable x : ctx.
Variable t : ast.
Fixpoint rec_list (i : nat) (prev : option ast) (l : list ast) : list ast :=
  match l with
  | [] => []
  | y :: r => rec (pre ++ [i]) (child_ctx x t i prev (hd_error r)) y :: rec_list (S i) (Some y) r
  end.
End List3.
Lemma rec_eq pre x k c a b ks af :
  rec pre x (Node k c a b ks af) =
  g pre (mkPl [] x (Node k c a b ks af))
    (Node k c a b (rec_list pre x (Node k c a b ks af) 0 None ks) af).
Proof. reflexivity. Qed.

Lemma fold_rec t : forall pre x, fold_left (change pre) (desc x t) t = rec pre x t.
Proof.
  induction t as [k c a b ks af _ IH _] using ast_rect'. intros pre x.
  rewrite rec_eq, desc_eq, fold_left_app. cbn [fold_left n_kids].
  assert (G : forall t l, Forall (fun t => forall pre x, fold_left (change pre) (desc x t) t = rec pre x t) l ->
     forall i prev pk, length pk = i ->
     fold_left (change pre) (desc_list x t i prev l) (Node k c a b (pk ++ l) af) =
     Node k c a b (pk ++ rec_list pre x t i prev l) af).
  { clear IH. intros t l H. induction H as [|y r Hy _ IHr]; intros i prev pk Hi; cbn [desc_list rec_list]; [reflexivity|].
    rewrite fold_left_app.
    replace (pk ++ y :: r) with ((pk ++ [y]) ++ r) by (rewrite <- app_assoc; reflexivity).
    rewrite IHr by (rewrite app_length; cbn; lia).
    rewrite <- app_assoc. cbn [app]. subst i.
    rewrite fold_down with (x := y) by apply nth_app_mid.
    rewrite set_nth_app, Hy. reflexivity. }
  pose proof (G (Node k c a b ks af) ks IH 0 None [] eq_refl) as E. cbn [app] in E. rewrite E. reflexivity.
Qed.
End Changes.

Lemma fold_filter {A B} (f : A -> B -> A) (s : B -> bool) l : forall a,
  fold_left f (filter s l) a = fold_left (fun a b => if s b then f a b else a) l a.
Proof. induction l as [|b l IH]; cbn; intros a; [reflexivity|]. destruct (s b); cbn; apply IH. Qed.

(** ** Instrumentation as a recursion *)
Variable keep : path -> ast -> bool.
Variable bef aft : path -> list istmt.
Notation frags l := (map (fun i => fragment (Ins i)) l).

Definition selb (pre : path) (q : place) : bool :=
  can_be_made_traceable_p else_like (pl_ctx q) (pl_ast q) && keep (pre ++ pl_path q) (pl_ast q).
Definition dress (pre : path) (q : place) (t : ast) : ast :=
  if selb pre q then
    wrap_in_compound_if_needed else_like (pl_ctx q) (pl_ast q)
      (wrap_before_after t (frags (bef (pre ++ pl_path q))) (frags (aft (pre ++ pl_path q))))
  else t.
Lemma dress_down pre i p : dress pre (down i p) = dress (pre ++ [i]) p.
Proof. unfold dress, selb. cbn [down pl_path pl_ctx pl_ast]. rewrite <- app_assoc. reflexivity. Qed.

Lemma filter_filter {A} (f h : A -> bool) l : filter f (filter h l) = filter (fun x => h x && f x) l.
Proof.
  induction l as [|x l IH]; cbn; [reflexivity|].
  destruct (h x); cbn; [destruct (f x)|]; rewrite IH; reflexivity.
Qed.
Lemma chosen_eq root :
  chosen struct_like else_like keep root = filter (selb []) (desc ctx0 root).
Proof.
  unfold chosen. rewrite filter_filter. apply sort_unique.
  - apply perm_filter, asts_desc.
  - apply ss_filter, desc_sorted.
Qed.
Lemma with_at_same t : forall p y, lookup t p = Some y -> with_at t p y = t.
Proof.
  intros p; revert t; induction p as [|i p IH]; intros [k c a b ks af] y; cbn.
  - congruence.
  - destruct (nth_error ks i) as [z|] eqn:E; [|discriminate].
    intros H. rewrite IH by exact H. rewrite set_nth_same by exact E. reflexivity.
Qed.
Theorem instrument_rec root :
  instrument_genome struct_like else_like keep bef aft root = rec dress [] ctx0 root.
Proof.
  unfold instrument_genome. rewrite chosen_eq, fold_filter.
  rewrite <- (fold_rec dress dress_down).
  generalize root at 2 4 as r. generalize (desc ctx0 root) as L.
  induction L as [|p L IH]; intros r; cbn; [reflexivity|].
  replace (if selb [] p then instrument_one else_like bef aft r p else r) with (change dress [] r p).
  - apply IH.
  - unfold change, apply_at, dress, instrument_one. destruct (selb [] p); cbn [app].
    + destruct (lookup r (pl_path p)); reflexivity.
    + destruct (lookup r (pl_path p)) eqn:E; [|reflexivity]. apply with_at_same. exact E.
Qed.

End Rec.
