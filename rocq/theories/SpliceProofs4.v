(** Proofs about Splice.v, part 4: a marked statement and its expansion behave alike;
    marks only add to the log. *)
From Coq Require Import List Bool Arith NArith Lia.
From Verif Require Import Base Types Instr Splice SpliceSpec SpliceProofs1 SpliceProofs2 SpliceProofs3.
Import ListNotations.
Open Scope nat_scope.
#[local] Arguments Nat.ltb : simpl never.

Section Entries.
Variable bef aft : path -> list istmt.
Notation expand := (expand bef aft).

Lemma cases_ins l : flat_map cases (ins l) = [].
Proof. induction l; cbn; auto. Qed.
Lemma labels_ins l k : existsb (has_label k) (ins l) = false.
Proof. induction l; cbn; auto. Qed.

Lemma cases_hang s l : cases (hang s l) = flat_map cases l.
Proof.
  destruct s; try reflexivity; destruct l as [|y [|]]; cbn; rewrite ?app_nil_r; reflexivity.
Qed.
Lemma labels_hang s l k : has_label k (hang s l) = existsb (has_label k) l.
Proof.
  destruct s; try reflexivity; destruct l as [|y [|]]; cbn; rewrite ?orb_false_r; reflexivity.
Qed.
Lemma cases_expand s : flat_map cases (expand s) = cases s.
Proof.
  induction s as [s|p s IH|l IH|c s IH|c s e IHs IHe|h s IH|s c IH|c s IH|v s IH|l s IH] using cstmt_rect';
    cbn [SpliceProofs3.expand flat_map cases]; rewrite ?app_nil_r, ?cases_hang; auto.
  - rewrite !flat_map_app, !cases_ins, app_nil_r. exact IH.
  - induction IH as [|y r Hy _ IHr]; cbn; [reflexivity|]. rewrite flat_map_app, Hy, IHr. reflexivity.
  - rewrite IHs, IHe. reflexivity.
  - pose proof (expand_ne bef aft s) as NE. destruct (expand s) as [|y r]; [contradiction|].
    cbn [attach_first flat_map attach cases app]. rewrite <- IH. reflexivity.
  - pose proof (expand_ne bef aft s) as NE. destruct (expand s) as [|y r]; [contradiction|].
    cbn [attach_first flat_map attach cases app]. rewrite <- IH. reflexivity.
Qed.
Lemma labels_expand k s : existsb (has_label k) (expand s) = has_label k s.
Proof.
  induction s as [s|p s IH|l IH|c s IH|c s e IHs IHe|h s IH|s c IH|c s IH|v s IH|l s IH] using cstmt_rect';
    cbn [SpliceProofs3.expand existsb has_label]; rewrite ?orb_false_r, ?labels_hang; auto.
  - rewrite !existsb_app, !labels_ins, orb_false_r. exact IH.
  - induction IH as [|y r Hy _ IHr]; cbn; [reflexivity|]. rewrite existsb_app, Hy, IHr. reflexivity.
  - rewrite IHs, IHe. reflexivity.
  - pose proof (expand_ne bef aft s) as NE. destruct (expand s) as [|y r]; [contradiction|].
    cbn [attach_first existsb attach has_label]. rewrite <- IH. reflexivity.
  - pose proof (expand_ne bef aft s) as NE. destruct (expand s) as [|y r]; [contradiction|].
    cbn [attach_first existsb attach has_label]. rewrite <- IH. cbn [existsb].
    rewrite orb_assoc. reflexivity.
Qed.

Definition inside_l (m : entry) (l : list cstmt) : bool :=
  match m with
  | Start => true
  | AtCase n => n <? length (flat_map cases l)
  | AtLabel k => existsb (has_label k) l
  end.
Definition past_l (m : entry) (l : list cstmt) : entry :=
  match m with AtCase n => AtCase (n - length (flat_map cases l)) | _ => m end.
Lemma inside_expand m s : inside_l m (expand s) = inside m s.
Proof. destruct m; cbn [inside_l inside]; [reflexivity| |]; [rewrite cases_expand|rewrite labels_expand]; reflexivity. Qed.
Lemma past_expand m s : past_l m (expand s) = past m s.
Proof. destruct m; cbn [past_l past]; [reflexivity| |reflexivity]. rewrite cases_expand. reflexivity. Qed.
Lemma inside_hang m s : inside m (hang s (expand s)) = inside m s.
Proof.
  destruct m; cbn [inside]; [reflexivity| |].
  - rewrite cases_hang, cases_expand. reflexivity.
  - rewrite labels_hang, labels_expand. reflexivity.
Qed.
Lemma past_hang m s : past m (hang s (expand s)) = past m s.
Proof. destruct m; cbn [past]; [reflexivity| |reflexivity]. rewrite cases_hang, cases_expand. reflexivity. Qed.

Section Exec.
Variable State : Type.
Variable act : N -> State -> comp State jump.
Variable test : N -> State -> comp State bool.
Variable init step : N -> State -> comp State unit.
Variable select : N -> list N -> State -> comp State (option nat).

Notation result := (result State).
Notation logged := (logged State).
Notation next := (next State).
Lemma logged_nil (r : result) : logged [] r = r.
Proof. destruct r as [[? ?] ?]. reflexivity. Qed.
Lemma next_logged a (r : result) k : next (logged a r) k = logged a (next r k).
Proof. destruct r as [[[] ?] ?]; cbn; try reflexivity. destruct (k s) as [[? ?] ?]. cbn. rewrite app_assoc. reflexivity. Qed.
Lemma next_assoc (r : result) k k' : next (next r k) k' = next r (fun s => next (k s) k').
Proof. destruct r as [[[] s] l]; try reflexivity. cbn [SpliceSpec.next]. apply next_logged. Qed.
Lemma next_ext (r : result) k k' : (forall s, k s = k' s) -> next r k = next r k'.
Proof. intros H. destruct r as [[[] s] l]; cbn; rewrite ?H; reflexivity. Qed.
Lemma next_ret (r : result) : next r (fun s => (Next, s, [])) = r.
Proof. destruct r as [[[] s] l]; cbn; rewrite ?app_nil_r; reflexivity. Qed.

Section Call.
Variable call : N -> State -> bool * State * log State.
Notation exec := (exec State act test init step select bef aft call).
Notation bind := (bind State call).

Lemma bind_ext {A} (c : comp State A) k k' : (forall a s, k a s = k' a s) -> bind c k = bind c k'.
Proof. intros H. unfold SpliceSpec.bind. destruct (run State call c) as [[[a|] s] l]; rewrite ?H; reflexivity. Qed.
Lemma rounds_ext n c b b' ag : (forall s, b s = b' s) ->
  forall s, rounds State test call n c b ag s = rounds State test call n c b' ag s.
Proof.
  intros H. induction n as [|n IH]; intros s; cbn; [reflexivity|].
  apply bind_ext. intros [] s1; [|reflexivity]. rewrite H. destruct (b' s1) as [[[] s2] l]; try reflexivity;
    rewrite (next_ext _ _ _ IH); reflexivity.
Qed.
Lemma after_round_ext (r : result) k k' : (forall s, k s = k' s) ->
  after_round State r k = after_round State r k'.
Proof. intros H. destruct r as [[[] s] l]; cbn; rewrite ?H; reflexivity. Qed.

Variable n : nat.
Fixpoint seqx (m : entry) (l : list cstmt) (s : State) : result :=
  match l with
  | [] => (Next, s, [])
  | x :: r => if inside m x then next (exec n m x s) (seqx Start r) else seqx (past m x) r s
  end.
Lemma exec_block m l s : exec n m (CBlock l) s = seqx m l s.
Proof.
  cbn [SpliceSpec.exec]. revert m s. induction l as [|x r IH]; intros m s; cbn [seqx]; [reflexivity|].
  destruct (inside m x); [apply next_ext; intros; apply IH|apply IH].
Qed.

Lemma inside_cons m x r : inside_l m (x :: r) = inside m x || inside_l (past m x) r.
Proof.
  destruct m; cbn; [reflexivity| |reflexivity].
  rewrite app_length. destruct (Nat.ltb_spec n0 (length (cases x))); cbn [orb].
  - apply Nat.ltb_lt. lia.
  - destruct (Nat.ltb_spec n0 (length (cases x) + length (flat_map cases r)));
      destruct (Nat.ltb_spec (n0 - length (cases x)) (length (flat_map cases r))); auto; lia.
Qed.
Lemma past_cons m x r : past_l m (x :: r) = past_l (past m x) r.
Proof. destruct m; cbn; try reflexivity. rewrite app_length. f_equal. lia. Qed.

Lemma seqx_in l1 l2 : forall m s, inside_l m l1 = true ->
  seqx m (l1 ++ l2) s = next (seqx m l1 s) (seqx Start l2).
Proof.
  induction l1 as [|x r IH]; intros m s H; cbn [app seqx].
  - destruct m; [|discriminate|discriminate]. cbn. rewrite logged_nil. reflexivity.
  - rewrite inside_cons in H. destruct (inside m x).
    + rewrite next_assoc. apply next_ext. intros s'. apply IH. reflexivity.
    + apply IH. exact H.
Qed.
Lemma seqx_out l1 l2 : forall m s, inside_l m l1 = false -> seqx m (l1 ++ l2) s = seqx (past_l m l1) l2 s.
Proof.
  induction l1 as [|x r IH]; intros m s H; cbn [app seqx].
  - destruct m; cbn; rewrite ?Nat.sub_0_r; reflexivity.
  - rewrite inside_cons in H. apply orb_false_elim in H. destruct H as [H1 H2]. rewrite H1.
    rewrite IH by exact H2. rewrite past_cons. reflexivity.
Qed.
Lemma seqx_one m x s : inside m x = true -> seqx m [x] s = exec n m x s.
Proof. intros H. cbn [seqx]. rewrite H. apply next_ret. Qed.
Lemma seqx_ins l s : seqx Start (ins l) s = (Next, s, note State l s).
Proof. induction l as [|i l IH]; cbn; [reflexivity|]. unfold ins in IH. rewrite IH. reflexivity. Qed.
Lemma ins_out m l : m <> Start -> inside_l m (ins l) = false /\ past_l m (ins l) = m.
Proof.
  intros H. destruct m; [contradiction| |].
  - cbn. rewrite cases_ins. cbn. rewrite Nat.sub_0_r. split; reflexivity.
  - cbn. rewrite labels_ins. split; reflexivity.
Qed.

Theorem expand_exec x : forall m s, inside m x = true -> seqx m (expand x) s = exec n m x s.
Proof.
  assert (Hang : forall x, (forall m s, inside m x = true -> seqx m (expand x) s = exec n m x s) ->
     forall m s, inside m x = true -> exec n m (hang x (expand x)) s = exec n m x s).
  { clear x. intros x IH m s H. rewrite <- IH by exact H.
    pose proof (inside_hang m x) as Ih. rewrite H in Ih.
    destruct x; cbn [hang] in *; try (apply exec_block);
      (destruct (expand _) as [|y [|z r]]; try apply exec_block; symmetry; apply seqx_one; exact Ih). }
  induction x as [st|p x IH|l IH|c x IH|c x e IHx IHe|h x IH|x c IH|c x IH|v x IH|l x IH] using cstmt_rect';
    intros m s H.
  - apply seqx_one. exact H.
  - (* mark *) cbn [SpliceProofs3.expand SpliceSpec.exec]. cbn [inside cases has_label] in H.
    assert (Hx : inside m x = true) by (destruct m; exact H).
    destruct m as [|k|k].
    + rewrite seqx_in by reflexivity. rewrite seqx_ins. cbn [SpliceSpec.next].
      rewrite seqx_in by reflexivity. rewrite IH by reflexivity. rewrite next_logged. f_equal.
      apply next_ext. intros s'. apply seqx_ins.
    + destruct (ins_out (AtCase k) (bef p) ltac:(discriminate)) as [I1 I2].
      rewrite seqx_out by exact I1. rewrite I2.
      rewrite seqx_in by (rewrite inside_expand; exact Hx). rewrite IH by exact Hx.
      apply next_ext. intros s'. apply seqx_ins.
    + destruct (ins_out (AtLabel k) (bef p) ltac:(discriminate)) as [I1 I2].
      rewrite seqx_out by exact I1. rewrite I2.
      rewrite seqx_in by (rewrite inside_expand; exact Hx). rewrite IH by exact Hx.
      apply next_ext. intros s'. apply seqx_ins.
  - (* block *) cbn [SpliceProofs3.expand].
    rewrite seqx_one.
    2:{ rewrite <- inside_expand in H. cbn [SpliceProofs3.expand] in H.
        rewrite inside_cons in H. destruct (inside m (CBlock (flat_map expand l))) eqn:E; [reflexivity|].
        destruct m; discriminate. }
    rewrite !exec_block.
    assert (G : forall m s, seqx m (flat_map expand l) s = seqx m l s); [|apply G].
    clear m s H. induction IH as [|y r Hy _ IHr]; intros m s; cbn [flat_map]; [reflexivity|].
    cbn [seqx]. rewrite <- (inside_expand m y). destruct (inside_l m (expand y)) eqn:E.
    + rewrite seqx_in by exact E. rewrite Hy by (rewrite <- inside_expand; exact E).
      apply next_ext. intros s'. apply IHr.
    + rewrite seqx_out by exact E. rewrite past_expand. apply IHr.
  - (* if *) cbn [SpliceProofs3.expand].
    rewrite seqx_one by (destruct m; cbn [inside cases has_label]; try reflexivity;
       [rewrite cases_hang, cases_expand|rewrite labels_hang, labels_expand]; exact H).
    cbn [SpliceSpec.exec]. destruct m as [|k|k].
    + apply bind_ext. intros [] s'; [|reflexivity]. apply Hang; [exact IH|reflexivity].
    + apply Hang; [exact IH|exact H].
    + apply Hang; [exact IH|exact H].
  - (* if else *) cbn [SpliceProofs3.expand].
    rewrite seqx_one by (destruct m; cbn [inside cases has_label]; try reflexivity;
       [rewrite !cases_hang, !cases_expand|rewrite !labels_hang, !labels_expand]; exact H).
    cbn [SpliceSpec.exec]. rewrite inside_hang, past_hang.
    assert (HE : inside m x = false -> inside (past m x) e = true).
    { intros Hx. destruct m; [discriminate| |].
      - cbn in *. rewrite app_length in H. apply Nat.ltb_lt in H. apply Nat.ltb_ge in Hx. apply Nat.ltb_lt. lia.
      - cbn in *. rewrite Hx in H. exact H. }
    destruct m as [|k|k].
    + apply bind_ext. intros [] s'; apply Hang; try assumption; reflexivity.
    + destruct (inside (AtCase k) x) eqn:E; apply Hang; auto.
    + destruct (inside (AtLabel k) x) eqn:E; apply Hang; auto.
  - (* loop *) cbn [SpliceProofs3.expand].
    rewrite seqx_one by (destruct m; cbn [inside cases has_label]; try reflexivity;
       [rewrite cases_hang, cases_expand|rewrite labels_hang, labels_expand]; exact H).
    cbn [SpliceSpec.exec].
    assert (R : forall s, rounds State test call n h (exec n Start (hang x (expand x))) (stepping State step call h) s =
                          rounds State test call n h (exec n Start x) (stepping State step call h) s).
    { apply rounds_ext. intros s'. apply Hang; [exact IH|reflexivity]. }
    destruct m as [|k|k].
    + apply bind_ext. intros _ s'. apply R.
    + rewrite (Hang x IH) by exact H. apply after_round_ext. intros s'. apply next_ext. exact R.
    + rewrite (Hang x IH) by exact H. apply after_round_ext. intros s'. apply next_ext. exact R.
  - (* do *) cbn [SpliceProofs3.expand].
    rewrite seqx_one by (destruct m; cbn [inside cases has_label]; try reflexivity;
       [rewrite cases_hang, cases_expand|rewrite labels_hang, labels_expand]; exact H).
    cbn [SpliceSpec.exec]. rewrite (Hang x IH) by (destruct m; exact H).
    apply after_round_ext. apply rounds_ext. intros s'. apply Hang; [exact IH|reflexivity].
  - (* switch *) cbn [SpliceProofs3.expand].
    rewrite seqx_one by (destruct m; cbn [inside cases has_label]; try reflexivity;
       [exact H|rewrite labels_hang, labels_expand; exact H]).
    cbn [SpliceSpec.exec]. f_equal. rewrite cases_hang, cases_expand.
    destruct m as [|k|k].
    + apply bind_ext. intros [i|] s'; [|reflexivity]. rewrite inside_hang.
      destruct (inside (AtCase i) x) eqn:E; [|reflexivity]. apply Hang; [exact IH|exact E].
    + cbn in H. destruct k; discriminate.
    + apply Hang; [exact IH|exact H].
  - (* case *) cbn [SpliceProofs3.expand].
    pose proof (inside_expand) as IE.
    pose proof (expand_ne bef aft x) as NE. destruct (expand x) as [|y r] eqn:Ex; [contradiction|].
    cbn [attach_first attach].
    assert (Step : forall m', seqx m' (y :: r) s =
      if inside m' y then next (exec n m' y s) (seqx Start r) else seqx (past m' y) r s) by reflexivity.
    cbn [seqx]. destruct m as [|[|k]|k].
    + cbn [inside SpliceSpec.exec]. rewrite <- IH by reflexivity. rewrite Step. reflexivity.
    + cbn [inside cases length SpliceSpec.exec]. rewrite <- IH by reflexivity. rewrite Step. reflexivity.
    + cbn [inside cases length SpliceSpec.exec] in *. rewrite <- IH by exact H. rewrite Step. reflexivity.
    + cbn [inside has_label SpliceSpec.exec] in *. rewrite <- IH by exact H. rewrite Step. reflexivity.
  - (* label *) cbn [SpliceProofs3.expand].
    pose proof (expand_ne bef aft x) as NE. destruct (expand x) as [|y r] eqn:Ex; [contradiction|].
    cbn [attach_first attach].
    assert (Step : forall m', seqx m' (y :: r) s =
      if inside m' y then next (exec n m' y s) (seqx Start r) else seqx (past m' y) r s) by reflexivity.
    cbn [seqx]. destruct m as [|k|k].
    + cbn [inside SpliceSpec.exec]. rewrite <- IH by reflexivity. rewrite Step. reflexivity.
    + cbn [inside cases length SpliceSpec.exec] in *. rewrite <- IH by exact H. rewrite Step. reflexivity.
    + cbn [inside has_label SpliceSpec.exec] in *. destruct (k =? l)%N eqn:E; cbn [orb] in *.
      * rewrite <- IH by reflexivity. rewrite Step. reflexivity.
      * rewrite <- IH by exact H. rewrite Step. reflexivity.
Qed.

Lemma hang_exec x m s : inside m x = true -> exec n m (hang x (expand x)) s = exec n m x s.
Proof.
  intros H. rewrite <- (expand_exec x m s H).
  pose proof (inside_hang m x) as Ih. rewrite H in Ih.
  destruct x; cbn [hang] in *; try (apply exec_block);
    (destruct (expand _) as [|y [|z r]]; try apply exec_block; symmetry; apply seqx_one; exact Ih).
Qed.
Lemma hang_body x s :
  body_run State act test init step select bef aft call n (hang x (expand x)) s =
  body_run State act test init step select bef aft call n x s.
Proof.
  unfold body_run. rewrite hang_exec by reflexivity.
  assert (G : forall j r, gotos State act test init step select bef aft call j n (hang x (expand x)) r =
                          gotos State act test init step select bef aft call j n x r).
  { induction j as [|j IH]; intros [[[] s1] lg]; try reflexivity.
    cbn [gotos]. rewrite labels_hang, labels_expand. destruct (has_label l x) eqn:E; [|reflexivity].
    rewrite (hang_exec x (AtLabel l) s1) by exact E. rewrite IH. reflexivity. }
  rewrite G. reflexivity.
Qed.
End Call.

(** The effect of calls matters only through their results. *)
Section CallExt.
Variable call1 call2 : N -> State -> bool * State * log State.
Hypothesis same : forall f s, call1 f s = call2 f s.
Lemma run_ext {A} (c : comp State A) : run State call1 c = run State call2 c.
Proof.
  induction c as [a s|f s k IH]; cbn; [reflexivity|]. rewrite same.
  destruct (call2 f s) as [[b s1] l1]. rewrite IH. reflexivity.
Qed.
Lemma bind_call {A} (c : comp State A) k k' : (forall a s, k a s = k' a s) ->
  bind State call1 c k = bind State call2 c k'.
Proof.
  intros H. unfold bind. rewrite run_ext. destruct (run State call2 c) as [[[a|] s] l]; rewrite ?H; reflexivity.
Qed.
Lemma rounds_call n c b b' ag ag' : (forall s, b s = b' s) -> (forall s, ag s = ag' s) ->
  forall s, rounds State test call1 n c b ag s = rounds State test call2 n c b' ag' s.
Proof.
  intros H Ha. induction n as [|n IH]; intros s; cbn; [reflexivity|].
  apply bind_call. intros [] s1; [|reflexivity]. rewrite H. destruct (b' s1) as [[[] s2] l]; try reflexivity;
    rewrite Ha, (next_ext _ _ _ IH); reflexivity.
Qed.
Lemma stepping_call h s : stepping State step call1 h s = stepping State step call2 h s.
Proof. apply bind_call. reflexivity. Qed.
Lemma exec_call n x : forall m s,
  exec State act test init step select bef aft call1 n m x s =
  exec State act test init step select bef aft call2 n m x s.
Proof.
  induction x as [st|p x IH|l IH|c x IH|c x e IHx IHe|h x IH|x c IH|c x IH|v x IH|l x IH] using cstmt_rect';
    intros m s.
  - destruct st; try reflexivity. cbn. apply bind_call. reflexivity.
  - cbn. destruct m; rewrite IH; reflexivity.
  - rewrite !exec_block. revert m s. induction IH as [|y r Hy _ IHr]; intros m s; cbn [seqx]; [reflexivity|].
    rewrite Hy, IHr. destruct (inside m y); [apply next_ext; intros; apply IHr|reflexivity].
  - cbn. destruct m; try apply IH. apply bind_call. intros [] s'; [apply IH|reflexivity].
  - cbn. destruct m; rewrite ?IHx, ?IHe; try reflexivity. apply bind_call. intros [] s'; [apply IHx|apply IHe].
  - cbn [exec]. assert (R : forall s,
       rounds State test call1 n h (exec State act test init step select bef aft call1 n Start x) (stepping State step call1 h) s =
       rounds State test call2 n h (exec State act test init step select bef aft call2 n Start x) (stepping State step call2 h) s).
    { apply rounds_call; [apply IH|apply stepping_call]. }
    destruct m.
    + apply bind_call. intros _ s'. apply R.
    + rewrite IH. apply after_round_ext. intros s'. rewrite stepping_call. apply next_ext, R.
    + rewrite IH. apply after_round_ext. intros s'. rewrite stepping_call. apply next_ext, R.
  - cbn [exec]. rewrite IH. apply after_round_ext. apply rounds_call; [apply IH|reflexivity].
  - cbn [exec]. f_equal. destruct m; try apply IH. apply bind_call. intros [i|] s'; [|reflexivity].
    destruct (inside (AtCase i) x); [apply IH|reflexivity].
  - cbn [exec]. destruct m as [|[|k]|k]; apply IH.
  - cbn [exec]. destruct m; apply IH.
Qed.
Lemma body_call n x s :
  body_run State act test init step select bef aft call1 n x s =
  body_run State act test init step select bef aft call2 n x s.
Proof.
  unfold body_run. rewrite exec_call.
  assert (G : forall j r, gotos State act test init step select bef aft call1 j n x r =
                          gotos State act test init step select bef aft call2 j n x r).
  { induction j as [|j IH]; intros [[[] s1] lg]; try reflexivity.
    cbn [gotos]. destruct (has_label l x); [|reflexivity]. rewrite exec_call, IH. reflexivity. }
  rewrite G. reflexivity.
Qed.
End CallExt.

Theorem call_expand (P1 P2 : N -> option cstmt) n :
  (forall f, P2 f = match P1 f with Some x => Some (hang x (expand x)) | None => None end) ->
  forall d f s, call act test init step select bef aft P2 d n f s =
                call act test init step select bef aft P1 d n f s.
Proof.
  intros HP. induction d as [|d IH]; intros f s; cbn [call]; [reflexivity|].
  rewrite HP. destruct (P1 f) as [x|]; [|reflexivity].
  rewrite hang_body. apply body_call. exact IH.
Qed.

(** ** Erasing marks *)
Fixpoint erase (s : cstmt) : cstmt :=
  match s with
  | CStm s => CStm s
  | CMark _ s => erase s
  | CBlock l => CBlock (map erase l)
  | CIf c s => CIf c (erase s)
  | CIfElse c s e => CIfElse c (erase s) (erase e)
  | CLoop h s => CLoop h (erase s)
  | CDo s c => CDo (erase s) c
  | CSwitch c s => CSwitch c (erase s)
  | CCase v s => CCase v (erase s)
  | CLabel l s => CLabel l (erase s)
  end.
Fixpoint plain (s : cstmt) : bool :=
  match s with
  | CStm (SIns _) => false
  | CStm _ => true
  | CMark _ s | CIf _ s | CLoop _ s | CDo s _ | CSwitch _ s | CCase _ s | CLabel _ s => plain s
  | CBlock l => forallb plain l
  | CIfElse _ s e => plain s && plain e
  end.
Lemma cases_erase s : cases (erase s) = cases s.
Proof.
  induction s as [s|p s IH|l IH|c s IH|c s e IHs IHe|h s IH|s c IH|c s IH|v s IH|l s IH] using cstmt_rect';
    cbn; try congruence.
  induction IH as [|y r Hy _ IHr]; cbn; [reflexivity|]. rewrite Hy, IHr. reflexivity.
Qed.
Lemma labels_erase k s : has_label k (erase s) = has_label k s.
Proof.
  induction s as [s|p s IH|l IH|c s IH|c s e IHs IHe|h s IH|s c IH|c s IH|v s IH|l s IH] using cstmt_rect';
    cbn; try congruence.
  induction IH as [|y r Hy _ IHr]; cbn; [reflexivity|]. rewrite Hy, IHr. reflexivity.
Qed.
Lemma inside_erase m s : inside m (erase s) = inside m s.
Proof. destruct m; cbn; [reflexivity| |]; [rewrite cases_erase|rewrite labels_erase]; reflexivity. Qed.
Lemma past_erase m s : past m (erase s) = past m s.
Proof. destruct m; cbn; [reflexivity| |reflexivity]. rewrite cases_erase. reflexivity. Qed.

Definition quiet {A} (r : A * State * log State) : A * State * log State := let '(o, s, _) := r in (o, s, []).
Lemma quiet_logged a (r : result) : quiet (logged a r) = quiet r.
Proof. destruct r as [[? ?] ?]. reflexivity. Qed.
Lemma quiet_next (r : result) k k' : (forall s, k' s = quiet (k s)) -> next (quiet r) k' = quiet (next r k).
Proof.
  intros H. destruct r as [[[] s] l]; try reflexivity. cbn. rewrite H. destruct (k s) as [[? ?] ?]. reflexivity.
Qed.

Section Quiet.
Variable call1 call2 : N -> State -> bool * State * log State.
Hypothesis calls : forall f s, call2 f s = quiet (call1 f s).
Lemma run_quiet {A} (c : comp State A) : run State call2 c = quiet (run State call1 c).
Proof.
  induction c as [a s|f s k IH]; cbn; [reflexivity|]. rewrite calls.
  destruct (call1 f s) as [[b s1] l1]. cbn. rewrite IH. destruct (run State call1 (k s1)) as [[a s2] l2]. cbn.
  destruct b; reflexivity.
Qed.
Lemma bind_quiet {A} (c : comp State A) k k' : (forall a s, k' a s = quiet (k a s)) ->
  bind State call2 c k' = quiet (bind State call1 c k).
Proof.
  intros H. unfold bind. rewrite run_quiet. destruct (run State call1 c) as [[[a|] s] l]; cbn; [|reflexivity].
  rewrite H, logged_nil, quiet_logged. reflexivity.
Qed.
Lemma after_round_quiet (r : result) k k' : (forall s, k' s = quiet (k s)) ->
  after_round State (quiet r) k' = quiet (after_round State r k).
Proof.
  intros H. destruct r as [[[] s] l]; try reflexivity; cbn; rewrite H; destruct (k s) as [[? ?] ?]; reflexivity.
Qed.
Lemma rounds_quiet n c b b' ag ag' : (forall s, b' s = quiet (b s)) -> (forall s, ag' s = quiet (ag s)) ->
  forall s, rounds State test call2 n c b' ag' s = quiet (rounds State test call1 n c b ag s).
Proof.
  intros H Ha. induction n as [|n IH]; intros s; cbn [rounds]; [reflexivity|].
  apply bind_quiet. intros [] s1; [|reflexivity]. rewrite H.
  destruct (b s1) as [[[] s2] l]; try reflexivity; cbn [quiet];
    rewrite Ha, (quiet_next _ _ _ IH), logged_nil, quiet_logged; reflexivity.
Qed.
Lemma stepping_quiet h s : stepping State step call2 h s = quiet (stepping State step call1 h s).
Proof. apply bind_quiet. reflexivity. Qed.
Lemma exec_quiet n x : plain x = true -> forall m s,
  exec State act test init step select bef aft call2 n m (erase x) s =
  quiet (exec State act test init step select bef aft call1 n m x s).
Proof.
  induction x as [st|p x IH|l IH|c x IH|c x e IHx IHe|h x IH|x c IH|c x IH|v x IH|l x IH] using cstmt_rect';
    intros Pl m s; cbn [plain] in Pl.
  - destruct st; [|reflexivity|discriminate]. cbn. apply bind_quiet. reflexivity.
  - cbn [exec erase]. rewrite (IH Pl).
    assert (Q : forall r : result, quiet r = quiet (next r (fun s => (Next, s, note State (aft p) s)))).
    { intros [[[] ?] ?]; reflexivity. }
    rewrite <- Q. destruct m; try reflexivity. symmetry. apply quiet_logged.
  - cbn [erase]. rewrite !exec_block. revert m s.
    induction IH as [|y r Hy _ IHr]; intros m s; cbn [map seqx]; [reflexivity|].
    cbn [forallb] in Pl. apply andb_prop in Pl. destruct Pl as [P1 P2].
    rewrite inside_erase, past_erase, (Hy P1). destruct (inside m y); [|apply IHr, P2].
    apply quiet_next. intros s'. apply IHr, P2.
  - cbn [exec erase]. destruct m; try apply IH, Pl. apply bind_quiet. intros [] s'; [apply IH, Pl|reflexivity].
  - apply andb_prop in Pl. destruct Pl as [P1 P2].
    cbn [exec erase]. rewrite inside_erase, past_erase.
    destruct m.
    + apply bind_quiet. intros [] s'; [apply IHx, P1|apply IHe, P2].
    + destruct (inside (AtCase n0) x); [apply IHx, P1|apply IHe, P2].
    + destruct (inside (AtLabel l) x); [apply IHx, P1|apply IHe, P2].
  - cbn [exec erase]. assert (R : forall s,
       rounds State test call2 n h (exec State act test init step select bef aft call2 n Start (erase x)) (stepping State step call2 h) s =
       quiet (rounds State test call1 n h (exec State act test init step select bef aft call1 n Start x) (stepping State step call1 h) s)).
    { apply rounds_quiet; [intros; apply IH, Pl|apply stepping_quiet]. }
    destruct m.
    + apply bind_quiet. intros _ s'. apply R.
    + rewrite (IH Pl). apply after_round_quiet. intros s'. rewrite stepping_quiet. apply quiet_next, R.
    + rewrite (IH Pl). apply after_round_quiet. intros s'. rewrite stepping_quiet. apply quiet_next, R.
  - cbn [exec erase]. rewrite (IH Pl). apply after_round_quiet. apply rounds_quiet; [intros; apply IH, Pl|reflexivity].
  - cbn [exec erase]. rewrite cases_erase.
    assert (Q : forall r : result, after_switch State (quiet r) = quiet (after_switch State r)).
    { intros [[[] ?] ?]; reflexivity. }
    rewrite <- Q. f_equal. destruct m; try apply IH, Pl.
    apply bind_quiet. intros [i|] s'; [|reflexivity]. rewrite inside_erase.
    destruct (inside (AtCase i) x); [apply IH, Pl|reflexivity].
  - cbn [exec erase]. destruct m as [|[|k]|k]; apply IH, Pl.
  - cbn [exec erase]. destruct m; apply IH, Pl.
Qed.
Lemma body_quiet n x s : plain x = true ->
  body_run State act test init step select bef aft call2 n (erase x) s =
  quiet (body_run State act test init step select bef aft call1 n x s).
Proof.
  intros Pl. unfold body_run. rewrite (exec_quiet n x Pl).
  assert (G : forall j r, gotos State act test init step select bef aft call2 j n (erase x) (quiet r) =
                          quiet (gotos State act test init step select bef aft call1 j n x r)).
  { induction j as [|j IH]; intros [[[] s1] lg]; try reflexivity.
    cbn [gotos quiet]. rewrite labels_erase. destruct (has_label l x); [|reflexivity].
    rewrite (exec_quiet n x Pl), IH, logged_nil. rewrite quiet_logged. reflexivity. }
  rewrite G. destruct (gotos State act test init step select bef aft call1 n n x _) as [[[] ?] ?]; reflexivity.
Qed.
End Quiet.

Theorem call_quiet (P1 P2 : N -> option cstmt) n :
  (forall f, P2 f = match P1 f with Some x => Some (erase x) | None => None end) ->
  (forall f x, P1 f = Some x -> plain x = true) ->
  forall d f s, call act test init step select bef aft P2 d n f s =
                quiet (call act test init step select bef aft P1 d n f s).
Proof.
  intros HP Pl. induction d as [|d IH]; intros f s; cbn [call]; [reflexivity|].
  rewrite HP. destruct (P1 f) as [x|] eqn:E; [|reflexivity].
  apply body_quiet; [exact IH|]. exact (Pl _ _ E).
Qed.
End Exec.
End Entries.
