(** Proofs about Splice.v, part 3: the statement an instrumented AST stands for is
    the marked one with each mark replaced by the inserted calls. *)
From Coq Require Import List Bool Arith NArith Lia.
From Verif Require Import Base Types Instr Splice SpliceSpec SpliceProofs1 SpliceProofs2.
Import ListNotations.
Open Scope nat_scope.

Section Expand.
Variable bef aft : path -> list istmt.
Definition ins (l : list istmt) : list cstmt := map (fun i => CStm (SIns i)) l.
Definition attach_first (x : lab) (l : list cstmt) : list cstmt :=
  match l with s :: r => attach x s :: r | [] => [] end.
Definition hang (s : cstmt) (l : list cstmt) : cstmt :=
  match s with CMark _ _ => CBlock l | _ => match l with [x] => x | _ => CBlock l end end.
Fixpoint expand (s : cstmt) : list cstmt :=
  match s with
  | CStm s => [CStm s]
  | CMark p s => ins (bef p) ++ expand s ++ ins (aft p)
  | CBlock l => [CBlock (flat_map expand l)]
  | CIf c s => [CIf c (hang s (expand s))]
  | CIfElse c s e => [CIfElse c (hang s (expand s)) (hang e (expand e))]
  | CLoop h s => [CLoop h (hang s (expand s))]
  | CDo s c => [CDo (hang s (expand s)) c]
  | CSwitch c s => [CSwitch c (hang s (expand s))]
  | CCase v s => attach_first (LCase v) (expand s)
  | CLabel l s => attach_first (LLabel l) (expand s)
  end.

Lemma expand_ne s : expand s <> [].
Proof.
  induction s as [s|p s IH|l IH|c s IH|c s e IHs IHe|h s IH|s c IH|c s IH|v s IH|l s IH] using cstmt_rect';
    cbn; try discriminate.
  - intros E. apply app_eq_nil in E. destruct E as [_ E]. apply app_eq_nil in E. destruct E as [E _]. exact (IH E).
  - destruct (expand s); [contradiction|discriminate].
  - destruct (expand s); [contradiction|discriminate].
Qed.
Lemma expand_one s : ends_in_mark s = false -> exists y, expand s = [y].
Proof.
  induction s as [s|p s IH|l IH|c s IH|c s e IHs IHe|h s IH|s c IH|c s IH|v s IH|l s IH] using cstmt_rect';
    cbn; intros E; try discriminate; try (eexists; reflexivity).
  - destruct (IH E) as [y ->]. eexists; reflexivity.
  - destruct (IH E) as [y ->]. eexists; reflexivity.
Qed.
Lemma closed_expand s : closed s = true -> forall y, expand s = [y] -> closed y = true.
Proof.
  assert (Hang : forall s, (closed s = true -> forall y, expand s = [y] -> closed y = true) ->
    closed s = true -> closed (hang s (expand s)) = true).
  { intros s' IH C. destruct s'; try reflexivity;
      (destruct (expand _) as [|y [|]] eqn:E; [reflexivity| |reflexivity]; exact (IH C y eq_refl)). }
  induction s as [s|p s IH|l IH|c s IH|c s e IHs IHe|h s IH|s c IH|c s IH|v s IH|l s IH] using cstmt_rect';
    cbn; intros C y E; try discriminate; try (injection E as <-; cbn; auto; fail).
  - pose proof (expand_ne s) as NE. destruct (expand s) as [|z [|z2 r]] eqn:Es; [contradiction| |].
    + destruct (ins (bef p)) as [|? [|]]; cbn in E; try discriminate.
      injection E as -> _. apply IH; [exact C|reflexivity].
    + destruct (ins (bef p)) as [|? [|]]; cbn in E; discriminate.
  - destruct (expand s) as [|z [|]]; try discriminate. injection E as <-. cbn. apply IH; [exact C|reflexivity].
  - destruct (expand s) as [|z [|]]; try discriminate. injection E as <-. cbn. apply IH; [exact C|reflexivity].
Qed.
Lemma closed_hang s : closed s = true -> closed (hang s (expand s)) = true.
Proof.
  intros C. destruct s; try reflexivity;
    (destruct (expand _) as [|y [|]] eqn:E; [reflexivity| |reflexivity]; exact (closed_expand _ C y E)).
Qed.

(** Expansion of pieces. *)
Definition exp_piece (p : piece) : list piece :=
  match p with PL x => [PL x] | PS s => map PS (expand s) end.
Definition expP (l : list piece) : list piece := flat_map exp_piece l.
Definition tidyP (p : piece) : bool := match p with PL _ => true | PS s => tidy s end.

Lemma assemble_PS ss l : assemble (map PS ss ++ l) =
  match assemble l with Some m => Some (ss ++ m) | None => None end.
Proof.
  induction ss as [|s ss IH]; cbn; [destruct (assemble l); reflexivity|].
  rewrite IH. destruct (assemble l); reflexivity.
Qed.
Lemma assemble_app_PS r l : forall m, assemble l = Some m -> assemble (l ++ map PS r) = Some (m ++ r).
Proof.
  induction l as [|[z|z] l IH]; cbn [assemble app]; intros m E.
  - injection E as <-. pose proof (assemble_PS r []) as H. rewrite app_nil_r in H.
    cbn in H. rewrite app_nil_r in H. exact H.
  - destruct (assemble l) as [[|? m']|]; try discriminate. injection E as <-.
    rewrite (IH _ eq_refl). reflexivity.
  - destruct (assemble l) as [m'|]; [|discriminate]. injection E as <-.
    rewrite (IH _ eq_refl). reflexivity.
Qed.
Lemma assemble_exp l : forall m, assemble l = Some m -> assemble (expP l) = Some (flat_map expand m).
Proof.
  unfold expP. induction l as [|[x|s] l IH]; cbn [assemble flat_map exp_piece app]; intros m E.
  - injection E as <-. reflexivity.
  - destruct (assemble l) as [[|s m']|]; try discriminate. injection E as <-.
    rewrite (IH _ eq_refl). cbn [flat_map]. pose proof (expand_ne s) as NE.
    destruct x; cbn [attach expand]; destruct (expand s); try contradiction; reflexivity.
  - destruct (assemble l) as [m'|]; [|discriminate]. injection E as <-.
    rewrite assemble_PS, (IH _ eq_refl). reflexivity.
Qed.
Lemma one_exp l s : one l = Some s -> assemble (expP l) = Some (expand s).
Proof. intros E. rewrite (assemble_exp _ _ (one_inv _ _ E)). cbn. rewrite app_nil_r. reflexivity. Qed.
Lemma tidy_attach x s : tidy (attach x s) = tidy s.
Proof. destruct x; reflexivity. Qed.
Lemma assemble_tidy l : forall m, assemble l = Some m -> forallb tidyP l = forallb tidy m.
Proof.
  induction l as [|[x|s] l IH]; cbn [assemble forallb tidyP]; intros m E.
  - injection E as <-. reflexivity.
  - destruct (assemble l) as [[|s m']|]; try discriminate. injection E as <-.
    rewrite (IH _ eq_refl). cbn [forallb]. rewrite tidy_attach. reflexivity.
  - destruct (assemble l) as [m'|]; [|discriminate]. injection E as <-.
    rewrite (IH _ eq_refl). reflexivity.
Qed.
Lemma one_tidy l s : one l = Some s -> tidy s = true -> forallb tidyP l = true.
Proof. intros E T. rewrite (assemble_tidy _ _ (one_inv _ _ E)). cbn. rewrite T. reflexivity. Qed.
Lemma expP_app a b : expP (a ++ b) = expP a ++ expP b.
Proof. apply flat_map_app. Qed.

Section Tree.
Variable struct_like else_like : ast -> bool.
Variable keep : path -> ast -> bool.
Variable mac : N -> bool.
Variable S : path -> bool.
Notation rec := (rec struct_like (dress else_like keep bef aft)).
Notation rec_list := (rec_list struct_like (dress else_like keep bef aft)).
Notation selb := (selb else_like keep).
Notation desc := (desc struct_like).
Notation desc_list := (desc_list struct_like).
Notation child_ctx := (child_ctx struct_like).
Notation mark := (mark S).
Notation frags l := (map (fun i => fragment (Ins i)) l).

Section MarkList.
Variable p : path.
Fixpoint mark_list (i : nat) (l : list ast) : list ast :=
  match l with [] => [] | x :: r => mark (p ++ [i]) x :: mark_list (Datatypes.S i) r end.
End MarkList.
(** The AST with only its parts marked, instrumented. *)
Definition mark_in (p : path) (t : ast) : ast :=
  let 'Node k c a b ks af := t in Node k c a b (mark_list p 0 ks) af.
Definition rec_in (p : path) (x : ctx) (t : ast) : ast :=
  let 'Node k c a b ks af := t in Node k c a b (rec_list p x t 0 None ks) af.
Lemma mark_eq p t : mark p t = if S p then Node KMark (Mark p) false [] [mark_in p t] [] else mark_in p t.
Proof. destruct t. reflexivity. Qed.
Lemma rec_dress p x t : rec p x t = dress else_like keep bef aft p (mkPl [] x t) (rec_in p x t).
Proof. destruct t. reflexivity. Qed.

(** [S] is the set of selected positions. *)
Definition agree (p : path) (x : ctx) (t : ast) : Prop :=
  forall q, In q (desc x t) -> S (p ++ pl_path q) = selb p q.
Lemma agree_here p x t : agree p x t -> S p = selb p (mkPl [] x t).
Proof.
  intros A. specialize (A (mkPl [] x t)). cbn [pl_path] in A. rewrite app_nil_r in A. apply A.
  rewrite desc_eq. apply in_app_iff. right. left. reflexivity.
Qed.
Definition agree_list (p : path) (x : ctx) (t : ast) (i : nat) (prev : option ast) (l : list ast) : Prop :=
  forall q, In q (desc_list x t i prev l) -> S (p ++ pl_path q) = selb p q.
Lemma agree_kids p x t : agree p x t -> agree_list p x t 0 None (n_kids t).
Proof. intros A q Hq. apply A. rewrite desc_eq. apply in_app_iff. left. exact Hq. Qed.
Lemma agree_cons p x t i prev y r : agree_list p x t i prev (y :: r) ->
  agree (p ++ [i]) (child_ctx x t i prev (hd_error r)) y /\ agree_list p x t (Datatypes.S i) (Some y) r.
Proof.
  intros A. split; intros q Hq.
  - specialize (A (down i q)). cbn [down pl_path] in A. rewrite <- app_assoc. cbn [app].
    rewrite A.
    + unfold selb. cbn [pl_ctx pl_ast pl_path]. rewrite <- app_assoc. reflexivity.
    + cbn. apply in_app_iff. right. apply in_map. exact Hq.
  - apply A. cbn. apply in_app_iff. left. exact Hq.
Qed.

(** Expressions give no pieces. *)
Lemma expr_pieces t : is_expr t = true -> original t = true -> pieces mac t = Some [].
Proof.
  induction t as [k c a b ks af Hb _ Ha] using ast_rect'. intros E O.
  destruct k; try discriminate. cbn [original] in O. repeat (apply andb_prop in O; destruct O as [O ?]).
  assert (L : forall l, Forall (fun t => is_expr t = true -> original t = true -> pieces mac t = Some []) l ->
     forallb (fun x => is_expr x && original x) l = true -> oflat (pieces mac) l = Some []).
  { intros l F. induction F as [|y r Hy _ IH]; cbn [oflat forallb]; [reflexivity|].
    intros G. apply andb_prop in G. destruct G as [G1 G2]. apply andb_prop in G1. destruct G1 as [G0 G1].
    rewrite (Hy G0 G1), (IH G2). reflexivity. }
  cbn [pieces]. rewrite (L _ Hb) by assumption. rewrite (L _ Ha) by assumption. reflexivity.
Qed.
Lemma exprs_pieces l : forallb (fun x => is_expr x && original x) l = true -> oflat (pieces mac) l = Some [].
Proof.
  induction l as [|y r IH]; cbn [oflat forallb]; [reflexivity|].
  intros G. apply andb_prop in G. destruct G as [G1 G2]. apply andb_prop in G1. destruct G1 as [G0 G1].
  rewrite (expr_pieces _ G0 G1), (IH G2). reflexivity.
Qed.
Lemma oflat_app {A B} (f : A -> option (list B)) l1 l2 :
  oflat f (l1 ++ l2) = obind (oflat f l1) (fun a => obind (oflat f l2) (fun b => Some (a ++ b))).
Proof.
  induction l1 as [|x l1 IH]; cbn [oflat app obind].
  - destruct (oflat f l2); reflexivity.
  - destruct (f x); cbn [obind]; [|reflexivity]. rewrite IH.
    destruct (oflat f l1); cbn [obind]; [|reflexivity].
    destruct (oflat f l2); cbn [obind]; [|reflexivity]. rewrite app_assoc. reflexivity.
Qed.
Lemma frags_pieces l : oflat (pieces mac) (frags l) = Some (map PS (ins l)).
Proof.
  induction l as [|i l IH]; cbn [map oflat]; [reflexivity|].
  rewrite IH. reflexivity.
Qed.

(** The parts of [pieces]: the middle part depends on class, text and children only. *)
Definition core (k : cls) (c : content) (ks : list ast) : option (list piece) :=
  pieces mac (Node k c false [] ks []).
Lemma pieces_core k c a b ks af :
  oflat (pieces mac) b = Some [] -> oflat (pieces mac) af = Some [] ->
  pieces mac (Node k c a b ks af) = core k c ks.
Proof. intros Hb Ha. unfold core. cbn [pieces]. rewrite Hb, Ha. reflexivity. Qed.
Lemma wrapped_pieces k c a b ks af l1 l2 :
  oflat (pieces mac) b = Some [] -> oflat (pieces mac) af = Some [] ->
  pieces mac (Node k c a (b ++ frags l1) ks (af ++ frags l2)) =
  obind (core k c ks) (fun l => Some (map PS (ins l1) ++ l ++ map PS (ins l2))).
Proof.
  intros Hb Ha. unfold core. cbn [pieces]. rewrite !oflat_app, Hb, Ha, !frags_pieces.
  cbn [oflat obind app].
  match goal with |- obind ?o _ = _ => destruct o as [l|] end; [|reflexivity]. cbn [obind].
  rewrite app_nil_r. reflexivity.
Qed.

Definition stmt (t : ast) : option cstmt := statement_of mac t.

(** The claim for the parts of an AST. *)
Definition main (t : ast) : Prop :=
  original t = true -> forall p x, agree p x t ->
  forall l, pieces mac (mark_in p t) = Some l -> forallb tidyP l = true ->
  pieces mac (rec_in p x t) = Some (expP l).

Lemma solid_in p t : solid (mark_in p t) = solid t.
Proof. destruct t; reflexivity. Qed.
Lemma solid_rec_in p x t : solid (rec_in p x t) = solid t.
Proof. destruct t; reflexivity. Qed.

Lemma original_lists k c a b ks af : original (Node k c a b ks af) = true ->
  oflat (pieces mac) b = Some [] /\ oflat (pieces mac) af = Some [] /\ forallb original ks = true /\
  k <> KMark /\ k <> KFragment.
Proof.
  intros O. cbn [original] in O. repeat (apply andb_prop in O; destruct O as [O ?]).
  repeat split; try (apply exprs_pieces; assumption); try assumption.
  - intros ->. discriminate.
  - intros ->. discriminate.
Qed.

(** A statement that is no label has one piece. *)
Definition unlabelled (k : cls) : bool :=
  match k with KCompound | KIf | KLoop | KDo | KSwitch | KSimple | KEmpty => true | _ => false end.
Lemma single_core k c ks l : unlabelled k = true -> core k c ks = Some l ->
  exists y, l = [PS y] /\ ends_in_mark y = false.
Proof.
  intros U E. unfold core in E. cbn [pieces oflat obind app] in E.
  apply obind_inv in E. destruct E as (pc & Ec & E). injection E as <-. rewrite app_nil_r.
  assert (Q : forall (o : option cstmt) f, obind o (fun x => Some [PS (f x)]) = Some pc ->
      (forall x, ends_in_mark (f x) = false) -> exists y, pc = [PS y] /\ ends_in_mark y = false).
  { intros o f H1 H2. apply obind_inv in H1. destruct H1 as (x & _ & H1). injection H1 as <-.
    eexists; split; [reflexivity|apply H2]. }
  destruct k; try discriminate U.
  - apply obind_inv in Ec. destruct Ec as (l & _ & Ec). apply obind_inv in Ec. destruct Ec as (m & _ & Ec).
    injection Ec as <-. eexists; split; reflexivity.
  - destruct ks as [|e [|s [|s2 [|]]]]; try discriminate; (destruct (is_expr e); [|discriminate]).
    + apply (Q _ _ Ec). reflexivity.
    + apply obind_inv in Ec. destruct Ec as (x & _ & Ec). apply obind_inv in Ec. destruct Ec as (y & _ & Ec).
      destruct (closed x); [|discriminate]. injection Ec as <-. eexists; split; reflexivity.
  - destruct ks as [|e [|s [|]]]; try discriminate; (destruct (is_expr e); [|discriminate]).
    apply (Q _ _ Ec). reflexivity.
  - destruct ks as [|s [|e [|]]]; try discriminate; (destruct (is_expr e); [|discriminate]).
    apply (Q _ (fun x => CDo x (ex e)) Ec). reflexivity.
  - destruct ks as [|e [|s [|]]]; try discriminate; (destruct (is_expr e); [|discriminate]).
    apply (Q _ _ Ec). reflexivity.
  - injection Ec as <-. eexists; split; reflexivity.
  - injection Ec as <-. eexists; split; reflexivity.
Qed.

(** A statement that is not marked itself does not become a mark. *)
Lemma not_mark k c ks l s : statement k = true -> core k c ks = Some l -> one l = Some s ->
  match s with CMark _ _ => False | _ => True end.
Proof.
  intros St E O. destruct (unlabelled k) eqn:U.
  - destruct (single_core _ _ _ _ U E) as (y & -> & H). injection O as <-. destruct y; auto; discriminate.
  - destruct k; try discriminate.
    + unfold core in E. cbn [pieces oflat obind app] in E. destruct ks as [|v ss]; [discriminate|].
      destruct (is_expr v); [|discriminate]. apply obind_inv in E. destruct E as (pc & Ec & E).
      injection E as <-. apply obind_inv in Ec. destruct Ec as (l & _ & Ec). injection Ec as <-.
      apply one_inv in O. cbn [app] in O. cbn [assemble] in O.
      destruct (assemble (l ++ [])) as [[|z m]|]; try discriminate. injection O as <- _. exact I.
    + unfold core in E. cbn [pieces oflat obind app] in E. destruct ks as [|v [|]]; try discriminate.
      apply obind_inv in E. destruct E as (pc & Ec & E).
      injection E as <-. apply obind_inv in Ec. destruct Ec as (l & _ & Ec). injection Ec as <-.
      apply one_inv in O. cbn [app] in O. cbn [assemble] in O.
      destruct (assemble (l ++ [])) as [[|z m]|]; try discriminate. injection O as <- _. exact I.
Qed.

Lemma hang_unmarked s : match s with CMark _ _ => False | _ => True end -> hang_ok s = true ->
  expand s = [hang s (expand s)].
Proof.
  intros U H. destruct (ends_in_mark s) eqn:E.
  - destruct s; try contradiction; unfold hang_ok in H; rewrite E in H; discriminate.
  - destruct (expand_one s E) as [y Ey]. rewrite Ey. destruct s; try contradiction; reflexivity.
Qed.

(** Unselected parts keep class and text. *)
Lemma rec_unselected p x t : S p = false -> agree p x t -> rec p x t = rec_in p x t.
Proof. intros E A. rewrite rec_dress. unfold dress. rewrite <- (agree_here _ _ _ A), E. reflexivity. Qed.
Lemma mark_unselected p t : S p = false -> mark p t = mark_in p t.
Proof. intros E. rewrite mark_eq, E. reflexivity. Qed.
Lemma cls_mark_in p t : n_cls (mark_in p t) = n_cls t /\ n_content (mark_in p t) = n_content t.
Proof. destruct t. split; reflexivity. Qed.
Lemma cls_rec_in p x t : n_cls (rec_in p x t) = n_cls t /\ n_content (rec_in p x t) = n_content t.
Proof. destruct t. split; reflexivity. Qed.
Lemma header p x t : agree p x t -> is_expr (mark p t) = true ->
  is_expr (rec p x t) = true /\ ex (rec p x t) = ex (mark p t).
Proof.
  intros A E. destruct (S p) eqn:Sp.
  - rewrite mark_eq, Sp in E. discriminate.
  - rewrite mark_unselected in * by exact Sp. rewrite (rec_unselected _ _ _ Sp A).
    unfold is_expr, ex in *. destruct (cls_mark_in p t) as [C1 C2]. destruct (cls_rec_in p x t) as [D1 D2].
    rewrite D1, D2, C2. rewrite C1 in E. split; [exact E|reflexivity].
Qed.

Definition list_parent (x : ctx) : Prop := x_body x = false.
Definition hang_parent (x : ctx) : Prop :=
  match x_parents x with p :: _ => traceable_parent_type p = false | [] => True end.

(** In a list of statements. *)
Lemma list_level t p x : main t -> original t = true -> agree p x t -> list_parent x ->
  forall l, pieces mac (mark p t) = Some l -> forallb tidyP l = true ->
  pieces mac (rec p x t) = Some (expP l) /\
  is_else (rec p x t) = is_else (mark p t).
Proof.
  intros M O A Lp l E T. pose proof (agree_here _ _ _ A) as Sel. destruct (S p) eqn:Sp.
  - rewrite mark_eq, Sp in *. symmetry in Sel. unfold selb in Sel. cbn [pl_ctx pl_ast pl_path] in Sel.
    apply andb_prop in Sel. destruct Sel as [Can Kp].
    unfold can_be_made_traceable_p in Can. rewrite Lp, andb_false_r in Can. cbn in Can. rewrite orb_false_r in Can.
    rewrite rec_dress. unfold dress, selb. cbn [pl_ctx pl_ast pl_path].
    rewrite Kp. unfold can_be_made_traceable_p. rewrite Can. cbn [orb andb].
    unfold wrap_in_compound_if_needed. rewrite Can. rewrite app_nil_r.
    cbn [pieces oflat obind app] in E. rewrite solid_in in E. apply obind_inv in E. destruct E as (pc & E & E').
    injection E' as <-. rewrite app_nil_r in *. apply obind_inv in E. destruct E as (s & E & E').
    injection E' as <-. destruct (solid t) eqn:So; [|discriminate].
    apply obind_inv in E. destruct E as (lm & Em & Es).
    cbn [forallb tidyP tidy] in T. rewrite andb_true_r in T.
    pose proof (M O p x A lm Em (one_tidy _ _ Es T)) as R.
    destruct t as [k c a b ks af]. cbn [rec_in mark_in wrap_before_after] in *.
    destruct (original_lists _ _ _ _ _ _ O) as (Hb & Ha & _ & NM & _).
    rewrite (wrapped_pieces _ _ _ _ _ _ _ _ Hb Ha).
    rewrite (pieces_core _ _ _ _ _ _ Hb Ha) in R. rewrite (pieces_core _ _ _ _ _ _ Hb Ha) in Em.
    rewrite R. cbn [obind].
    assert (U : unlabelled k = true).
    { unfold traceable_stmt_p in Can. cbn [n_cls] in Can. unfold solid in So. cbn [n_cls] in So.
      destruct k; try reflexivity; try discriminate. }
    destruct (single_core _ _ _ _ U Em) as (y & -> & _). injection Es as <-.
    split.
    + unfold expP. cbn [flat_map exp_piece expand]. rewrite !app_nil_r, !map_app. reflexivity.
    + unfold is_else. cbn. destruct k; try reflexivity; discriminate.
  - rewrite (rec_unselected _ _ _ Sp A). rewrite mark_unselected in * by exact Sp.
    split; [apply M; assumption|]. unfold is_else.
    destruct (cls_mark_in p t) as [-> _]. destruct (cls_rec_in p x t) as [-> _]. reflexivity.
Qed.

(** Under a header. *)
Lemma hang_level t p x : main t -> original t = true -> agree p x t -> hang_parent x ->
  forall s, stmt (mark p t) = Some s -> hang_ok s = true -> tidy s = true ->
  stmt (rec p x t) = Some (hang s (expand s)).
Proof.
  intros M O A Hp s E Ho T. pose proof (agree_here _ _ _ A) as Sel. unfold stmt, statement_of in *.
  destruct (S p) eqn:Sp.
  - rewrite mark_eq, Sp in *. symmetry in Sel. unfold selb in Sel. cbn [pl_ctx pl_ast pl_path] in Sel.
    apply andb_prop in Sel. destruct Sel as [Can Kp].
    cbn [solid n_cls statement cls_eqb orb] in E. apply obind_inv in E. destruct E as (l & E & Eo).
    cbn [pieces oflat obind app] in E. rewrite solid_in in E. apply obind_inv in E. destruct E as (pc & E & E').
    injection E' as <-. rewrite app_nil_r in *. apply obind_inv in E. destruct E as (s' & E & E').
    injection E' as <-. injection Eo as <-. destruct (solid t) eqn:So; [|discriminate].
    apply obind_inv in E. destruct E as (lm & Em & Es). cbn [tidy] in T.
    pose proof (M O p x A lm Em (one_tidy _ _ Es T)) as R.
    assert (NT : traceable_stmt_p else_like x t = false).
    { unfold traceable_stmt_p. unfold hang_parent in Hp. destruct (x_parents x) as [|q ?].
      - rewrite ?andb_false_r. reflexivity.
      - rewrite Hp. rewrite ?andb_false_r. reflexivity. }
    rewrite rec_dress. unfold dress, selb. cbn [pl_ctx pl_ast pl_path]. rewrite !app_nil_r, Kp, Can. cbn [andb].
    unfold wrap_in_compound_if_needed. rewrite NT.
    cbn [solid n_cls statement orb].
    destruct t as [k c a b ks af]. cbn [rec_in mark_in wrap_before_after] in *.
    destruct (original_lists _ _ _ _ _ _ O) as (Hb & Ha & _ & NM & _).
    pose proof (wrapped_pieces k c a b (rec_list p x (Node k c a b ks af) 0 None ks) af (bef p) (aft p) Hb Ha) as W.
    rewrite (pieces_core _ _ _ _ _ _ Hb Ha) in R. rewrite R in W. cbn [obind] in W.
    remember (Node k c a (b ++ frags (bef p)) (rec_list p x (Node k c a b ks af) 0 None ks) (af ++ frags (aft p))) as tt.
    cbn [pieces oflat obind]. rewrite W. cbn [obind]. rewrite app_nil_r.
    rewrite assemble_PS.
    assert (AE : assemble (expP lm ++ map PS (ins (aft p))) = Some (expand s' ++ ins (aft p))).
    { apply assemble_app_PS. apply one_exp. exact Es. }
    rewrite AE. cbn [obind app]. cbn [one assemble].
    unfold hang. cbn [expand]. reflexivity.
  - rewrite (rec_unselected _ _ _ Sp A). rewrite mark_unselected in * by exact Sp.
    rewrite solid_in in E. rewrite solid_rec_in. destruct (solid t) eqn:So; [|discriminate].
    apply obind_inv in E. destruct E as (l & El & Eo).
    rewrite (M O p x A l El (one_tidy _ _ Eo T)). cbn [obind]. unfold one. rewrite (one_exp _ _ Eo).
    destruct t as [k c a b ks af]. cbn [mark_in] in El.
    destruct (original_lists _ _ _ _ _ _ O) as (Hb & Ha & _ & NM & _).
    rewrite (pieces_core _ _ _ _ _ _ Hb Ha) in El.
    assert (St : statement k = true).
    { unfold solid in So. cbn [n_cls] in So. destruct k; try reflexivity; try discriminate. contradiction. }
    rewrite (hang_unmarked s (not_mark _ _ _ _ _ St El Eo) Ho). 
    rewrite <- (hang_unmarked s (not_mark _ _ _ _ _ St El Eo) Ho). reflexivity.
Qed.

Lemma else_same t p x : agree p x t -> list_parent x -> is_else (rec p x t) = is_else (mark p t).
Proof.
  intros A Lp. pose proof (agree_here _ _ _ A) as Sel. destruct (S p) eqn:Sp.
  - rewrite mark_eq, Sp in *. symmetry in Sel. unfold selb in Sel. cbn [pl_ctx pl_ast pl_path] in Sel.
    apply andb_prop in Sel. destruct Sel as [Can Kp].
    unfold can_be_made_traceable_p in Can. rewrite Lp, andb_false_r in Can. cbn in Can. rewrite orb_false_r in Can.
    rewrite rec_dress. unfold dress, selb. cbn [pl_ctx pl_ast pl_path].
    rewrite Kp. unfold can_be_made_traceable_p. rewrite Can. cbn [orb andb].
    unfold wrap_in_compound_if_needed. rewrite Can.
    destruct t as [k c a b ks af]. unfold is_else. cbn. unfold traceable_stmt_p in Can. cbn [n_cls] in Can.
    destruct k; try reflexivity; discriminate.
  - rewrite (rec_unselected _ _ _ Sp A). rewrite mark_unselected in * by exact Sp. unfold is_else.
    destruct (cls_mark_in p t) as [-> _]. destruct (cls_rec_in p x t) as [-> _]. reflexivity.
Qed.

Lemma kids_list (f : bool -> bool) p x t0 : (forall i, body_role (n_cls t0) i = false) ->
  forall l, Forall main l -> forallb original l = true -> forall i prev, agree_list p x t0 i prev l ->
  forall L, oflat (fun y => if f (is_else y) then Some [] else pieces mac y) (mark_list p i l) = Some L ->
  forallb tidyP L = true ->
  oflat (fun y => if f (is_else y) then Some [] else pieces mac y) (rec_list p x t0 i prev l) = Some (expP L).
Proof.
  intros Br l H. induction H as [|y r Hy _ IH]; cbn [mark_list SpliceProofs1.rec_list oflat forallb];
    intros O i prev A L E T.
  - injection E as <-. reflexivity.
  - apply andb_prop in O. destruct O as [Oy Or].
    destruct (agree_cons _ _ _ _ _ _ _ A) as [Ay Ar].
    apply obind_inv in E. destruct E as (l1 & E1 & E). apply obind_inv in E. destruct E as (l2 & E2 & E).
    injection E as <-. rewrite forallb_app in T. apply andb_prop in T. destruct T as [T1 T2].
    rewrite (IH Or _ _ Ar _ E2 T2).
    assert (Lp : list_parent (child_ctx x t0 i prev (hd_error r))) by apply Br.
    rewrite (else_same _ _ _ Ay Lp).
    destruct (f (is_else (mark (p ++ [i]) y))).
    + injection E1 as <-. reflexivity.
    + destruct (list_level _ _ _ Hy Oy Ay Lp _ E1 T1) as [-> _]. cbn [obind].
      rewrite expP_app. reflexivity.
Qed.
Lemma kids_all p x t0 : (forall i, body_role (n_cls t0) i = false) ->
  forall l, Forall main l -> forallb original l = true -> forall i prev, agree_list p x t0 i prev l ->
  forall L, oflat (pieces mac) (mark_list p i l) = Some L -> forallb tidyP L = true ->
  oflat (pieces mac) (rec_list p x t0 i prev l) = Some (expP L).
Proof. exact (kids_list (fun _ => false) p x t0). Qed.

Lemma main_all t : main t.
Proof.
  induction t as [k c a b ks af _ Hks _] using ast_rect'. intros O p x A l E T.
  destruct (original_lists _ _ _ _ _ _ O) as (Hb & Ha & Oks & NM & NF).
  cbn [mark_in rec_in] in *. rewrite (pieces_core _ _ _ _ _ _ Hb Ha) in E. rewrite (pieces_core _ _ _ _ _ _ Hb Ha).
  pose proof (agree_kids _ _ _ A) as Ak. cbn [n_kids] in Ak.
  remember (Node k c a b ks af) as t0 eqn:Et0.
  assert (Ck : n_cls t0 = k) by (subst; reflexivity). clear Et0 O A Hb Ha.
  unfold core in *. cbn [pieces oflat obind app] in *.
  apply obind_inv in E. destruct E as (pc & Ec & E). injection E as <-. rewrite app_nil_r in *.
  assert (Fin : forall o : option (list piece), o = Some (expP pc) ->
     obind o (fun pc0 => Some (pc0 ++ [])) = Some (expP pc)).
  { intros o ->. cbn. rewrite app_nil_r. reflexivity. }
  apply Fin. clear Fin.
  assert (HL : forall y i prev r, Forall main (y :: r) -> forallb original (y :: r) = true ->
     agree_list p x t0 i prev (y :: r) -> traceable_parent_type k = false ->
     forall s, stmt (mark (p ++ [i]) y) = Some s -> hang_ok s = true -> tidy s = true ->
     stmt (rec (p ++ [i]) (child_ctx x t0 i prev (hd_error r)) y) = Some (hang s (expand s))).
  { intros y i prev r F Or Ag Tp s Es Ho Ti.
    inversion F as [|? ? Fy _]; subst. cbn [forallb] in Or. apply andb_prop in Or. destruct Or as [Oy _].
    destruct (agree_cons _ _ _ _ _ _ _ Ag) as [Ay _].
    apply hang_level; try assumption. }
  unfold stmt, statement_of in HL.
  destruct k; try discriminate Ec; try contradiction.
  - (* compound *)
    apply obind_inv in Ec. destruct Ec as (l & E1 & Ec). apply obind_inv in Ec. destruct Ec as (m & E2 & Ec).
    injection Ec as <-. cbn [forallb tidyP tidy] in T. rewrite andb_true_r in T.
    rewrite (kids_all _ _ _ ltac:(rewrite Ck; reflexivity) _ Hks Oks _ _ Ak _ E1).
    + cbn [obind]. rewrite (assemble_exp _ _ E2). reflexivity.
    + rewrite (assemble_tidy _ _ E2). exact T.
  - (* if *)
    destruct ks as [|e [|s [|s2 [|]]]]; try discriminate Ec; cbn [mark_list SpliceProofs1.rec_list] in *.
    + destruct (is_expr (mark (p ++ [0]) e)) eqn:Ee; [|discriminate].
      destruct (agree_cons _ _ _ _ _ _ _ Ak) as [Ae As].
      destruct (header _ _ _ Ae Ee) as [-> ->].
      apply obind_inv in Ec. destruct Ec as (y & E1 & Ec). injection Ec as <-.
      cbn [forallb tidyP tidy] in T. rewrite andb_true_r in T. apply andb_prop in T. destruct T as [T1 T2].
      inversion Hks as [|? ? _ Hk1]; subst. cbn [forallb] in Oks. apply andb_prop in Oks. destruct Oks as [_ Ok1].
      rewrite (HL _ _ _ _ Hk1 Ok1 As eq_refl _ E1 T1 T2). reflexivity.
    + destruct (is_expr (mark (p ++ [0]) e)) eqn:Ee; [|discriminate].
      destruct (agree_cons _ _ _ _ _ _ _ Ak) as [Ae As].
      destruct (header _ _ _ Ae Ee) as [-> ->].
      apply obind_inv in Ec. destruct Ec as (y & E1 & Ec). apply obind_inv in Ec. destruct Ec as (z & E2 & Ec).
      destruct (closed y) eqn:Cy; [|discriminate]. injection Ec as <-.
      cbn [forallb tidyP tidy] in T. rewrite andb_true_r in T.
      repeat (apply andb_prop in T; destruct T as [T ?]).
      inversion Hks as [|? ? _ Hk1]; subst. cbn [forallb] in Oks. apply andb_prop in Oks. destruct Oks as [_ Ok1].
      destruct (agree_cons _ _ _ _ _ _ _ As) as [_ As2].
      inversion Hk1 as [|? ? _ Hk2]; subst. pose proof Ok1 as Ok2. cbn [forallb] in Ok2.
      apply andb_prop in Ok2. destruct Ok2 as [_ Ok2].
      rewrite (HL _ _ _ _ Hk1 Ok1 As eq_refl _ E1) by assumption.
      rewrite (HL _ _ _ _ Hk2 Ok2 As2 eq_refl _ E2) by assumption. cbn [obind].
      rewrite (closed_hang _ Cy). reflexivity.
  - (* loop *)
    destruct ks as [|e [|s [|]]]; try discriminate Ec; cbn [mark_list SpliceProofs1.rec_list] in *.
    destruct (is_expr (mark (p ++ [0]) e)) eqn:Ee; [|discriminate].
    destruct (agree_cons _ _ _ _ _ _ _ Ak) as [Ae As].
    destruct (header _ _ _ Ae Ee) as [-> ->].
    apply obind_inv in Ec. destruct Ec as (y & E1 & Ec). injection Ec as <-.
    cbn [forallb tidyP tidy] in T. rewrite andb_true_r in T. apply andb_prop in T. destruct T as [T1 T2].
    inversion Hks as [|? ? _ Hk1]; subst. cbn [forallb] in Oks. apply andb_prop in Oks. destruct Oks as [_ Ok1].
    rewrite (HL _ _ _ _ Hk1 Ok1 As eq_refl _ E1 T1 T2). reflexivity.
  - (* do *)
    destruct ks as [|s [|e [|]]]; try discriminate Ec; cbn [mark_list SpliceProofs1.rec_list] in *.
    destruct (is_expr (mark (p ++ [1]) e)) eqn:Ee; [|discriminate].
    destruct (agree_cons _ _ _ _ _ _ _ Ak) as [_ Ae]. destruct (agree_cons _ _ _ _ _ _ _ Ae) as [Ae' _].
    destruct (header _ _ _ Ae' Ee) as [-> ->].
    apply obind_inv in Ec. destruct Ec as (y & E1 & Ec). injection Ec as <-.
    cbn [forallb tidyP tidy] in T. rewrite andb_true_r in T. apply andb_prop in T. destruct T as [T1 T2].
    rewrite (HL _ _ _ _ Hks Oks Ak eq_refl _ E1 T1 T2). reflexivity.
  - (* switch *)
    destruct ks as [|e [|s [|]]]; try discriminate Ec; cbn [mark_list SpliceProofs1.rec_list] in *.
    destruct (is_expr (mark (p ++ [0]) e)) eqn:Ee; [|discriminate].
    destruct (agree_cons _ _ _ _ _ _ _ Ak) as [Ae As].
    destruct (header _ _ _ Ae Ee) as [-> ->].
    apply obind_inv in Ec. destruct Ec as (y & E1 & Ec). injection Ec as <-.
    cbn [forallb tidyP tidy] in T. rewrite andb_true_r in T. apply andb_prop in T. destruct T as [T1 T2].
    inversion Hks as [|? ? _ Hk1]; subst. cbn [forallb] in Oks. apply andb_prop in Oks. destruct Oks as [_ Ok1].
    rewrite (HL _ _ _ _ Hk1 Ok1 As eq_refl _ E1 T1 T2). reflexivity.
  - (* case *)
    destruct ks as [|v ss]; try discriminate Ec; cbn [mark_list SpliceProofs1.rec_list] in *.
    destruct (is_expr (mark (p ++ [0]) v)) eqn:Ee; [|discriminate].
    destruct (agree_cons _ _ _ _ _ _ _ Ak) as [Ae As].
    destruct (header _ _ _ Ae Ee) as [-> ->].
    apply obind_inv in Ec. destruct Ec as (l & E1 & Ec). injection Ec as <-.
    inversion Hks as [|? ? _ Hk1]; subst. cbn [forallb] in Oks. apply andb_prop in Oks. destruct Oks as [_ Ok1].
    rewrite (kids_all _ _ _ ltac:(rewrite Ck; reflexivity) _ Hk1 Ok1 _ _ As _ E1 T). reflexivity.
  - (* label *)
    destruct ks as [|s [|]]; try discriminate Ec; cbn [mark_list SpliceProofs1.rec_list] in *.
    apply obind_inv in Ec. destruct Ec as (l & E1 & Ec). injection Ec as <-.
    destruct (agree_cons _ _ _ _ _ _ _ Ak) as [As _].
    inversion Hks as [|? ? Hs _]; subst. cbn [forallb] in Oks. apply andb_prop in Oks. destruct Oks as [Os _].
    destruct (list_level _ _ _ Hs Os As ltac:(unfold list_parent; cbn; rewrite Ck; reflexivity) _ E1 T) as [-> _].
    reflexivity.
  - injection Ec as <-. reflexivity.
  - injection Ec as <-. reflexivity.
  - apply (kids_list (fun b => Bool.eqb b (mac (cont c))) p x t0); try assumption. rewrite Ck. reflexivity.
  - apply (kids_list (fun b => Bool.eqb b (mac (cont c))) p x t0); try assumption. rewrite Ck. reflexivity.
  - injection Ec as <-. reflexivity.
Qed.

(** Function bodies. *)
Lemma body_statement t p x s : original t = true -> agree p x t -> hang_parent x ->
  statement_of mac (mark p t) = Some s -> hang_ok s = true -> tidy s = true ->
  statement_of mac (rec p x t) = Some (hang s (expand s)).
Proof. intros. apply hang_level; try assumption. apply main_all. Qed.
End Tree.
End Expand.
