(** Proofs about Splice.v, part 5: marking a well-formed AST only adds marks. *)
From Coq Require Import List Bool Arith NArith Lia.
From Verif Require Import Base Types Instr Splice SpliceSpec SpliceProofs1 SpliceProofs2 SpliceProofs3 SpliceProofs4.
Import ListNotations.
Open Scope nat_scope.

Definition eraseP (p : piece) : piece := match p with PL x => PL x | PS s => PS (erase s) end.
Definition plainP (p : piece) : bool := match p with PL _ => true | PS s => plain s end.
Definition bracedP (p : piece) : bool := match p with PL _ => true | PS s => braced s end.

Lemma assemble_erase l : assemble (map eraseP l) = match assemble l with Some m => Some (map erase m) | None => None end.
Proof.
  induction l as [|[x|s] l IH]; cbn [map assemble eraseP]; [reflexivity| |]; rewrite IH;
    (destruct (assemble l) as [[|y m]|]; cbn; try reflexivity; destruct x; reflexivity) || (destruct (assemble l); reflexivity).
Qed.
Lemma closed_erase s : closed (erase s) = closed s.
Proof.
  induction s as [s|p s IH|l IH|c s IH|c s e IHs IHe|h s IH|s c IH|c s IH|v s IH|l s IH] using cstmt_rect';
    cbn; congruence.
Qed.
Lemma assemble_plain l : forall m, assemble l = Some m -> forallb plainP l = forallb plain m.
Proof.
  induction l as [|[x|s] l IH]; cbn [assemble forallb plainP]; intros m E.
  - injection E as <-. reflexivity.
  - destruct (assemble l) as [[|s m']|]; try discriminate. injection E as <-.
    rewrite (IH _ eq_refl). cbn [forallb]. destruct x; reflexivity.
  - destruct (assemble l) as [m'|]; [|discriminate]. injection E as <-.
    rewrite (IH _ eq_refl). reflexivity.
Qed.
Lemma assemble_braced l : forall m, assemble l = Some m -> forallb bracedP l = forallb braced m.
Proof.
  induction l as [|[x|s] l IH]; cbn [assemble forallb bracedP]; intros m E.
  - injection E as <-. reflexivity.
  - destruct (assemble l) as [[|s m']|]; try discriminate. injection E as <-.
    rewrite (IH _ eq_refl). cbn [forallb]. destruct x; reflexivity.
  - destruct (assemble l) as [m'|]; [|discriminate]. injection E as <-.
    rewrite (IH _ eq_refl). reflexivity.
Qed.
(** What assembles after erasing assembled before. *)
Lemma unerase l m0 : assemble (map eraseP l) = Some m0 -> exists m, assemble l = Some m /\ map erase m = m0.
Proof.
  rewrite assemble_erase. destruct (assemble l) as [m|]; [|discriminate]. intros [= <-]. exists m. split; reflexivity.
Qed.
Lemma unerase_one l s0 : one (map eraseP l) = Some s0 -> exists s, one l = Some s /\ erase s = s0.
Proof.
  intros E. apply one_inv in E. apply unerase in E. destruct E as (m & E & Em).
  destruct m as [|s [|]]; try discriminate. injection Em as <-. exists s. unfold one. rewrite E. split; reflexivity.
Qed.

Section Mark.
Variable struct_like else_like : ast -> bool.
Variable keep : path -> ast -> bool.
Variable mac : N -> bool.
Variable S : path -> bool.
Notation selb := (selb else_like keep).
Notation child_ctx := (child_ctx struct_like).
Notation mark := (mark S).
Notation mark_list := (mark_list S).
Notation mark_in := (mark_in S).
Notation agree := (agree struct_like else_like keep S).
Notation agree_list := (agree_list struct_like else_like keep S).
Notation core := (core mac).

Definition all_kept : Prop := forall p t, keep p t = true.

Definition marks (l0 l : list piece) : Prop :=
  map eraseP l = l0 /\ forallb plainP l = true /\
  (all_kept -> forallb bracedP l0 = true -> forallb tidyP l = true).
Definition main_f (t : ast) : Prop :=
  original t = true -> forall p x, agree p x t -> forall l0, pieces mac t = Some l0 ->
  exists l, pieces mac (mark_in p t) = Some l /\ marks l0 l.

Lemma marks_app l0 l l0' l' : marks l0 l -> marks l0' l' -> marks (l0 ++ l0') (l ++ l').
Proof.
  intros (A1 & A2 & A3) (B1 & B2 & B3). unfold marks. rewrite map_app, !forallb_app, A1, A2, B1, B2.
  split; [reflexivity|]. split; [reflexivity|]. intros K Br. apply andb_prop in Br. destruct Br as [Br1 Br2].
  rewrite (A3 K Br1), (B3 K Br2). reflexivity.
Qed.

Lemma unselected_hang p x t : agree p x t -> hang_parent x -> x_body x = false -> S p = false.
Proof.
  intros A Hp Hb. rewrite (agree_here _ _ _ _ _ _ _ A). unfold selb, can_be_made_traceable_p, traceable_stmt_p.
  cbn [pl_ctx pl_ast]. rewrite Hb. unfold hang_parent in Hp.
  destruct (x_parents x) as [|q r]; [|rewrite Hp]; rewrite ?andb_false_r; reflexivity.
Qed.
Lemma unselected_compound p x t : agree p x t -> n_cls t = KCompound -> S p = false.
Proof.
  intros A C. rewrite (agree_here _ _ _ _ _ _ _ A). unfold selb, can_be_made_traceable_p, traceable_stmt_p.
  cbn [pl_ctx pl_ast]. rewrite C. reflexivity.
Qed.
Lemma unselected_expr p x t : agree p x t -> is_expr t = true -> x_body x = false -> S p = false.
Proof.
  intros A C Hb. unfold is_expr in C. rewrite (agree_here _ _ _ _ _ _ _ A).
  unfold selb, can_be_made_traceable_p, traceable_stmt_p.
  cbn [pl_ctx pl_ast]. rewrite Hb. destruct (n_cls t); try discriminate. reflexivity.
Qed.

(** A selected statement in a list is no label. *)
Lemma selected_list p x t : agree p x t -> list_parent x -> S p = true ->
  unlabelled (n_cls t) = true \/ n_cls t = KPreDef.
Proof.
  intros A Lp Sp. rewrite (agree_here _ _ _ _ _ _ _ A) in Sp. unfold selb in Sp. cbn [pl_ctx pl_ast] in Sp.
  apply andb_prop in Sp. destruct Sp as [Can _]. unfold can_be_made_traceable_p in Can.
  rewrite Lp, andb_false_r in Can. cbn in Can. rewrite orb_false_r in Can.
  unfold traceable_stmt_p in Can. destruct (n_cls t); try discriminate; auto.
Qed.
Lemma solid_unlabelled t : unlabelled (n_cls t) = true -> solid t = true.
Proof. unfold solid. destruct (n_cls t); try discriminate; reflexivity. Qed.

Lemma else_mark t p x : agree p x t -> list_parent x -> is_else (mark p t) = is_else t.
Proof.
  intros A Lp. rewrite mark_eq. destruct (S p) eqn:Sp.
  - unfold is_else. cbn. destruct (selected_list _ _ _ A Lp Sp) as [U|U]; destruct (n_cls t); try discriminate; reflexivity.
  - unfold is_else. destruct (cls_mark_in S p t) as [-> _]. reflexivity.
Qed.

Lemma list_level_f t p x : main_f t -> original t = true -> agree p x t -> list_parent x ->
  forall l0, pieces mac t = Some l0 ->
  exists l, pieces mac (mark p t) = Some l /\ marks l0 l.
Proof.
  intros M O A Lp l0 E. destruct (M O p x A l0 E) as (l & El & Hm). rewrite mark_eq. destruct (S p) eqn:Sp.
  - destruct t as [k c a b ks af]. pose proof El as El'. cbn [SpliceProofs3.mark_in] in El'.
    destruct (original_lists mac _ _ _ _ _ _ O) as (Hb & Ha & _ & NM & _).
    rewrite (pieces_core _ _ _ _ _ _ _ Hb Ha) in El'. rewrite (pieces_core _ _ _ _ _ _ _ Hb Ha) in E.
    destruct (selected_list _ _ _ A Lp Sp) as [U|U]; cbn [n_cls] in U.
    + destruct (single_core _ _ _ _ _ U El') as (y & -> & _).
      exists [PS (CMark p y)]. split.
      * remember (mark_in p (Node k c a b ks af)) as t' eqn:Et.
        cbn [pieces oflat obind app]. replace (solid t') with true.
        2:{ symmetry. subst t'. rewrite solid_in. apply solid_unlabelled. exact U. }
        rewrite El. reflexivity.
      * destruct Hm as (H1 & H2 & H3). unfold marks. cbn in *. split; [exact H1|]. split; assumption.
    + subst k. discriminate E.
  - exists l. split; assumption.
Qed.

Lemma hang_level_f t p x : main_f t -> original t = true -> agree p x t ->
  forall s0, statement_of mac t = Some s0 ->
  exists s, statement_of mac (mark p t) = Some s /\ erase s = s0 /\ plain s = true /\
    (all_kept -> braced s0 = true -> tidy s = true) /\
    (S p = false -> match s with CMark _ _ => False | _ => True end) /\
    (S p = true -> match s with CMark _ _ => True | _ => False end).
Proof.
  intros M O A s0 E. unfold statement_of in *. destruct (solid t) eqn:So; [|discriminate].
  apply obind_inv in E. destruct E as (l0 & El0 & Es0).
  destruct (M O p x A l0 El0) as (l & El & Hm). destruct Hm as (H1 & H2 & H3). subst l0.
  destruct (unerase_one _ _ Es0) as (s & Es & Ers).
  assert (Pl : plain s = true).
  { rewrite (assemble_plain _ _ (one_inv _ _ Es)) in H2. cbn in H2. rewrite andb_true_r in H2. exact H2. }
  assert (Ti : all_kept -> braced s0 = true -> tidy s = true).
  { intros K Br. assert (T : forallb tidyP l = true).
    { apply H3; [exact K|]. rewrite (assemble_braced _ _ (one_inv _ _ Es0)). cbn. rewrite Br. reflexivity. }
    rewrite (assemble_tidy _ _ (one_inv _ _ Es)) in T. cbn in T. rewrite andb_true_r in T. exact T. }
  rewrite mark_eq. destruct (S p) eqn:Sp.
  - exists (CMark p s). remember (mark_in p t) as t' eqn:Et.
    cbn [solid n_cls statement cls_eqb orb pieces oflat obind app].
    replace (solid t') with true by (subst t'; rewrite solid_in; symmetry; exact So).
    rewrite El. cbn [obind]. rewrite Es. cbn [obind app one assemble].
    split; [reflexivity|]. split; [exact Ers|]. split; [exact Pl|]. split; [exact Ti|].
    split; [discriminate|]. intros _. exact I.
  - exists s. rewrite solid_in, So, El. cbn [obind].
    split; [exact Es|]. split; [exact Ers|]. split; [exact Pl|]. split; [exact Ti|].
    split; [|discriminate]. intros _.
    destruct t as [k c a b ks af]. cbn [SpliceProofs3.mark_in] in El.
    destruct (original_lists mac _ _ _ _ _ _ O) as (Hb & Ha & _ & NM & _).
    rewrite (pieces_core _ _ _ _ _ _ _ Hb Ha) in El.
    refine (not_mark _ _ _ _ _ _ _ El Es).
    unfold solid in So. cbn [n_cls] in So. destruct k; try reflexivity; try discriminate. contradiction.
Qed.

Lemma kids_f (f : bool -> bool) p x t0 : (forall i, body_role (n_cls t0) i = false) ->
  forall l, Forall main_f l -> forallb original l = true -> forall i prev, agree_list p x t0 i prev l ->
  forall L0, oflat (fun y => if f (is_else y) then Some [] else pieces mac y) l = Some L0 ->
  exists L, oflat (fun y => if f (is_else y) then Some [] else pieces mac y) (mark_list p i l) = Some L /\ marks L0 L.
Proof.
  intros Br l H. induction H as [|y r Hy _ IH]; cbn [SpliceProofs3.mark_list oflat forallb];
    intros O i prev A L0 E.
  - injection E as <-. exists []. split; [reflexivity|]. unfold marks. cbn. auto.
  - apply andb_prop in O. destruct O as [Oy Or].
    destruct (agree_cons _ _ _ _ _ _ _ _ _ _ _ A) as [Ay Ar].
    apply obind_inv in E. destruct E as (l1 & E1 & E). apply obind_inv in E. destruct E as (l2 & E2 & E).
    injection E as <-. destruct (IH Or _ _ Ar _ E2) as (L2 & -> & M2).
    assert (Lp : list_parent (child_ctx x t0 i prev (hd_error r))) by apply Br.
    rewrite (else_mark _ _ _ Ay Lp). destruct (f (is_else y)).
    + injection E1 as <-. exists L2. split; [reflexivity|exact M2].
    + destruct (list_level_f _ _ _ Hy Oy Ay Lp _ E1) as (L1 & -> & M1).
      exists (L1 ++ L2). split; [reflexivity|]. apply marks_app; assumption.
Qed.
Lemma kids_all_f p x t0 : (forall i, body_role (n_cls t0) i = false) ->
  forall l, Forall main_f l -> forallb original l = true -> forall i prev, agree_list p x t0 i prev l ->
  forall L0, oflat (pieces mac) l = Some L0 ->
  exists L, oflat (pieces mac) (mark_list p i l) = Some L /\ marks L0 L.
Proof. exact (kids_f (fun _ => false) p x t0). Qed.

Lemma header_f p x t : agree p x t -> is_expr t = true -> x_body x = false ->
  is_expr (mark p t) = true /\ ex (mark p t) = ex t.
Proof.
  intros A E Hb. rewrite (mark_unselected _ _ _ (unselected_expr _ _ _ A E Hb)).
  unfold is_expr, ex in *. destruct (cls_mark_in S p t) as [-> ->]. split; [exact E|reflexivity].
Qed.

(** A body of an if or a loop is marked or a block. *)
Lemma body_hang_ok p x t s0 s : agree p x t -> hang_parent x -> x_body x = true -> x_inc x = false ->
  all_kept -> original t = true -> statement_of mac t = Some s0 -> erase s = s0 ->
  (S p = false -> match s with CMark _ _ => False | _ => True end) ->
  (S p = true -> match s with CMark _ _ => True | _ => False end) -> hang_ok s = true.
Proof.
  intros A Hp Hb Hi K O E Er U1 U2. destruct (cls_eqb (n_cls t) KCompound) eqn:C.
  - assert (Ck : n_cls t = KCompound) by (destruct (n_cls t); try discriminate; reflexivity).
    pose proof (unselected_compound _ _ _ A Ck) as Sp. specialize (U1 Sp).
    destruct t as [k c a b ks af]. cbn in Ck. subst k.
    destruct (original_lists mac _ _ _ _ _ _ O) as (Ob & Oa & _ & _ & _).
    unfold statement_of in E. cbn [solid n_cls statement orb] in E.
    apply obind_inv in E. destruct E as (l & El & Eo). rewrite (pieces_core _ _ _ _ _ _ _ Ob Oa) in El.
    unfold SpliceProofs3.core in El. cbn [pieces oflat obind app] in El.
    apply obind_inv in El. destruct El as (pc & El & E'). injection E' as <-.
    apply obind_inv in El. destruct El as (l & _ & El). apply obind_inv in El. destruct El as (m & _ & El).
    injection El as <-. injection Eo as <-. destruct s; try contradiction; try discriminate; reflexivity.
  - assert (Sp : S p = true).
    { rewrite (agree_here _ _ _ _ _ _ _ A). unfold selb, can_be_made_traceable_p. cbn [pl_ctx pl_ast].
      rewrite K, C, Hb, Hi. cbn. rewrite orb_true_r. reflexivity. }
    specialize (U2 Sp). destruct s; try contradiction. reflexivity.
Qed.
Lemma block_hang_ok s l : match s with CMark _ _ => False | _ => True end -> erase s = CBlock l -> hang_ok s = true.
Proof. destruct s; try contradiction; try discriminate; reflexivity. Qed.

Lemma not_error t : is_expr t = true \/ solid t = true -> error_ast_p (Some t) = false /\ possibly_incomplete_macro_p (Some t) = false.
Proof. unfold is_expr, solid. cbn. destruct (n_cls t); cbn; intros [H|H]; try discriminate; split; reflexivity. Qed.
Lemma not_inc prev next :
  match prev with Some t => is_expr t = true \/ solid t = true | None => True end ->
  match next with Some t => is_expr t = true \/ solid t = true | None => True end ->
  possibly_incomplete prev next = false.
Proof.
  intros H1 H2. unfold possibly_incomplete.
  assert (E1 : error_ast_p prev = false /\ possibly_incomplete_macro_p prev = false)
    by (destruct prev; [apply not_error, H1|split; reflexivity]).
  assert (E2 : error_ast_p next = false) by (destruct next; [apply (not_error _ H2)|reflexivity]).
  destruct E1 as [-> ->]. rewrite E2. reflexivity.
Qed.
Lemma solid_of t s : (if solid t then obind (pieces mac t) one else None) = Some s -> solid t = true.
Proof. destruct (solid t); [reflexivity|discriminate]. Qed.

Lemma main_f_all t : main_f t.
Proof.
  induction t as [k c a b ks af _ Hks _] using ast_rect'. intros O p x A l0 E.
  destruct (original_lists mac _ _ _ _ _ _ O) as (Hb & Ha & Oks & NM & NF).
  cbn [SpliceProofs3.mark_in]. rewrite (pieces_core _ _ _ _ _ _ _ Hb Ha) in E. rewrite (pieces_core _ _ _ _ _ _ _ Hb Ha).
  pose proof (agree_kids _ _ _ _ _ _ _ A) as Ak. cbn [n_kids] in Ak.
  remember (Node k c a b ks af) as t0 eqn:Et0.
  assert (Ck : n_cls t0 = k) by (subst; reflexivity). clear Et0 O A Hb Ha.
  unfold SpliceProofs3.core in *. cbn [pieces oflat obind app] in *.
  apply obind_inv in E. destruct E as (pc & Ec & E). injection E as <-. rewrite app_nil_r in *.
  assert (Fin : forall (o : option (list piece)), (exists l, o = Some l /\ marks pc l) ->
     exists l, obind o (fun pc0 => Some (pc0 ++ [])) = Some l /\ marks pc l).
  { intros o (l & -> & M). exists l. cbn. rewrite app_nil_r. split; [reflexivity|exact M]. }
  apply Fin. clear Fin.
  assert (HL : forall y i prev r, Forall main_f (y :: r) -> forallb original (y :: r) = true ->
     agree_list p x t0 i prev (y :: r) -> traceable_parent_type k = false ->
     forall s0, (if solid y then obind (pieces mac y) one else None) = Some s0 ->
     exists s, (if solid (mark (p ++ [i]) y) then obind (pieces mac (mark (p ++ [i]) y)) one else None) = Some s /\
       erase s = s0 /\ plain s = true /\ (all_kept -> braced s0 = true -> tidy s = true) /\
       (body_role k i = true -> possibly_incomplete prev (hd_error r) = false -> all_kept -> hang_ok s = true) /\
       (body_role k i = false -> match s with CMark _ _ => False | _ => True end)).
  { intros y i prev r F Or Ag Tp s0 Es.
    inversion F as [|? ? Fy _]; subst. cbn [forallb] in Or. apply andb_prop in Or. destruct Or as [Oy _].
    destruct (agree_cons _ _ _ _ _ _ _ _ _ _ _ Ag) as [Ay _].
    assert (Hp : hang_parent (child_ctx x t0 i prev (hd_error r))) by exact Tp.
    destruct (hang_level_f _ _ _ Fy Oy Ay s0 Es) as (s & H1 & H2 & H3 & H4 & H5 & H6).
    exists s. split; [exact H1|]. split; [exact H2|]. split; [exact H3|]. split; [exact H4|]. split.
    - intros Br Inc K. exact (body_hang_ok _ _ _ _ _ Ay Hp Br Inc K Oy Es H2 H5 H6).
    - intros Br. apply H5. exact (unselected_hang _ _ _ Ay Hp Br). }
  destruct k; try discriminate Ec; try contradiction.
  - (* compound *)
    apply obind_inv in Ec. destruct Ec as (l & E1 & Ec). apply obind_inv in Ec. destruct Ec as (m & E2 & Ec).
    injection Ec as <-.
    destruct (kids_all_f _ _ _ ltac:(rewrite Ck; reflexivity) _ Hks Oks _ _ Ak _ E1) as (L & -> & M1 & M2 & M3).
    subst l. destruct (unerase _ _ E2) as (m' & Em' & <-). cbn [obind]. rewrite Em'. cbn [obind].
    eexists; split; [reflexivity|]. unfold marks. cbn. split; [reflexivity|].
    rewrite (assemble_plain _ _ Em') in M2. rewrite M2. split; [reflexivity|].
    rewrite andb_true_r. intros K Br. rewrite andb_true_r.
    rewrite (assemble_tidy _ _ Em') in M3. apply M3; [exact K|].
    rewrite (assemble_braced _ _ E2). exact Br.
  - (* if *)
    destruct ks as [|e [|s [|s2 [|]]]]; try discriminate Ec; cbn [SpliceProofs3.mark_list] in *.
    + destruct (is_expr e) eqn:Ee; [|discriminate].
      destruct (agree_cons _ _ _ _ _ _ _ _ _ _ _ Ak) as [Ae As].
      destruct (header_f _ _ _ Ae Ee) as [-> ->]; [cbn; rewrite Ck; reflexivity|].
      apply obind_inv in Ec. destruct Ec as (y & E1 & Ec). injection Ec as <-.
      inversion Hks as [|? ? _ Hk1]; subst. cbn [forallb] in Oks. apply andb_prop in Oks. destruct Oks as [_ Ok1].
      destruct (HL _ _ _ _ Hk1 Ok1 As eq_refl _ E1) as (s' & -> & H2 & H3 & H4 & H5 & _).
      eexists; split; [reflexivity|]. unfold marks. cbn. rewrite H2, H3. split; [reflexivity|]. split; [reflexivity|].
      rewrite !andb_true_r. intros K Br. rewrite (H4 K Br), (H5 eq_refl); auto.
      apply not_inc; cbn; auto.
    + destruct (is_expr e) eqn:Ee; [|discriminate].
      destruct (agree_cons _ _ _ _ _ _ _ _ _ _ _ Ak) as [Ae As].
      destruct (header_f _ _ _ Ae Ee) as [-> ->]; [cbn; rewrite Ck; reflexivity|].
      apply obind_inv in Ec. destruct Ec as (y & E1 & Ec). apply obind_inv in Ec. destruct Ec as (z & E2 & Ec).
      destruct (closed y) eqn:Cy; [|discriminate]. injection Ec as <-.
      inversion Hks as [|? ? _ Hk1]; subst. cbn [forallb] in Oks. apply andb_prop in Oks. destruct Oks as [_ Ok1].
      destruct (agree_cons _ _ _ _ _ _ _ _ _ _ _ As) as [_ As2].
      inversion Hk1 as [|? ? _ Hk2]; subst. pose proof Ok1 as Ok2. cbn [forallb] in Ok2.
      apply andb_prop in Ok2. destruct Ok2 as [_ Ok2].
      destruct (HL _ _ _ _ Hk1 Ok1 As eq_refl _ E1) as (s' & -> & H2 & H3 & H4 & H5 & _).
      destruct (HL _ _ _ _ Hk2 Ok2 As2 eq_refl _ E2) as (z' & -> & G2 & G3 & G4 & G5 & _).
      cbn [obind]. rewrite <- H2, closed_erase in Cy. rewrite Cy.
      eexists; split; [reflexivity|]. unfold marks. cbn. rewrite H2, H3, G2, G3. split; [reflexivity|]. split; [reflexivity|].
      rewrite !andb_true_r. intros K Br. apply andb_prop in Br. destruct Br as [Br1 Br2].
      rewrite (H4 K Br1), (G4 K Br2), (H5 eq_refl), (G5 eq_refl); auto.
      * apply not_inc; cbn; auto. right. exact (solid_of _ _ E1).
      * apply not_inc; cbn; auto. right. exact (solid_of _ _ E2).
  - (* loop *)
    destruct ks as [|e [|s [|]]]; try discriminate Ec; cbn [SpliceProofs3.mark_list] in *.
    destruct (is_expr e) eqn:Ee; [|discriminate].
    destruct (agree_cons _ _ _ _ _ _ _ _ _ _ _ Ak) as [Ae As].
    destruct (header_f _ _ _ Ae Ee) as [-> ->]; [cbn; rewrite Ck; reflexivity|].
    apply obind_inv in Ec. destruct Ec as (y & E1 & Ec). injection Ec as <-.
    inversion Hks as [|? ? _ Hk1]; subst. cbn [forallb] in Oks. apply andb_prop in Oks. destruct Oks as [_ Ok1].
    destruct (HL _ _ _ _ Hk1 Ok1 As eq_refl _ E1) as (s' & -> & H2 & H3 & H4 & H5 & _).
    eexists; split; [reflexivity|]. unfold marks. cbn. rewrite H2, H3. split; [reflexivity|]. split; [reflexivity|].
    rewrite !andb_true_r. intros K Br. rewrite (H4 K Br), (H5 eq_refl); auto.
    apply not_inc; cbn; auto.
  - (* do *)
    destruct ks as [|s [|e [|]]]; try discriminate Ec; cbn [SpliceProofs3.mark_list] in *.
    destruct (is_expr e) eqn:Ee; [|discriminate].
    destruct (agree_cons _ _ _ _ _ _ _ _ _ _ _ Ak) as [_ Ae]. destruct (agree_cons _ _ _ _ _ _ _ _ _ _ _ Ae) as [Ae' _].
    destruct (header_f _ _ _ Ae' Ee) as [-> ->]; [cbn; rewrite Ck; reflexivity|].
    apply obind_inv in Ec. destruct Ec as (y & E1 & Ec). injection Ec as <-.
    destruct (HL _ _ _ _ Hks Oks Ak eq_refl _ E1) as (s' & -> & H2 & H3 & H4 & H5 & _).
    eexists; split; [reflexivity|]. unfold marks. cbn. rewrite H2, H3. split; [reflexivity|]. split; [reflexivity|].
    rewrite !andb_true_r. intros K Br. rewrite (H4 K Br), (H5 eq_refl); auto.
    apply not_inc; cbn; auto.
  - (* switch *)
    destruct ks as [|e [|s [|]]]; try discriminate Ec; cbn [SpliceProofs3.mark_list] in *.
    destruct (is_expr e) eqn:Ee; [|discriminate].
    destruct (agree_cons _ _ _ _ _ _ _ _ _ _ _ Ak) as [Ae As].
    destruct (header_f _ _ _ Ae Ee) as [-> ->]; [cbn; rewrite Ck; reflexivity|].
    apply obind_inv in Ec. destruct Ec as (y & E1 & Ec). injection Ec as <-.
    inversion Hks as [|? ? _ Hk1]; subst. cbn [forallb] in Oks. apply andb_prop in Oks. destruct Oks as [_ Ok1].
    destruct (HL _ _ _ _ Hk1 Ok1 As eq_refl _ E1) as (s' & -> & H2 & H3 & H4 & _ & H6).
    eexists; split; [reflexivity|]. unfold marks. cbn. rewrite H2, H3. split; [reflexivity|]. split; [reflexivity|].
    rewrite !andb_true_r. intros K Br. apply andb_prop in Br. destruct Br as [Br1 Br2].
    rewrite (H4 K Br2). rewrite andb_true_r. destruct y as [| |ls| | | | | | |]; try discriminate.
    apply (block_hang_ok s' ls); [apply H6; reflexivity|exact H2].
  - (* case *)
    destruct ks as [|v ss]; try discriminate Ec; cbn [SpliceProofs3.mark_list] in *.
    destruct (is_expr v) eqn:Ee; [|discriminate].
    destruct (agree_cons _ _ _ _ _ _ _ _ _ _ _ Ak) as [Ae As].
    destruct (header_f _ _ _ Ae Ee) as [-> ->]; [cbn; rewrite Ck; reflexivity|].
    apply obind_inv in Ec. destruct Ec as (l & E1 & Ec). injection Ec as <-.
    inversion Hks as [|? ? _ Hk1]; subst. cbn [forallb] in Oks. apply andb_prop in Oks. destruct Oks as [_ Ok1].
    destruct (kids_all_f _ _ _ ltac:(rewrite Ck; reflexivity) _ Hk1 Ok1 _ _ As _ E1) as (L & -> & M1 & M2 & M3).
    eexists; split; [reflexivity|]. unfold marks. cbn. rewrite M1. split; [reflexivity|]. split; assumption.
  - (* label *)
    destruct ks as [|s [|]]; try discriminate Ec; cbn [SpliceProofs3.mark_list] in *.
    apply obind_inv in Ec. destruct Ec as (l & E1 & Ec). injection Ec as <-.
    destruct (agree_cons _ _ _ _ _ _ _ _ _ _ _ Ak) as [As _].
    inversion Hks as [|? ? Hs _]; subst. cbn [forallb] in Oks. apply andb_prop in Oks. destruct Oks as [Os _].
    destruct (list_level_f _ _ _ Hs Os As ltac:(unfold list_parent; cbn; rewrite Ck; reflexivity) _ E1) as (L & -> & M1 & M2 & M3).
    eexists; split; [reflexivity|]. unfold marks. cbn. rewrite M1. split; [reflexivity|]. split; assumption.
  - injection Ec as <-. eexists; split; [reflexivity|]. unfold marks. cbn. auto.
  - injection Ec as <-. eexists; split; [reflexivity|]. unfold marks. cbn. auto.
  - apply (kids_f (fun b => Bool.eqb b (mac (cont c))) p x t0) with (prev := None); try assumption. rewrite Ck. reflexivity.
  - apply (kids_f (fun b => Bool.eqb b (mac (cont c))) p x t0) with (prev := None); try assumption. rewrite Ck. reflexivity.
  - injection Ec as <-. eexists; split; [reflexivity|]. unfold marks. cbn. auto.
Qed.
End Mark.
