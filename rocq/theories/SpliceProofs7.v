(** Proofs about Splice.v, part 7: every statement is instrumented. *)
From Coq Require Import List Bool Arith NArith Lia Permutation.
From Verif Require Import Base Types Instr Splice SpliceSpec SpliceProofs1 SpliceProofs2 SpliceProofs3 SpliceProofs4 SpliceProofs5 SpliceProofs6.
Import ListNotations.
Open Scope nat_scope.

Section CovP.
Variable tx : path -> option N.
Definition covP (m : option (option N)) (p : piece) : bool := match p with PL _ => true | PS s => covered tx m s end.
Lemma covered_mono s : covered tx None s = true -> covered tx (Some None) s = true.
Proof. destruct s as [[]| | | | | | | | |]; cbn; try congruence; auto. Qed.
Lemma assemble_cov l : forall m, assemble l = Some m -> forallb (covP None) l = true -> forallb (covered tx None) m = true.
Proof.
  induction l as [|[x|s] l IH]; cbn [assemble forallb covP]; intros m E G.
  - injection E as <-. reflexivity.
  - destruct (assemble l) as [[|s m']|]; try discriminate. injection E as <-.
    specialize (IH _ eq_refl G). cbn [forallb] in *. destruct x; exact IH.
  - destruct (assemble l) as [m'|]; [|discriminate]. injection E as <-.
    apply andb_prop in G. destruct G as [G1 G2]. cbn [forallb]. rewrite G1, (IH _ eq_refl G2). reflexivity.
Qed.
Lemma one_cov l s : one l = Some s -> forallb (covP None) l = true -> covered tx None s = true.
Proof. intros E G. pose proof (assemble_cov _ _ (one_inv _ _ E) G) as H. cbn in H. rewrite andb_true_r in H. exact H. Qed.
End CovP.

(** Classes whose statements need a mark, and the mark they need. *)
Definition needs (k : cls) : bool :=
  match k with KIf | KLoop | KDo | KSwitch | KSimple => true | _ => false end.
Definition text_of (k : cls) (c : content) : option N := match k with KSimple => Some (cont c) | _ => None end.
Definition demand (k : cls) (c : content) : option (option N) :=
  if needs k then Some (text_of k c) else None.
Lemma simple_text_of t : simple_text t = text_of (n_cls t) (n_content t).
Proof. destruct t as [[]]; reflexivity. Qed.

Section Cover.
Variable struct_like else_like : ast -> bool.
Variable mac : N -> bool.
Variable S : path -> bool.
Variable tx : path -> option N.
Notation keep := (fun (_ : path) (_ : ast) => true).
Notation child_ctx := (child_ctx struct_like).
Notation mark := (mark S).
Notation mark_list := (mark_list S).
Notation mark_in := (mark_in S).
Notation agree := (agree struct_like else_like keep S).
Notation agree_list := (agree_list struct_like else_like keep S).
Notation desc := (desc struct_like).
Notation desc_list := (desc_list struct_like).

Definition plain_place (p : path) (q : place) : Prop :=
  x_odd (pl_ctx q) = false /\ else_like (pl_ast q) = false /\ tx (p ++ pl_path q) = simple_text (pl_ast q).
Definition recognised (p : path) (x : ctx) (t : ast) : Prop := forall q, In q (desc x t) -> plain_place p q.
Definition recognised_list (p : path) (x : ctx) (t : ast) i prev l : Prop :=
  forall q, In q (desc_list x t i prev l) -> plain_place p q.
Lemma recognised_here p x t : recognised p x t -> x_odd x = false /\ else_like t = false /\ tx p = simple_text t.
Proof.
  intros R. rewrite <- (app_nil_r p). apply (R (mkPl [] x t)).
  rewrite desc_eq. apply in_app_iff. right. left. reflexivity.
Qed.
Lemma recognised_kids p x t : recognised p x t -> recognised_list p x t 0 None (n_kids t).
Proof. intros R q Hq. apply R. rewrite desc_eq. apply in_app_iff. left. exact Hq. Qed.
Lemma recognised_cons p x t i prev y r : recognised_list p x t i prev (y :: r) ->
  recognised (p ++ [i]) (child_ctx x t i prev (hd_error r)) y /\ recognised_list p x t (Datatypes.S i) (Some y) r.
Proof.
  intros R. split; intros q Hq.
  - assert (H : plain_place p (down i q)) by (apply R; cbn; apply in_app_iff; right; apply in_map, Hq).
    unfold plain_place in *. rewrite <- app_assoc. exact H.
  - apply R. cbn. apply in_app_iff. left. exact Hq.
Qed.

Definition inner (x : ctx) (t : ast) : Prop :=
  existsb (cls_eqb KCompound) (n_cls t :: x_parents x) = true.
Definition main_c (t : ast) : Prop :=
  original t = true -> no_directives t = true -> forall p x, agree p x t -> recognised p x t ->
  x_inc x = false -> inner x t ->
  forall l0, pieces mac t = Some l0 -> forallb bracedP l0 = true ->
  forall l, pieces mac (mark_in p t) = Some l -> forallb (covP tx (demand (n_cls t) (n_content t))) l = true.

Lemma braced_one l s : one l = Some s -> braced s = true -> forallb bracedP l = true.
Proof. intros E B. rewrite (assemble_braced _ _ (one_inv _ _ E)). cbn. rewrite B. reflexivity. Qed.

Lemma directive_free t : no_directives t = true -> error_ast_p (Some t) = false /\ possibly_incomplete_macro_p (Some t) = false.
Proof. destruct t as [k c a b ks af]. cbn [no_directives]. intros H. destruct k; try discriminate; split; reflexivity. Qed.
Lemma free_inc prev next :
  match prev with Some t => no_directives t = true | None => True end ->
  match next with Some t => no_directives t = true | None => True end ->
  possibly_incomplete prev next = false.
Proof.
  intros H1 H2. unfold possibly_incomplete.
  assert (E1 : error_ast_p prev = false /\ possibly_incomplete_macro_p prev = false)
    by (destruct prev; [apply directive_free, H1|split; reflexivity]).
  assert (E2 : error_ast_p next = false) by (destruct next; [apply (directive_free _ H2)|reflexivity]).
  destruct E1 as [-> ->]. rewrite E2. reflexivity.
Qed.

Lemma list_level_c t p x : main_c t -> original t = true -> no_directives t = true -> agree p x t -> recognised p x t ->
  x_inc x = false -> x_pinc x = false -> x_body x = false ->
  match x_parents x with q :: _ => traceable_parent_type q = true | [] => False end ->
  existsb (cls_eqb KCompound) (x_parents x) = true ->
  forall l0, pieces mac t = Some l0 -> forallb bracedP l0 = true ->
  forall l, pieces mac (mark p t) = Some l -> forallb (covP tx None) l = true.
Proof.
  intros M O D A R Hi Hpi Hb Hp Hc l0 E0 B l E. rewrite mark_eq in E. destruct (S p) eqn:Sp.
  - remember (mark_in p t) as t' eqn:Et. cbn [pieces oflat obind app] in E.
    apply obind_inv in E. destruct E as (pc & E & E'). injection E' as <-.
    apply obind_inv in E. destruct E as (s & E & E'). injection E' as <-.
    cbn [app forallb covP covered mute andb]. rewrite andb_true_r.
    destruct (solid t') eqn:So; [|discriminate]. apply obind_inv in E. destruct E as (lm & Elm & Es). subst t'.
    assert (In : inner x t) by (unfold inner; cbn [existsb]; rewrite Hc; apply orb_true_r).
    pose proof (M O D p x A R Hi In l0 E0 B lm Elm) as C.
    destruct t as [k c a b ks af]. cbn [SpliceProofs3.mark_in] in Elm.
    destruct (original_lists mac _ _ _ _ _ _ O) as (Ob & Oa & _ & NM & _).
    rewrite (pieces_core _ _ _ _ _ _ _ Ob Oa) in Elm.
    destruct (selected_list _ _ _ _ _ _ _ A Hb Sp) as [U|U]; cbn [n_cls] in U.
    + destruct (single_core _ _ _ _ _ U Elm) as (y & -> & _). injection Es as <-.
      cbn [forallb covP n_cls n_content] in C. rewrite andb_true_r in C.
      destruct (recognised_here _ _ _ R) as (_ & _ & ->). rewrite simple_text_of. cbn [n_cls n_content].
      unfold demand in C. destruct (needs k) eqn:Nk; [exact C|].
      replace (text_of k c) with (@None N) by (destruct k; try discriminate Nk; reflexivity). apply covered_mono, C.
    + subst k. discriminate D.
  - assert (In : inner x t) by (unfold inner; cbn [existsb]; rewrite Hc; apply orb_true_r).
    pose proof (M O D p x A R Hi In l0 E0 B l E) as C.
    assert (N : needs (n_cls t) = false); [|unfold demand in C; rewrite N in C; exact C].
    rewrite (agree_here _ _ _ _ _ _ _ A) in Sp. unfold selb in Sp. cbn [pl_ctx pl_ast] in Sp.
    rewrite andb_true_r in Sp. unfold can_be_made_traceable_p in Sp. rewrite Hb, andb_false_r in Sp. cbn in Sp.
    rewrite orb_false_r in Sp. unfold traceable_stmt_p in Sp.
    destruct (recognised_here _ _ _ R) as (R1 & R2 & _). rewrite R1, R2, Hi, Hpi, Hc in Sp.
    destruct (x_parents x) as [|q r]; [destruct Hp|]. rewrite Hp in Sp.
    destruct (n_cls t); cbn in Sp; try discriminate; reflexivity.
Qed.

Lemma block_class t s : original t = true -> statement_of mac t = Some s ->
  match s with CBlock _ => true | _ => false end = true -> n_cls t = KCompound.
Proof.
  intros O E B. destruct s as [| |ls| | | | | | |]; try discriminate. clear B.
  destruct t as [k c a b ks af]. destruct (original_lists mac _ _ _ _ _ _ O) as (Ob & Oa & _ & NM & _).
  unfold statement_of in E. destruct (solid (Node k c a b ks af)) eqn:So; [|discriminate].
  apply obind_inv in E. destruct E as (l & El & Es). rewrite (pieces_core _ _ _ _ _ _ _ Ob Oa) in El.
  unfold SpliceProofs3.core in El. cbn [pieces oflat obind app] in El.
  apply obind_inv in El. destruct El as (pc & El & E'). injection E' as <-. rewrite app_nil_r in Es.
  cbn [n_cls]. destruct k; try discriminate; try contradiction; try reflexivity; exfalso.
  - destruct ks as [|e [|s1 [|s2 [|]]]]; try discriminate; (destruct (is_expr e); [|discriminate]).
    + apply obind_inv in El. destruct El as (u & _ & El). injection El as <-. discriminate.
    + apply obind_inv in El. destruct El as (u & _ & El). apply obind_inv in El. destruct El as (v & _ & El).
      destruct (closed u); [|discriminate]. injection El as <-. discriminate.
  - destruct ks as [|e [|s1 [|]]]; try discriminate; (destruct (is_expr e); [|discriminate]).
    apply obind_inv in El. destruct El as (u & _ & El). injection El as <-. discriminate.
  - destruct ks as [|s1 [|e [|]]]; try discriminate; (destruct (is_expr e); [|discriminate]).
    apply obind_inv in El. destruct El as (u & _ & El). injection El as <-. discriminate.
  - destruct ks as [|e [|s1 [|]]]; try discriminate; (destruct (is_expr e); [|discriminate]).
    apply obind_inv in El. destruct El as (u & _ & El). injection El as <-. discriminate.
  - destruct ks as [|v ss]; try discriminate. destruct (is_expr v); [|discriminate].
    apply obind_inv in El. destruct El as (u & _ & El). injection El as <-.
    apply one_inv in Es. cbn in Es. destruct (assemble u) as [[|]|]; discriminate.
  - destruct ks as [|s1 [|]]; try discriminate.
    apply obind_inv in El. destruct El as (u & _ & El). injection El as <-.
    apply one_inv in Es. cbn in Es. destruct (assemble u) as [[|]|]; discriminate.
  - injection El as <-. discriminate.
  - injection El as <-. discriminate.
Qed.

Lemma hang_level_c t p x : main_c t -> original t = true -> no_directives t = true -> agree p x t -> recognised p x t ->
  x_inc x = false -> existsb (cls_eqb KCompound) (x_parents x) = true \/ n_cls t = KCompound ->
  x_body x = true \/ n_cls t = KCompound ->
  forall s0, statement_of mac t = Some s0 -> braced s0 = true ->
  forall s, statement_of mac (mark p t) = Some s -> covered tx None s = true.
Proof.
  intros M O D A R Hi Hc Hb s0 E0 B s E.
  assert (In : inner x t).
  { unfold inner. cbn [existsb]. destruct Hc as [Hc| ->]; [rewrite Hc; apply orb_true_r|reflexivity]. }
  unfold statement_of in E0, E. destruct (solid t) eqn:So; [|discriminate].
  apply obind_inv in E0. destruct E0 as (l0 & El0 & Es0).
  pose proof (braced_one _ _ Es0 B) as B0.
  rewrite mark_eq in E. destruct (S p) eqn:Sp.
  - remember (mark_in p t) as t' eqn:Et.
    cbn [solid n_cls statement cls_eqb orb pieces oflat obind app] in E.
    apply obind_inv in E. destruct E as (l & E & Es). apply obind_inv in E. destruct E as (pc & E & E').
    injection E' as <-. apply obind_inv in E. destruct E as (y & E & E'). injection E' as <-.
    injection Es as <-. cbn [covered mute andb]. destruct (solid t') eqn:So'; [|discriminate].
    apply obind_inv in E. destruct E as (lm & Elm & Es). subst t'.
    pose proof (M O D p x A R Hi In l0 El0 B0 lm Elm) as C.
    destruct t as [k c a b ks af]. cbn [SpliceProofs3.mark_in] in Elm. cbn [n_cls n_content] in C. destruct (recognised_here _ _ _ R) as (_ & _ & ->). rewrite simple_text_of. cbn [n_cls n_content].
    unfold demand in C.
    destruct (original_lists mac _ _ _ _ _ _ O) as (Ob & Oa & _ & NM & _).
    rewrite (pieces_core _ _ _ _ _ _ _ Ob Oa) in Elm.
    destruct (needs k) eqn:Nk.
    + assert (U : unlabelled k = true) by (destruct k; try discriminate; reflexivity).
      destruct (single_core _ _ _ _ _ U Elm) as (z & -> & _). injection Es as <-.
      cbn in C. rewrite andb_true_r in C. exact C.
    + replace (text_of k c) with (@None N) by (destruct k; try discriminate Nk; reflexivity).
      apply covered_mono. exact (one_cov _ _ _ Es C).
  - rewrite solid_in, So in E. apply obind_inv in E. destruct E as (l & El & Es).
    pose proof (M O D p x A R Hi In l0 El0 B0 l El) as C.
    assert (Ck : n_cls t = KCompound).
    { destruct Hb as [Hb|Hb]; [|exact Hb].
      rewrite (agree_here _ _ _ _ _ _ _ A) in Sp. unfold selb in Sp. cbn [pl_ctx pl_ast] in Sp.
      rewrite andb_true_r in Sp. unfold can_be_made_traceable_p in Sp. rewrite Hb, Hi in Sp. cbn in Sp.
      rewrite !andb_true_r in Sp. apply orb_false_elim in Sp. destruct Sp as [_ Sp].
      apply negb_false_iff in Sp. destruct (n_cls t); try discriminate; reflexivity. }
    rewrite Ck in C. exact (one_cov _ _ _ Es C).
Qed.

Lemma hd_free r : forallb no_directives r = true -> match hd_error r with Some t => no_directives t = true | None => True end.
Proof. destruct r as [|y r]; cbn; [auto|]. intros H. apply andb_prop in H. apply H. Qed.

Lemma kids_c p x t0 : (forall i, body_role (n_cls t0) i = false) -> traceable_parent_type (n_cls t0) = true ->
  x_inc x = false -> inner x t0 ->
  forall l, Forall main_c l -> forallb original l = true -> forallb no_directives l = true ->
  forall i prev, match prev with Some t => no_directives t = true | None => True end ->
  agree_list p x t0 i prev l -> recognised_list p x t0 i prev l ->
  forall L0, oflat (pieces mac) l = Some L0 -> forallb bracedP L0 = true ->
  forall L, oflat (pieces mac) (mark_list p i l) = Some L -> forallb (covP tx None) L = true.
Proof.
  intros Br Tp Hi In l H. induction H as [|y r Hy _ IH]; cbn [SpliceProofs3.mark_list oflat forallb];
    intros O D i prev Pv A R L0 E0 B L E.
  - injection E as <-. reflexivity.
  - apply andb_prop in O. destruct O as [Oy Or]. apply andb_prop in D. destruct D as [Dy Dr].
    destruct (agree_cons _ _ _ _ _ _ _ _ _ _ _ A) as [Ay Ar].
    destruct (recognised_cons _ _ _ _ _ _ _ R) as [Ry Rr].
    apply obind_inv in E0. destruct E0 as (l1 & E1 & E0). apply obind_inv in E0. destruct E0 as (l2 & E2 & E0).
    injection E0 as <-. rewrite forallb_app in B. apply andb_prop in B. destruct B as [B1 B2].
    apply obind_inv in E. destruct E as (m1 & F1 & E). apply obind_inv in E. destruct E as (m2 & F2 & E).
    injection E as <-. rewrite forallb_app. apply andb_true_intro. split.
    + apply (list_level_c y _ _ Hy Oy Dy Ay Ry) with (l0 := l1); try assumption.
      * cbn. apply free_inc; [exact Pv|apply hd_free, Dr].
      * apply Br.
    + apply (IH Or Dr (Datatypes.S i) (Some y) Dy Ar Rr _ E2 B2 _ F2).
Qed.

Lemma main_c_all t : main_c t.
Proof.
  induction t as [k c a b ks af _ Hks _] using ast_rect'. intros O D p x A R Hi In l0 E0 B l E.
  destruct (original_lists mac _ _ _ _ _ _ O) as (Hb & Ha & Oks & NM & NF).
  cbn [SpliceProofs3.mark_in] in E.
  rewrite (pieces_core _ _ _ _ _ _ _ Hb Ha) in E. rewrite (pieces_core _ _ _ _ _ _ _ Hb Ha) in E0.
  pose proof (agree_kids _ _ _ _ _ _ _ A) as Ak. cbn [n_kids] in Ak.
  pose proof (recognised_kids _ _ _ R) as Rk. cbn [n_kids] in Rk.
  cbn [no_directives] in D. apply andb_prop in D. destruct D as [Dk Dks].
  remember (Node k c a b ks af) as t0 eqn:Et0.
  assert (Ck : n_cls t0 = k) by (subst; reflexivity). assert (Cc : n_content t0 = c) by (subst; reflexivity). rewrite Ck, Cc. clear Et0 O A R Hb Ha.
  unfold SpliceProofs3.core in *. cbn [pieces oflat obind app] in *.
  apply obind_inv in E. destruct E as (pc & Ec & E). injection E as <-.
  apply obind_inv in E0. destruct E0 as (pc0 & Ec0 & E0). injection E0 as <-. rewrite app_nil_r in *.
  assert (HL : forall y i prev r, Forall main_c (y :: r) -> forallb original (y :: r) = true ->
     forallb no_directives (y :: r) = true ->
     match prev with Some t => no_directives t = true | None => True end ->
     agree_list p x t0 i prev (y :: r) -> recognised_list p x t0 i prev (y :: r) ->
     body_role k i = true \/ n_cls y = KCompound ->
     forall s0, (if solid y then obind (pieces mac y) one else None) = Some s0 -> braced s0 = true ->
     forall s, (if solid (mark (p ++ [i]) y) then obind (pieces mac (mark (p ++ [i]) y)) one else None) = Some s ->
     covered tx None s = true).
  { intros y i prev r F Or Dr Pv Ag Rg Hbd s0 Es0 Bs s Es.
    inversion F as [|? ? Fy _]; subst. cbn [forallb] in Or, Dr. apply andb_prop in Or. destruct Or as [Oy _].
    apply andb_prop in Dr. destruct Dr as [Dy Dr].
    destruct (agree_cons _ _ _ _ _ _ _ _ _ _ _ Ag) as [Ay _]. destruct (recognised_cons _ _ _ _ _ _ _ Rg) as [Ry _].
    apply (hang_level_c y _ _ Fy Oy Dy Ay Ry) with (s0 := s0); try assumption.
    - cbn. apply free_inc; [exact Pv|apply hd_free, Dr].
    - left. exact In. }
  destruct k; try discriminate Ec0; try contradiction; try discriminate Dk; cbn [demand needs text_of].
  - (* compound *)
    apply obind_inv in Ec. destruct Ec as (l & E1 & Ec). apply obind_inv in Ec. destruct Ec as (m & E2 & Ec).
    injection Ec as <-. apply obind_inv in Ec0. destruct Ec0 as (l' & F1 & Ec0).
    apply obind_inv in Ec0. destruct Ec0 as (m' & F2 & Ec0). injection Ec0 as <-.
    cbn in B. rewrite andb_true_r in B. rewrite <- (assemble_braced _ _ F2) in B.
    cbn [forallb covP covered mute andb]. rewrite andb_true_r. apply (assemble_cov _ _ _ E2).
    apply (kids_c p x t0) with (L0 := l') (l := ks) (i := 0) (prev := None); try assumption; try (rewrite Ck; reflexivity). exact I.
  - (* if *)
    destruct ks as [|e [|s [|s2 [|]]]]; try discriminate Ec0; cbn [SpliceProofs3.mark_list] in *;
      (destruct (is_expr e) eqn:Ee; [|discriminate]);
      (destruct (agree_cons _ _ _ _ _ _ _ _ _ _ _ Ak) as [Ae As]);
      (destruct (recognised_cons _ _ _ _ _ _ _ Rk) as [_ Rs]);
      (destruct (header_f _ _ _ _ _ _ _ Ae Ee) as [X1 X2]; [cbn; rewrite Ck; reflexivity|]); rewrite X1 in Ec;
      (inversion Hks as [|? ? _ Hk1]; subst); cbn [forallb] in Oks, Dks;
      (apply andb_prop in Oks; destruct Oks as [_ Ok1]); (apply andb_prop in Dks; destruct Dks as [De Dk1]).
    + apply obind_inv in Ec. destruct Ec as (y & E1 & Ec). injection Ec as <-.
      apply obind_inv in Ec0. destruct Ec0 as (y' & F1 & Ec0). injection Ec0 as <-.
      cbn in B. rewrite andb_true_r in B. cbn [forallb covP covered mute andb]. rewrite andb_true_r.
      exact (HL _ _ (Some _) _ Hk1 Ok1 Dk1 De As Rs (or_introl eq_refl) _ F1 B _ E1).
    + apply obind_inv in Ec. destruct Ec as (y & E1 & Ec). apply obind_inv in Ec. destruct Ec as (z & E2 & Ec).
      destruct (closed y); [|discriminate]. injection Ec as <-.
      apply obind_inv in Ec0. destruct Ec0 as (y' & F1 & Ec0). apply obind_inv in Ec0. destruct Ec0 as (z' & F2 & Ec0).
      destruct (closed y'); [|discriminate]. injection Ec0 as <-.
      cbn in B. rewrite andb_true_r in B. apply andb_prop in B. destruct B as [B1 B2].
      cbn [forallb covP covered mute andb]. rewrite andb_true_r.
      rewrite (HL _ _ (Some _) _ Hk1 Ok1 Dk1 De As Rs (or_introl eq_refl) _ F1 B1 _ E1). cbn [andb].
      destruct (agree_cons _ _ _ _ _ _ _ _ _ _ _ As) as [_ As2]. destruct (recognised_cons _ _ _ _ _ _ _ Rs) as [_ Rs2].
      inversion Hk1 as [|? ? _ Hk2]; subst. cbn [forallb] in Ok1, Dk1.
      apply andb_prop in Ok1. destruct Ok1 as [_ Ok2]. apply andb_prop in Dk1. destruct Dk1 as [Ds Dk2].
      exact (HL _ _ (Some _) _ Hk2 Ok2 Dk2 Ds As2 Rs2 (or_introl eq_refl) _ F2 B2 _ E2).
  - (* loop *)
    destruct ks as [|e [|s [|]]]; try discriminate Ec0; cbn [SpliceProofs3.mark_list] in *.
    destruct (is_expr e) eqn:Ee; [|discriminate].
    destruct (agree_cons _ _ _ _ _ _ _ _ _ _ _ Ak) as [Ae As]. destruct (recognised_cons _ _ _ _ _ _ _ Rk) as [_ Rs].
    destruct (header_f _ _ _ _ _ _ _ Ae Ee) as [X1 X2]; [cbn; rewrite Ck; reflexivity|]. rewrite X1 in Ec.
    inversion Hks as [|? ? _ Hk1]; subst. cbn [forallb] in Oks, Dks.
    apply andb_prop in Oks. destruct Oks as [_ Ok1]. apply andb_prop in Dks. destruct Dks as [De Dk1].
    apply obind_inv in Ec. destruct Ec as (y & E1 & Ec). injection Ec as <-.
    apply obind_inv in Ec0. destruct Ec0 as (y' & F1 & Ec0). injection Ec0 as <-.
    cbn in B. rewrite andb_true_r in B. cbn [forallb covP covered mute andb]. rewrite andb_true_r.
    exact (HL _ _ (Some _) _ Hk1 Ok1 Dk1 De As Rs (or_introl eq_refl) _ F1 B _ E1).
  - (* do *)
    destruct ks as [|s [|e [|]]]; try discriminate Ec0; cbn [SpliceProofs3.mark_list] in *.
    destruct (is_expr e) eqn:Ee; [|discriminate].
    destruct (agree_cons _ _ _ _ _ _ _ _ _ _ _ Ak) as [_ Ae]. destruct (agree_cons _ _ _ _ _ _ _ _ _ _ _ Ae) as [Ae' _].
    destruct (header_f _ _ _ _ _ _ _ Ae' Ee) as [X1 X2]; [cbn; rewrite Ck; reflexivity|]. rewrite X1 in Ec.
    apply obind_inv in Ec. destruct Ec as (y & E1 & Ec). injection Ec as <-.
    apply obind_inv in Ec0. destruct Ec0 as (y' & F1 & Ec0). injection Ec0 as <-.
    cbn in B. rewrite andb_true_r in B. cbn [forallb covP covered mute andb]. rewrite andb_true_r.
    exact (HL _ _ None _ Hks Oks Dks I Ak Rk (or_introl eq_refl) _ F1 B _ E1).
  - (* switch *)
    destruct ks as [|e [|s [|]]]; try discriminate Ec0; cbn [SpliceProofs3.mark_list] in *.
    destruct (is_expr e) eqn:Ee; [|discriminate].
    destruct (agree_cons _ _ _ _ _ _ _ _ _ _ _ Ak) as [Ae As]. destruct (recognised_cons _ _ _ _ _ _ _ Rk) as [_ Rs].
    destruct (header_f _ _ _ _ _ _ _ Ae Ee) as [X1 X2]; [cbn; rewrite Ck; reflexivity|]. rewrite X1 in Ec.
    inversion Hks as [|? ? _ Hk1]; subst. cbn [forallb] in Oks, Dks.
    apply andb_prop in Oks. destruct Oks as [_ Ok1]. apply andb_prop in Dks. destruct Dks as [De Dk1].
    apply obind_inv in Ec. destruct Ec as (y & E1 & Ec). injection Ec as <-.
    apply obind_inv in Ec0. destruct Ec0 as (y' & F1 & Ec0). injection Ec0 as <-.
    cbn [forallb bracedP braced] in B. rewrite andb_true_r in B. apply andb_prop in B. destruct B as [B1 B2].
    cbn [forallb covP covered mute andb]. rewrite andb_true_r.
    assert (Os : original s = true) by (cbn in Ok1; apply andb_prop in Ok1; apply Ok1).
    exact (HL _ _ (Some _) _ Hk1 Ok1 Dk1 De As Rs (or_intror (block_class _ _ Os F1 B1)) _ F1 B2 _ E1).
  - (* case *)
    destruct ks as [|v ss]; try discriminate Ec0; cbn [SpliceProofs3.mark_list] in *.
    destruct (is_expr v) eqn:Ee; [|discriminate].
    destruct (agree_cons _ _ _ _ _ _ _ _ _ _ _ Ak) as [Ae As]. destruct (recognised_cons _ _ _ _ _ _ _ Rk) as [_ Rs].
    destruct (header_f _ _ _ _ _ _ _ Ae Ee) as [X1 X2]; [cbn; rewrite Ck; reflexivity|]. rewrite X1 in Ec.
    inversion Hks as [|? ? _ Hk1]; subst. cbn [forallb] in Oks, Dks.
    apply andb_prop in Oks. destruct Oks as [_ Ok1]. apply andb_prop in Dks. destruct Dks as [De Dk1].
    apply obind_inv in Ec. destruct Ec as (y & E1 & Ec). injection Ec as <-.
    apply obind_inv in Ec0. destruct Ec0 as (y' & F1 & Ec0). injection Ec0 as <-. cbn [forallb covP].
    apply (kids_c p x t0) with (L0 := y') (l := ss) (i := 1) (prev := Some v); try assumption; rewrite Ck; reflexivity.
  - (* label *)
    destruct ks as [|s [|]]; try discriminate Ec0.
    apply obind_inv in Ec0. destruct Ec0 as (y' & F1 & Ec0). injection Ec0 as <-.
    cbn [SpliceProofs3.mark_list] in Ec. apply obind_inv in Ec. destruct Ec as (y & E1 & Ec). injection Ec as <-.
    cbn [forallb covP].
    apply (kids_c p x t0) with (L0 := y') (l := [s]) (i := 0) (prev := None); try assumption; try (rewrite Ck; reflexivity).
    + exact I.
    + cbn [oflat]. rewrite F1. cbn. rewrite app_nil_r. reflexivity.
    + cbn [SpliceProofs3.mark_list oflat]. rewrite E1. cbn. rewrite app_nil_r. reflexivity.
  - injection Ec as <-. cbn. rewrite N.eqb_refl. reflexivity.
  - injection Ec as <-. reflexivity.
  - injection Ec as <-. reflexivity.
Qed.
End Cover.

(** Functions of a file whose declarators are expressions. *)
Section CoverFile.
Variable struct_like else_like : ast -> bool.
Variable mac : N -> bool.
Variable tx : path -> option N.
Notation keep := (fun (_ : path) (_ : ast) => true).

Lemma bodies_c S p x t0 f : n_cls t0 = KRoot -> forall l,
  forallb original l = true -> forall i prev, agree_list struct_like else_like keep S p x t0 i prev l ->
  recognised_list struct_like else_like tx p x t0 i prev l ->
  forallb no_directives l = true ->
  match find_body f l with
  | None => True
  | Some b => exists q y, x_inc y = false /\ agree struct_like else_like keep S q y b /\
      recognised struct_like else_like tx q y b /\ original b = true /\ no_directives b = true /\
      find_body f (mark_list S p i l) = Some (mark S q b)
  end.
Proof.
  intros Cr. induction l as [|t r IH]; cbn [find_body mark_list forallb]; intros O i prev A R D; [exact I|].
  apply andb_prop in O. destruct O as [Ot Or]. apply andb_prop in D. destruct D as [Dt Dr].
  destruct (agree_cons _ _ _ _ _ _ _ _ _ _ _ A) as [At Ar]. destruct (recognised_cons _ _ _ _ _ _ _ _ _ _ R) as [Rt Rr].
  assert (Sp : S (p ++ [i]) = false).
  { apply (unselected_hang _ _ _ _ _ _ _ At); cbn; rewrite Cr; reflexivity. }
  rewrite (mark_unselected _ _ _ Sp). specialize (IH Or _ _ Ar Rr Dr).
  destruct t as [k c a b ks af]. cbn [mark_in].
  destruct (function_body f (Node k c a b ks af)) as [bd|] eqn:E.
  - clear IH. destruct k; try discriminate. destruct c; try discriminate.
    destruct ks as [|k1 [|k2 [|]]]; try discriminate. cbn in E. destruct (f =? a0)%N eqn:Ef; [|discriminate].
    injection E as <-.
    pose proof (agree_kids _ _ _ _ _ _ _ At) as Ak. cbn [n_kids] in Ak.
    pose proof (recognised_kids _ _ _ _ _ _ Rt) as Rk. cbn [n_kids] in Rk.
    destruct (agree_cons _ _ _ _ _ _ _ _ _ _ _ Ak) as [_ Ak2]. destruct (recognised_cons _ _ _ _ _ _ _ _ _ _ Rk) as [_ Rk2].
    destruct (agree_cons _ _ _ _ _ _ _ _ _ _ _ Ak2) as [A2 _]. destruct (recognised_cons _ _ _ _ _ _ _ _ _ _ Rk2) as [R2 _].
    destruct (original_lists mac _ _ _ _ _ _ Ot) as (_ & _ & Ok & _).
    cbn [forallb] in Ok. apply andb_prop in Ok. destruct Ok as [_ Ok]. apply andb_prop in Ok. destruct Ok as [Ok _].
    cbn [no_directives forallb andb] in Dt. apply andb_prop in Dt. destruct Dt as [D1 Dt]. apply andb_prop in Dt. destruct Dt as [D2 _].
    eexists. eexists. split; [|split; [exact A2|split; [exact R2|split; [exact Ok|split; [exact D2|]]]]].
    + cbn. apply free_inc; [exact D1|exact I].
    + cbn [mark_list function_body]. rewrite Ef. reflexivity.
  - assert (Skip : function_body f (Node k c a b (mark_list S (p ++ [i]) 0 ks) af) = None).
    { revert E. clear. destruct k; try reflexivity. destruct c; try reflexivity.
      destruct ks as [|k1 [|k2 [|k3 ks]]]; try reflexivity. cbn. destruct (f =? a0)%N; [discriminate|reflexivity]. }
    rewrite Skip. exact IH.
Qed.

Theorem coverage root : well_formed mac root -> no_directives root = true ->
  (forall q, In q (asts struct_like ctx0 root) -> x_odd (pl_ctx q) = false /\ else_like (pl_ast q) = false /\
    tx (pl_path q) = simple_text (pl_ast q)) ->
  forall f s, program mac (marked struct_like else_like keep root) f = Some s -> braced (erase s) = true ->
  covered tx None s = true.
Proof.
  intros (C & O & W) D R f s. specialize (W f). unfold program. rewrite (kids_marked _ _ _ _ C).
  assert (Ok : forallb original (n_kids root) = true).
  { destruct root as [k c a b ks af]. apply (original_lists mac _ _ _ _ _ _ O). }
  assert (Dk : forallb no_directives (n_kids root) = true).
  { destruct root as [k c a b ks af]. cbn in D. apply andb_prop in D. apply D. }
  assert (Rr : recognised struct_like else_like tx [] ctx0 root).
  { intros q Hq. apply R. apply (Permutation_in _ (Permutation_sym (asts_desc struct_like root ctx0))). exact Hq. }
  set (S := selected (chosen struct_like else_like keep root)).
  pose proof (bodies_c S [] ctx0 root f C (n_kids root) Ok 0 None
     (agree_kids _ _ _ _ _ _ _ (selected_agree _ _ _ root)) (recognised_kids _ _ _ _ _ _ Rr) Dk) as B.
  pose proof (bodies struct_like else_like keep (fun _ => []) (fun _ => []) mac S [] ctx0 root f C (n_kids root) Ok 0 None
     (agree_kids _ _ _ _ _ _ _ (selected_agree _ _ _ root))) as B'.
  destruct (find_body f (n_kids root)) as [b|].
  - destruct B as (q & y & Hi & A & Rb & Ob & Db & ->). destruct (W b eq_refl) as (l & El).
    destruct (hang_level_f _ _ _ _ _ _ _ _ (main_f_all _ _ _ mac _ b) Ob A _ El) as (s' & H1 & H2 & _).
    rewrite (parse_statement _ _ _ H1). intros E Br. injection E as <-. rewrite H2 in Br.
    pose proof (block_class mac _ _ Ob El eq_refl) as Cb.
    exact (hang_level_c struct_like else_like mac S tx b q y (main_c_all _ _ _ _ _ b) Ob Db A Rb Hi (or_intror Cb) (or_intror Cb) _ El Br _ H1).
  - destruct B' as [-> _]. discriminate.
Qed.
End CoverFile.
