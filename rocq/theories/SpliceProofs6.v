(** Proofs about Splice.v, part 6: whole files; removing the instrumentation. *)
From Coq Require Import List Bool Arith NArith Lia Permutation.
From Verif Require Import Base Types Instr Splice SpliceSpec SpliceProofs1 SpliceProofs2 SpliceProofs3 SpliceProofs4 SpliceProofs5.
Import ListNotations.
Open Scope nat_scope.

Lemma path_eqb_eq a : forall b, path_eqb a b = true <-> a = b.
Proof.
  induction a as [|i a IH]; intros [|j b]; cbn; split; intros E; try congruence.
  - apply andb_prop in E. destruct E as [E1 E2]. apply Nat.eqb_eq in E1. apply IH in E2. congruence.
  - injection E as -> ->. rewrite Nat.eqb_refl. apply IH. reflexivity.
Qed.

Section File.
Variable struct_like else_like : ast -> bool.
Variable keep : path -> ast -> bool.
Variable bef aft : path -> list istmt.
Variable mac : N -> bool.
Notation chosen := (chosen struct_like else_like keep).
Notation genome := (instrument_genome struct_like else_like keep bef aft).
Notation rec := (rec struct_like (dress else_like keep bef aft)).
Notation rec_list := (rec_list struct_like (dress else_like keep bef aft)).
Notation expand := (expand bef aft).

Definition marked (root : ast) : ast := mark (selected (chosen root)) [] root.

Lemma selected_agree root : agree struct_like else_like keep (selected (chosen root)) [] ctx0 root.
Proof.
  intros q Hq. cbn [app]. unfold selected. rewrite chosen_eq.
  destruct (selb else_like keep [] q) eqn:E.
  - apply existsb_exists. exists q. split; [apply filter_In; split; assumption|]. apply path_eqb_eq. reflexivity.
  - apply not_true_iff_false. intros H. apply existsb_exists in H. destruct H as (q' & H1 & H2).
    apply filter_In in H1. destruct H1 as [H1 H3]. apply path_eqb_eq in H2.
    assert (q' = q) by (apply (desc_unique struct_like root ctx0); assumption). congruence.
Qed.

Section Bodies.
Variable S : path -> bool.
Notation mark := (mark S).
Notation agree := (agree struct_like else_like keep S).
Notation agree_list := (agree_list struct_like else_like keep S).

(** The functions of a file and their marked and instrumented versions. *)
Lemma bodies p x t0 f : n_cls t0 = KRoot -> forall l, forallb original l = true ->
  forall i prev, agree_list p x t0 i prev l ->
  match find_body f l with
  | None => find_body f (mark_list S p i l) = None /\ find_body f (rec_list p x t0 i prev l) = None
  | Some b => exists q y, hang_parent y /\ x_body y = false /\ agree q y b /\ original b = true /\
      find_body f (mark_list S p i l) = Some (mark q b) /\
      find_body f (rec_list p x t0 i prev l) = Some (rec q y b)
  end.
Proof.
  intros Cr. induction l as [|t r IH]; cbn [find_body mark_list SpliceProofs1.rec_list forallb];
    intros O i prev A; [split; reflexivity|].
  apply andb_prop in O. destruct O as [Ot Or].
  destruct (agree_cons _ _ _ _ _ _ _ _ _ _ _ A) as [At Ar].
  set (y := child_ctx struct_like x t0 i prev (hd_error r)) in *.
  assert (Sp : S (p ++ [i]) = false).
  { apply (unselected_hang _ _ _ _ _ _ _ At); cbn; rewrite Cr; reflexivity. }
  rewrite (mark_unselected _ _ _ Sp), (rec_unselected _ _ _ _ _ _ _ _ _ Sp At).
  specialize (IH Or _ _ Ar).
  destruct t as [k c a b ks af]. cbn [mark_in rec_in].
  assert (Skip : function_body f (Node k c a b ks af) = None ->
     function_body f (Node k c a b (mark_list S (p ++ [i]) 0 ks) af) = None /\
     function_body f (Node k c a b (rec_list (p ++ [i]) y (Node k c a b ks af) 0 None ks) af) = None).
  { clear. destruct k; try (split; reflexivity). destruct c; try (split; reflexivity).
    destruct ks as [|k1 [|k2 [|k3 ks]]]; try (split; reflexivity). cbn. destruct (f =? a0)%N; [discriminate|split; reflexivity]. }
  destruct (function_body f (Node k c a b ks af)) as [bd|] eqn:E.
  - clear Skip IH. destruct k; try discriminate. destruct c; try discriminate.
    destruct ks as [|k1 [|k2 [|]]]; try discriminate. cbn in E. destruct (f =? a0)%N eqn:Ef; [|discriminate].
    injection E as <-.
    pose proof (agree_kids _ _ _ _ _ _ _ At) as Ak. cbn [n_kids] in Ak.
    destruct (agree_cons _ _ _ _ _ _ _ _ _ _ _ Ak) as [_ Ak2].
    destruct (agree_cons _ _ _ _ _ _ _ _ _ _ _ Ak2) as [A2 _].
    destruct (original_lists mac _ _ _ _ _ _ Ot) as (_ & _ & Ok & _).
    cbn [forallb] in Ok. apply andb_prop in Ok. destruct Ok as [_ Ok]. apply andb_prop in Ok. destruct Ok as [Ok _].
    eexists. eexists. split; [|split; [|split; [exact A2|split; [exact Ok|]]]].
    + reflexivity.
    + reflexivity.
    + cbn [mark_list SpliceProofs1.rec_list function_body]. rewrite Ef. split; reflexivity.
  - destruct (Skip eq_refl) as [-> ->]. exact IH.
Qed.
End Bodies.

Lemma root_unselected root : n_cls root = KRoot -> selected (chosen root) [] = false.
Proof.
  intros C. rewrite (agree_here _ _ _ _ _ _ _ (selected_agree root)).
  unfold selb, can_be_made_traceable_p, traceable_stmt_p. cbn [pl_ctx pl_ast]. rewrite C. reflexivity.
Qed.
Lemma kids_marked root : n_cls root = KRoot ->
  n_kids (marked root) = mark_list (selected (chosen root)) [] 0 (n_kids root).
Proof.
  intros C. unfold marked. rewrite mark_unselected by apply root_unselected, C. destruct root. reflexivity.
Qed.
Lemma kids_genome root : n_cls root = KRoot ->
  n_kids (genome root) = rec_list [] ctx0 root 0 None (n_kids root).
Proof.
  intros C. rewrite instrument_rec.
  rewrite (rec_unselected _ _ _ _ _ (selected (chosen root))).
  - destruct root. reflexivity.
  - apply root_unselected, C.
  - apply selected_agree.
Qed.


(** Marked, instrumented and original program. *)
Theorem programs root : well_formed mac root -> forall f,
  match program mac (marked root) f with
  | None => program mac root f = None /\ program mac (genome root) f = None
  | Some s => program mac root f = Some (erase s) /\ plain s = true /\
      (tidy s = true -> program mac (genome root) f = Some (hang s (expand s))) /\
      ((forall p t, keep p t = true) -> braced (erase s) = true -> tidy s = true)
  end.
Proof.
  intros (C & O & W) f. specialize (W f). unfold program.
  rewrite (kids_marked _ C), (kids_genome _ C).
  assert (Ok : forallb original (n_kids root) = true).
  { destruct root as [k c a b ks af]. apply (original_lists mac _ _ _ _ _ _ O). }
  pose proof (bodies (selected (chosen root)) [] ctx0 root f C (n_kids root) Ok 0 None
                (agree_kids _ _ _ _ _ _ _ (selected_agree root))) as B.
  destruct (find_body f (n_kids root)) as [b|].
  - destruct B as (q & y & Hp & Hb & A & Ob & -> & ->). destruct (W b eq_refl) as (l & El).
    destruct (hang_level_f _ _ _ _ _ _ _ _ (main_f_all _ _ _ mac _ b) Ob A _ El) as (s & H1 & H2 & H3 & H4 & H5 & _).
    rewrite (parse_statement _ _ _ H1), (parse_statement _ _ _ El). rewrite H2.
    split; [reflexivity|]. split; [exact H3|]. split; [|exact H4]. intros T.
    apply parse_statement. apply body_statement with (S := selected (chosen root)); try assumption.
    apply (block_hang_ok s l); [|exact H2]. apply H5. apply (unselected_hang _ _ _ _ _ _ _ A Hp Hb).
  - destruct B as [-> ->]. split; reflexivity.
Qed.

(** ** Support code *)
Definition silent (t : ast) : Prop := print mac t = [].
Lemma silent_flat l : Forall silent l -> flat_map (print mac) l = [].
Proof. induction 1 as [|x l Hx _ IH]; cbn; [reflexivity|]. rewrite Hx, IH. reflexivity. Qed.

Definition alike (t t' : ast) : Prop :=
  n_cls t' = n_cls t /\ n_content t' = n_content t /\ print mac t' = print mac t.
Lemma alike_refl t : alike t t.
Proof. repeat split. Qed.
(** Printing depends on the parts only through class, text and print. *)
Lemma alike_kids k c a b ks ks' af : Forall2 alike ks ks' -> print mac (Node k c a b ks' af) = print mac (Node k c a b ks af).
Proof.
  intros F. cbn [print]. f_equal. f_equal.
  assert (Fl : flat_map (print mac) ks' = flat_map (print mac) ks).
  { induction F as [|t t' r r' (_ & _ & H) _ IH]; cbn; [reflexivity|]. rewrite H, IH. reflexivity. }
  assert (Fe : forall v, flat_map (fun y => if Bool.eqb (is_else y) v then [] else print mac y) ks' =
                         flat_map (fun y => if Bool.eqb (is_else y) v then [] else print mac y) ks).
  { intros v. clear Fl. induction F as [|t t' r r' (H1 & _ & H) _ IH]; cbn; [reflexivity|].
    unfold is_else at 1 3. rewrite H1, H, IH. reflexivity. }
  destruct k; rewrite ?Fl, ?Fe; try reflexivity.
  all: inversion F as [|t1 t1' r1 r1' (A1 & A2 & A3) F1]; subst; try reflexivity;
       inversion F1 as [|t2 t2' r2 r2' (B1 & B2 & B3) F2]; subst; unfold ex; rewrite ?A2, ?A3, ?B2, ?B3; try reflexivity;
       try (inversion F2 as [|t3 t3' r3 r3' (C1 & C2 & C3) F3]; subst; rewrite ?C3; try reflexivity;
            inversion F3; subst; reflexivity).
  cbn [flat_map] in Fl. rewrite A3, B3 in Fl. apply app_inv_head in Fl. cbn [flat_map]. rewrite B3, Fl. reflexivity.
Qed.
Lemma wrap_silent t bs cs : Forall silent bs -> Forall silent cs -> alike t (wrap_before_after t bs cs).
Proof.
  intros H1 H2. destruct t as [k c a b ks af]. cbn [wrap_before_after]. repeat split.
  cbn [print]. rewrite !flat_map_app, (silent_flat _ H1), (silent_flat _ H2), !app_nil_r. reflexivity.
Qed.
Lemma set_nth_alike l : forall i x y, nth_error l i = Some x -> alike x y -> Forall2 alike l (set_nth l i y).
Proof.
  induction l as [|z l IH]; intros [|i] x y E A; cbn in *; try discriminate.
  - injection E as ->. constructor; [exact A|]. clear. induction l; constructor; [apply alike_refl|assumption].
  - constructor; [apply alike_refl|]. exact (IH _ _ _ E A).
Qed.
Lemma inject_alike bs cs p : Forall silent bs -> Forall silent cs -> forall t, alike t (inject p bs cs t).
Proof.
  intros H1 H2. unfold inject. induction p as [|i p IH]; intros t.
  - cbn. apply wrap_silent; assumption.
  - destruct t as [k c a b ks af]. cbn [lookup n_kids with_at].
    destruct (nth_error ks i) as [x|] eqn:E; [|apply alike_refl].
    specialize (IH x). destruct (lookup x p) as [u|]; [|apply alike_refl].
    split; [reflexivity|]. split; [reflexivity|]. apply alike_kids. apply set_nth_alike with x; assumption.
Qed.

(** Injection keeps the functions. *)
Definition alike_fun (t t' : ast) : Prop := forall f,
  match function_body f t with
  | Some b => exists b', function_body f t' = Some b' /\ print mac b' = print mac b
  | None => function_body f t' = None
  end.
Lemma alike_fun_refl t : alike_fun t t.
Proof. intros f. destruct (function_body f t) as [b|]; [exists b; split; reflexivity|reflexivity]. Qed.
Lemma inject_fun bs cs p : Forall silent bs -> Forall silent cs -> forall t, alike_fun t (inject p bs cs t).
Proof.
  intros H1 H2 t f. destruct p as [|i p].
  - unfold inject. cbn. destruct t as [k c a b ks af]. cbn [wrap_before_after function_body].
    destruct k; try reflexivity. destruct c; try reflexivity. destruct ks as [|k1 [|k2 [|]]]; try reflexivity.
    destruct (f =? a0)%N; [|reflexivity]. exists k2. split; reflexivity.
  - pose proof (fun t => inject_alike bs cs p H1 H2 t) as A. unfold inject in *.
    destruct t as [k c a b ks af]. cbn [lookup n_kids with_at].
    destruct (nth_error ks i) as [x|] eqn:E; [|apply alike_fun_refl].
    specialize (A x). destruct (lookup x p) as [u|]; [|apply alike_fun_refl].
    cbn [function_body]. destruct k; try reflexivity. destruct c; try reflexivity.
    destruct ks as [|k1 [|k2 [|k3 ks]]]; try reflexivity.
    + destruct i as [|[|]]; reflexivity.
    + destruct i as [|[|i]]; cbn in E; try discriminate; cbn [set_nth].
      * destruct (f =? a0)%N; [|reflexivity]. eexists; split; reflexivity.
      * destruct (f =? a0)%N; [|reflexivity]. injection E as ->. eexists; split; [reflexivity|]. apply A.
      * destruct i; discriminate.
    + destruct i as [|[|[|i]]]; reflexivity.
Qed.
Lemma inject_program bs cs p t : Forall silent bs -> Forall silent cs ->
  forall f, program mac (inject p bs cs t) f = program mac t f.
Proof.
  intros H1 H2 f. unfold program. destruct p as [|i p].
  - unfold inject. cbn. destruct t. reflexivity.
  - pose proof (fun t => inject_fun bs cs p H1 H2 t f) as A. unfold inject in *.
    destruct t as [k c a b ks af]. cbn [lookup n_kids with_at].
    destruct (nth_error ks i) as [x|] eqn:E; [|reflexivity].
    specialize (A x). destruct (lookup x p) as [u|]; [|reflexivity]. cbn [n_kids].
    set (x' := with_at x p (wrap_before_after u bs cs)) in *. clearbody x'.
    revert i E. induction ks as [|y ks IH]; intros [|i] E; cbn in E; try discriminate.
    + injection E as ->. cbn [set_nth find_body]. destruct (function_body f x) as [bd|].
      * destruct A as (b' & -> & ->). reflexivity.
      * rewrite A. reflexivity.
    + cbn [set_nth find_body]. destruct (function_body f y); [reflexivity|]. apply IH. exact E.
Qed.
Lemma inject_opt_program o bs cs t : Forall silent bs -> Forall silent cs ->
  forall f, program mac (inject_opt o bs cs t) f = program mac t f.
Proof. intros H1 H2 f. destruct o; [apply inject_program; assumption|reflexivity]. Qed.

Variable is_main : ast -> bool.
Notation instrument := (instrument struct_like else_like keep bef aft is_main).
Theorem instrument_program o f :
  program mac (sw_genome (instrument o)) f = program mac (genome (sw_genome o)) f.
Proof.
  unfold Splice.instrument. cbn [sw_genome].
  assert (S1 : forall n, Forall silent [fragment (Setup n)]) by (intros n; constructor; [reflexivity|constructor]).
  assert (S0 : Forall silent []) by constructor.
  assert (F : forall ps r, program mac (fold_left (fun r p => inject p [fragment (Setup 3)] [] r) ps r) f = program mac r f).
  { induction ps as [|p ps IH]; intros r; cbn [fold_left]; [reflexivity|]. rewrite IH. apply inject_program; auto. }
  match goal with |- context [main_paths ?a ?b ?c] => destruct (main_paths a b c) as [|p ps] end.
  - cbn [fold_left]. rewrite !inject_opt_program by auto. reflexivity.
  - rewrite inject_opt_program by auto. rewrite F. rewrite !inject_opt_program by auto. reflexivity.
Qed.

(** ** Removing *)
Definition frag (t : ast) : Prop := exists c, t = fragment c.
Inductive dressed : ast -> ast -> Prop :=
| D_node k c b ks ks' af fb fa :
    Forall2 dressed ks ks' -> Forall frag fb -> Forall frag fa ->
    dressed (Node k c false b ks af) (Node k c false (b ++ fb) ks' (af ++ fa))
| D_wrap t t' c fb fa :
    dressed t t' -> Forall frag fb -> Forall frag fa ->
    dressed t (Node KCompound c true fb [t'] fa).

Lemma clean_ann t : clean t = true -> n_ann t = false.
Proof. destruct t as [k c [] b ks af]; cbn; [discriminate|reflexivity]. Qed.
Lemma clean_strip t : clean t = true -> cut (unwrap t) = t.
Proof.
  induction t as [k c a b ks af Hb Hk Ha] using ast_rect'. cbn [clean]. intros C.
  repeat (apply andb_prop in C; destruct C as [C ?]). destruct a; [discriminate|].
  cbn [unwrap andb cut].
  assert (L : forall l, Forall (fun t => clean t = true -> cut (unwrap t) = t) l -> forallb clean l = true ->
     filter (fun x => negb (n_ann x)) (map cut (map unwrap l)) = l).
  { intros l F. induction F as [|x r Hx _ IH]; cbn; [reflexivity|]. intros G. apply andb_prop in G. destruct G as [G1 G2].
    rewrite (Hx G1), (clean_ann _ G1). cbn. rewrite (IH G2). reflexivity. }
  rewrite !L by assumption. reflexivity.
Qed.
Lemma frags_strip l : Forall frag l -> filter (fun x => negb (n_ann x)) (map cut (map unwrap l)) = [].
Proof. induction 1 as [|x l (c & ->) _ IH]; cbn; [reflexivity|exact IH]. Qed.
Lemma dressed_strip t' : forall t, clean t = true -> dressed t t' -> cut (unwrap t') = t.
Proof.
  induction t' as [k c a b ks af _ Hk _] using ast_rect'. intros t C D.
  inversion D as [k0 c0 b0 ks0 ks' af0 fb fa F Fb Fa|t0 t1 c0 fb fa D1 Fb Fa]; subst.
  - cbn [clean] in C. repeat (apply andb_prop in C; destruct C as [C ?]).
    cbn [unwrap andb cut]. rewrite !map_app, !filter_app, (frags_strip _ Fb), (frags_strip _ Fa), !app_nil_r.
    assert (L : forall l, forallb clean l = true -> filter (fun x => negb (n_ann x)) (map cut (map unwrap l)) = l).
    { induction l as [|x r IH]; cbn; [reflexivity|]. intros G. apply andb_prop in G. destruct G as [G1 G2].
      rewrite (clean_strip _ G1), (clean_ann _ G1). cbn. rewrite (IH G2). reflexivity. }
    rewrite (L b0), (L af0) by assumption. f_equal.
    assert (Ck : forallb clean ks0 = true) by assumption. clear -F Hk Ck.
    induction F as [|x x' r r' Hx _ IH]; cbn; [reflexivity|].
    inversion Hk as [|? ? K1 K2]; subst. cbn in Ck. apply andb_prop in Ck. destruct Ck as [C1 C2].
    rewrite (K1 _ C1 Hx), (clean_ann _ C1). cbn. rewrite (IH K2 C2). reflexivity.
  - cbn [unwrap andb cls_eqb map]. inversion Hk as [|? ? K1 _]; subst. exact (K1 _ C D1).
Qed.

Lemma frags_frag l : Forall frag (map (fun i => fragment (Ins i)) l).
Proof. induction l; cbn; constructor; [eexists; reflexivity|assumption]. Qed.
Lemma rec_dressed t : clean t = true -> forall p x, dressed t (rec p x t).
Proof.
  induction t as [k c a b ks af _ Hk _] using ast_rect'. cbn [clean]. intros C p x.
  repeat (apply andb_prop in C; destruct C as [C ?]). destruct a; [discriminate|].
  rewrite rec_eq.
  assert (L : forall t0 i prev, Forall2 dressed ks (rec_list p x t0 i prev ks)).
  { intros t0. assert (Ck : forallb clean ks = true) by assumption. clear -Hk Ck.
    induction Hk as [|y r Hy _ IH]; intros i prev; cbn [SpliceProofs1.rec_list]; constructor.
    - cbn in Ck. apply andb_prop in Ck. apply Hy, Ck.
    - cbn in Ck. apply andb_prop in Ck. apply IH, Ck. }
  specialize (L (Node k c false b ks af) 0 None).
  set (ks' := rec_list _ _ _ _ _ _) in *. clearbody ks'.
  unfold dress. destruct (selb else_like keep p _).
  - cbn [wrap_before_after]. unfold wrap_in_compound_if_needed.
    match goal with |- context [if ?b then _ else _] => destruct b end.
    + apply D_node; [exact L| |]; apply frags_frag.
    + apply D_wrap; [|constructor|constructor]. apply D_node; [exact L| |]; apply frags_frag.
  - rewrite <- (app_nil_r b) at 2. rewrite <- (app_nil_r af) at 2. apply D_node; [exact L|constructor|constructor].
Qed.
Lemma dressed_set l l' : Forall2 dressed l l' -> forall i x y, nth_error l' i = Some x ->
  (forall t, dressed t x -> dressed t y) -> Forall2 dressed l (set_nth l' i y).
Proof.
  induction 1 as [|t t' r r' H1 H2 IH]; intros [|i] x y E K; cbn in *; try discriminate.
  - injection E as ->. constructor; [apply K; assumption|assumption].
  - constructor; [assumption|]. exact (IH _ _ _ E K).
Qed.
Lemma inject_dressed bs cs p : Forall frag bs -> Forall frag cs -> forall t t', dressed t t' -> dressed t (inject p bs cs t').
Proof.
  intros H1 H2. unfold inject. induction p as [|i p IH]; intros t t' D.
  - cbn. inversion D; subst; cbn [wrap_before_after].
    + rewrite <- !app_assoc. apply D_node; [assumption| |]; apply Forall_app; split; assumption.
    + apply D_wrap; [assumption| |]; apply Forall_app; split; assumption.
  - destruct t' as [k c a b ks af]. cbn [lookup n_kids with_at].
    destruct (nth_error ks i) as [x|] eqn:E; [|exact D].
    assert (K : forall t, dressed t x -> dressed t (match lookup x p with Some u => with_at x p (wrap_before_after u bs cs) | None => x end)).
    { intros u Du. apply IH, Du. }
    destruct (lookup x p) as [u|]; [|exact D].
    inversion D as [k0 c0 b0 ks0 ks' af0 fb fa F Fb Fa|t0 t1 c0 fb fa D1 Fb Fa]; subst.
    + apply D_node; [|assumption|assumption]. apply dressed_set with x; assumption.
    + destruct i as [|i]; cbn in E; [|destruct i; discriminate]. injection E as ->. cbn [set_nth].
      apply D_wrap; [apply K; assumption|assumption|assumption].
Qed.
Lemma inject_opt_dressed bs cs o t t' : Forall frag bs -> Forall frag cs -> dressed t t' -> dressed t (inject_opt o bs cs t').
Proof. intros. destruct o; [apply inject_dressed; assumption|assumption]. Qed.

Theorem uninstrument_genome o : clean (sw_genome o) = true ->
  sw_genome (uninstrument (instrument o)) = sw_genome o.
Proof.
  intros C. unfold uninstrument, Splice.instrument. cbn [sw_genome].
  apply dressed_strip; [exact C|].
  assert (S1 : forall n, Forall frag [fragment (Setup n)]) by (intros n; constructor; [eexists; reflexivity|constructor]).
  assert (S0 : Forall frag []) by constructor.
  assert (F : forall ps t r, dressed t r -> dressed t (fold_left (fun r p => inject p [fragment (Setup 3)] [] r) ps r)).
  { induction ps as [|p ps IH]; intros t r D; cbn [fold_left]; [exact D|]. apply IH. apply inject_dressed; auto. }
  match goal with |- context [main_paths ?a ?b ?c] => destruct (main_paths a b c) as [|p ps] end.
  - cbn [fold_left]. repeat (apply inject_opt_dressed; auto). rewrite instrument_rec. apply rec_dressed, C.
  - apply inject_opt_dressed; auto. apply F. repeat (apply inject_opt_dressed; auto). rewrite instrument_rec. apply rec_dressed, C.
Qed.
End File.
