(** Proofs for TransUnit.v: the preprocessor. *)
From Coq Require Import List Bool Arith NArith Lia.
From Verif Require Import Base Types Instr Splice SpliceProofs1 SetupSpec SetupProofs SetupProofs2 SetupProofs3
  TransUnit TransUnitSpec TransUnitProofs1.
Import ListNotations.
Open Scope nat_scope.

Lemma lines_app coin inc l r : forall st s,
  lines coin inc (l ++ r) st s =
  match lines coin inc l st s with Some (st', s') => lines coin inc r st' s' | None => None end.
Proof.
  induction l as [|i l IH]; intros st s; cbn [app lines]; [reflexivity|].
  destruct (step coin inc i st s) as [[st' s']|]; [apply IH|reflexivity].
Qed.
Lemma many_app p a b : many p (a ++ b) = many p a + many p b.
Proof. unfold many. rewrite filter_app, app_length. reflexivity. Qed.

(** ** The program's text *)
Definition keepi (i : item) : bool :=
  match i with IText a => negb (N.eqb a 0) | IMain _ => true | IDir _ => true | _ => false end.
Definition same (s s' : pstate) : Prop :=
  p_coins s = p_coins s' /\ p_files s = p_files s' /\ filter own (p_out s) = filter own (p_out s').
Definition osame (a b : option pstate) : Prop :=
  match a, b with Some s, Some s' => same s s' | None, None => True | _, _ => False end.
Definition lsame (a b : option (list frame * pstate)) : Prop :=
  match a, b with Some (st, s), Some (st', s') => st = st' /\ same s s' | None, None => True | _, _ => False end.

Lemma same_put t s s' : same s s' -> same (put t s) (put t s').
Proof. intros (A & B & C). unfold same. cbn. rewrite !filter_app, C. auto. Qed.
Lemma same_add t s s' : own t = false -> same s s' -> same (put t s) s'.
Proof. intros H (A & B & C). unfold same. cbn. rewrite filter_app. cbn. rewrite H, app_nil_r. auto. Qed.
Lemma same_setup n s s' : same s s' -> same (setup_code n s) s'.
Proof.
  intros (A & B & C). unfold setup_code.
  destruct n as [|p]; [split; auto|]. do 3 (try destruct p as [p|p|]); try (split; auto; fail);
    try destruct (p_decl s); try destruct (p_impl s); try destruct (p_entry s); unfold same; cbn;
    rewrite ?filter_app; cbn; rewrite ?app_nil_r; auto.
Qed.
Section Same.
Variable coin : nat -> bool.
Variable inc inc' : N -> pstate -> option pstate.
Hypothesis Inc : forall f s s', same s s' -> osame (inc f s) (inc' f s').
Lemma step_same i st s s' : keepi i = true -> same s s' -> lsame (step coin inc i st s) (step coin inc' i st s').
Proof.
  intros K H. destruct i as [a|a|d|c|n]; cbn in K; try discriminate; cbn [step].
  - split; [reflexivity|]. destruct (active st); [apply same_put|]; exact H.
  - split; [reflexivity|]. destruct (active st); [apply same_put|]; exact H.
  - destruct H as (A & B & C). destruct d.
    + rewrite A. split; [reflexivity|]. unfold same. cbn. auto.
    + destruct st as [|[t c] r]; [exact Logic.I|]. rewrite A. split; [reflexivity|]. unfold same. cbn. auto.
    + destruct st as [|[t c] r]; [exact Logic.I|]. split; [reflexivity|]. unfold same. auto.
    + destruct st as [|p r]; [exact Logic.I|]. split; [reflexivity|]. unfold same. auto.
    + destruct (active st); [|split; [reflexivity|unfold same; auto]].
      specialize (Inc f s s' (conj A (conj B C))). unfold osame in Inc. destruct (inc f s), (inc' f s'); cbn; auto.
Qed.
Lemma step_skip i st s : keepi i = false -> exists s1, step coin inc i st s = Some (st, s1) /\ forall s', same s s' -> same s1 s'.
Proof.
  intros K. destruct i as [a|a|d|c|n]; cbn in K; try discriminate; cbn [step]; eexists; (split; [reflexivity|]); intros s' H; destruct (active st); try exact H.
  - apply same_add; [|exact H]. exact K.
  - apply same_add; [reflexivity|exact H].
  - apply same_setup, H.
Qed.
Lemma lines_same l : forall st s s', same s s' -> lsame (lines coin inc l st s) (lines coin inc' (filter keepi l) st s').
Proof.
  induction l as [|i l IH]; intros st s s' H; cbn [lines filter]; [split; [reflexivity|exact H]|].
  destruct (keepi i) eqn:K.
  - cbn [lines]. pose proof (step_same i st s s' K H) as X. unfold lsame in X.
    destruct (step coin inc i st s) as [[st1 s1]|], (step coin inc' i st s') as [[st2 s2]|]; try contradiction; [|exact Logic.I].
    destruct X as [<- X]. apply IH, X.
  - destruct (step_skip i st s K) as (s1 & -> & X). apply IH, X, H.
Qed.
End Same.
Lemma same_sym s s' : same s s' -> same s' s.
Proof. intros (A & B & C). repeat split; symmetry; assumption. Qed.
Lemma same_trans s s' s'' : same s s' -> same s' s'' -> same s s''.
Proof. intros (A & B & C) (A' & B' & C'). repeat split; congruence. Qed.
Lemma lines_same2 coin inc inc' l l' st s s' : (forall f s s', same s s' -> osame (inc f s) (inc' f s')) ->
  filter keepi l = filter keepi l' -> same s s' -> lsame (lines coin inc l st s) (lines coin inc' l' st s').
Proof.
  intros Inc E H. pose proof (lines_same coin inc inc' Inc l st s s' H) as A. rewrite E in A.
  assert (Inc2 : forall f a b, same a b -> osame (inc' f a) (inc' f b)).
  { intros f a b Hab. pose proof (Inc f b a (same_sym _ _ Hab)) as X. pose proof (Inc f b b (conj eq_refl (conj eq_refl eq_refl))) as Y.
    unfold osame in *. destruct (inc f b), (inc' f a), (inc' f b); try contradiction; auto.
    eapply same_trans; [apply same_sym, X|exact Y]. }
  pose proof (lines_same coin inc' inc' Inc2 l' st s' s' (conj eq_refl (conj eq_refl eq_refl))) as B.
  unfold lsame in *. destruct (lines coin inc l st s) as [[]|], (lines coin inc' (filter keepi l') st s') as [[]|], (lines coin inc' l' st s') as [[]|]; try contradiction; auto.
  destruct A as [-> A], B as [-> B]. split; [reflexivity|]. eapply same_trans; [exact A|apply same_sym, B].
Qed.

Section ItemsSame.
Variable m : content -> bool.
Variable directives : N -> list directive.
Hypothesis M0 : m (Txt 0) = false.
Hypothesis D0 : directives 0%N = [].
Lemma items_er l : filter keepi (items m directives l) = filter keepi (items m directives (filter (keepc 0) l)).
Proof.
  induction l as [|c l IH]; [reflexivity|]. unfold items in *. cbn [flat_map filter]. rewrite filter_app, IH.
  destruct (keepc 0 c) eqn:K; [cbn [flat_map]; rewrite filter_app; reflexivity|].
  replace (filter keepi (items_of m directives c)) with (@nil item); [reflexivity|].
  destruct c as [a|i|n|p]; cbn in K; cbn; try reflexivity.
  destruct (N.eqb_spec a 0) as [->|]; [|discriminate]. rewrite M0, D0. reflexivity.
Qed.
End ItemsSame.

Section Project.
Variable struct_like else_like : ast -> bool.
Variable keep : N -> path -> ast -> bool.
Variable bef aft : N -> path -> list istmt.
Variable is_main : ast -> bool.
Variable m : content -> bool.
Variable directives : N -> list directive.
Variable src : N -> option (bool * software).
Hypothesis P : project is_main m directives src.
Notation orig := (original m directives src).
Notation inst := (instrumented struct_like else_like keep bef aft is_main m directives src).
Notation its := (items m directives).
Notation isi := (is_instrumented src).
Notation hm := (has_main m src).
Variable coin : nat -> bool.

Lemma file_same f : match inst f, orig f with
  | Some l, Some l' => filter keepi l = filter keepi l' | None, None => True | _, _ => False end.
Proof.
  unfold instrumented, original. destruct (src f) as [[[] o]|] eqn:E; [|reflexivity|exact Logic.I].
  destruct (pr_empty _ _ _ _ P) as [M0 D0].
  rewrite (items_er m directives M0 D0), own_text, <- (items_er m directives M0 D0). reflexivity.
Qed.
Theorem expand_same fuel : forall f s s', same s s' -> osame (expand coin inst fuel f s) (expand coin orig fuel f s').
Proof.
  induction fuel as [|n IH]; intros f s s' H; [exact Logic.I|]. cbn [expand]. pose proof (file_same f) as F.
  destruct (inst f) as [l|], (orig f) as [l'|]; try contradiction; [|exact Logic.I].
  assert (H' : same (enter f s) (enter f s')) by (destruct H as (A & B & C); unfold same; cbn; rewrite B; auto).
  pose proof (lines_same2 coin _ _ l l' [] _ _ IH F H') as X. unfold lsame in X.
  destruct (lines coin (expand coin inst n) l [] (enter f s)) as [[st1 s1]|], (lines coin (expand coin orig n) l' [] (enter f s')) as [[st2 s2]|];
    try contradiction; [|exact Logic.I].
  destruct X as [-> X]. destruct st2; [exact X|exact Logic.I].
Qed.

(** ** The shape of an instrumented file *)
Definition flat (i : item) : Prop := match i with IText _ => True | _ => False end.
Definition midi (i : item) : Prop := match i with ISetup n => n = 3%N | _ => True end.
Definition nocall (i : item) : Prop := match i with ICall _ => False | _ => True end.
Definition nomain (i : item) : Prop := match i with IMain _ => False | _ => True end.
(** Each declarator of main directly follows an entry macro. *)
Inductive pi : list item -> Prop :=
| pi_nil : pi []
| pi_other i l : (match i with IMain _ => False | ISetup n => n = 1%N \/ n = 2%N | _ => True end) -> pi l -> pi (i :: l)
| pi_pair a l : pi l -> pi (ISetup 3 :: IMain a :: l).
Lemma pi_app l r : pi l -> pi r -> pi (l ++ r).
Proof. induction 1; cbn; intros R; [exact R|apply pi_other; auto|apply pi_pair; auto]. Qed.
Lemma items_app l r : its (l ++ r) = its l ++ its r.
Proof. apply flat_map_app. Qed.

Inductive pc : list content -> Prop :=
| pc_nil : pc []
| pc_other c l : m c = false -> c <> Setup 3 -> pc l -> pc (c :: l)
| pc_pair c l : m c = true -> pc l -> pc (Setup 3 :: c :: l).
Lemma m_txt c : m c = true -> exists a, c = Txt a.
Proof. intros H. pose proof (proj2 (pr_main _ _ _ _ P) c H) as T0. destruct c; cbn in T0; try contradiction. eauto. Qed.
Lemma m_setup n : m (Setup n) = false.
Proof. destruct (m (Setup n)) eqn:E; [|reflexivity]. apply m_txt in E. destruct E; discriminate. Qed.
Lemma adj_pc n : forall l, length l <= n -> adj m l ->
  cnt 3 l <= length (filter m l) /\ (cnt 3 l = length (filter m l) -> pc l).
Proof.
  induction n as [|n IH]; intros [|c l] L A; cbn [length] in L; try lia; try (split; [cbn; lia|constructor]).
  destruct A as [A1 A2]. rewrite cnt_cons. cbn [filter].
  destruct c as [a|i|k|p].
  2,4: (match goal with |- context [m ?c] => assert (M : m c = false) by (destruct (m c) eqn:E; [apply m_txt in E; destruct E; discriminate|reflexivity]) end;
    rewrite M; cbn [is_setup]; destruct (IH l ltac:(lia) A2) as [H1 H2]; split; [lia|]; intros E; apply pc_other; [exact M|discriminate|apply H2; lia]).
  - cbn [is_setup]. destruct (IH l ltac:(lia) A2) as [H1 H2]. destruct (m (Txt a)) eqn:M; cbn [length].
    + split; lia.
    + split; [lia|]. intros E. apply pc_other; [exact M|discriminate|apply H2; lia].
  - rewrite m_setup. cbn [is_setup]. destruct (N.eqb_spec 3 k) as [<-|Hk].
    + destruct (A1 eq_refl) as (c & b & -> & M). destruct (m_txt c M) as (a & ->). cbn [length] in L.
      destruct A2 as [_ A2]. destruct (IH b ltac:(lia) A2) as [H1 H2]. rewrite cnt_cons. cbn [filter is_setup]. rewrite M. cbn [length].
      split; [lia|]. intros E. apply pc_pair; [exact M|apply H2; lia].
    + destruct (IH l ltac:(lia) A2) as [H1 H2]. split; [lia|]. intros E. apply pc_other; [apply m_setup|congruence|apply H2; lia].
Qed.
Lemma pc_split a c b : m c = false -> c <> Setup 3 -> pc (a ++ c :: b) -> pc a /\ pc b.
Proof.
  intros M N. remember (a ++ c :: b) as l eqn:E. intros H. revert a E. induction H as [|d l M' N' H IH|d l M' H IH]; intros a E.
  - destruct a; discriminate.
  - destruct a as [|x a]; cbn in E; injection E as -> ->; [split; [constructor|exact H]|].
    destruct (IH a eq_refl) as [X Y]. split; [apply pc_other; assumption|exact Y].
  - destruct a as [|x a]; cbn in E; [congruence|]. injection E as <- E.
    destruct a as [|y a]; cbn in E; [injection E as -> ->; congruence|]. injection E as -> ->.
    destruct (IH a eq_refl) as [X Y]. split; [apply pc_pair; assumption|exact Y].
Qed.
Lemma pc_plain l : Forall of_program l -> pc l -> forall c, In c l -> m c = false.
Proof.
  intros F H. induction H as [|d l M' N' H IH|d l M' H IH]; intros c Hc; [destruct Hc| |].
  - destruct Hc as [<-|Hc]; [exact M'|]. apply IH; [exact (Forall_inv_tail F)|exact Hc].
  - apply Forall_inv in F. destruct F.
Qed.
Lemma pi_dirs l : pi (map IDir l).
Proof. induction l; cbn; [constructor|apply pi_other; [exact Logic.I|assumption]]. Qed.
Lemma pc_items l : Forall (fun c => of_program c \/ a_call c \/ c = Setup 3) l -> pc l -> pi (its l).
Proof.
  intros F H. induction H as [|c l M' N' H IH|c l M' H IH]; [constructor| |].
  - change (its (c :: l)) with (items_of m directives c ++ its l). apply pi_app; [|apply IH; exact (Forall_inv_tail F)].
    apply Forall_inv in F. destruct c as [a|i|n|p]; cbn in *.
    + rewrite M'. apply pi_other; [exact Logic.I|apply pi_dirs].
    + apply pi_other; [exact Logic.I|constructor].
    + destruct F as [[]|[[]|F]]. congruence.
    + constructor.
  - destruct (m_txt c M') as (a & ->). unfold its. cbn [flat_map items_of]. rewrite M'. cbn [app]. apply pi_pair. apply IH.
    exact (Forall_inv_tail (Forall_inv_tail F)).
Qed.
Lemma mid_items l : Forall (fun c => of_program c \/ a_call c \/ c = Setup 3) l -> Forall midi (its l).
Proof.
  intros F. apply Forall_forall. intros i Hi. apply in_flat_map in Hi. destruct Hi as (c & Hc & Hi).
  rewrite Forall_forall in F. specialize (F c Hc). destruct c as [a|j|n|p]; cbn in Hi.
  - destruct (m (Txt a)).
    + destruct Hi as [<-|[]]. exact Logic.I.
    + destruct Hi as [<-|Hi]; [exact Logic.I|]. apply in_map_iff in Hi. destruct Hi as (d & <- & _). exact Logic.I.
  - destruct Hi as [<-|[]]. exact Logic.I.
  - destruct Hi as [<-|[]]. destruct F as [[]|[[]|F]]. injection F as ->. reflexivity.
  - destruct Hi.
Qed.
Lemma plain_items l : Forall of_program l -> (forall c, In c l -> m c = false) ->
  Forall nocall (its l) /\ Forall nomain (its l) /\ Forall midi (its l) /\ pi (its l).
Proof.
  intros F N.
  assert (X : forall i, In i (its l) -> match i with ICall _ | IMain _ | ISetup _ => False | _ => True end).
  { intros i Hi. apply in_flat_map in Hi. destruct Hi as (c & Hc & Hi). rewrite Forall_forall in F. specialize (F c Hc). specialize (N c Hc).
    destruct c as [a|j|n|p]; cbn in F; try contradiction. cbn in Hi. rewrite N in Hi.
    destruct Hi as [<-|Hi]; [exact Logic.I|]. apply in_map_iff in Hi. destruct Hi as (d & <- & _). exact Logic.I. }
  split; [|split; [|split]]; [apply Forall_forall; intros i Hi; specialize (X i Hi); destruct i; cbn; tauto..|].
  induction (its l) as [|i r IH]; [constructor|]. apply pi_other; [|apply IH; intros j Hj; apply X; right; exact Hj].
  specialize (X i (or_introl eq_refl)). destruct i; cbn; tauto.
Qed.
Lemma flat_items l : Forall of_program l -> (forall c, In c l -> m c = false) -> quiet directives l -> Forall flat (its l).
Proof.
  intros F N Q. apply Forall_forall. intros i Hi. apply in_flat_map in Hi. destruct Hi as (c & Hc & Hi).
  rewrite Forall_forall in F. specialize (F c Hc). specialize (N c Hc). destruct c as [a|j|n|p]; cbn in F; try contradiction.
  cbn in Hi. rewrite N, (Q a Hc) in Hi. destruct Hi as [<-|[]]. exact Logic.I.
Qed.
Lemma quiet_er l l' : er 0 l = er 0 l' -> quiet directives l' -> quiet directives l.
Proof.
  intros E Q a Ha. destruct (N.eq_dec a 0) as [->|Na]; [apply (pr_empty _ _ _ _ P)|]. apply Q.
  assert (I : In (Txt a) (er 0 l)) by (apply filter_In; split; [exact Ha|]; cbn; rewrite (proj2 (N.eqb_neq a 0) Na); reflexivity).
  rewrite E in I. apply filter_In in I. apply I.
Qed.

Lemma shape f o : src f = Some (true, o) -> exists fr mi ba,
  inst f = Some (fr ++ ISetup 1 :: mi ++ ISetup 2 :: (if mains is_main (sw_genome o) =? 0 then [] else [ISetup 4]) ++ ba) /\
  Forall flat fr /\ Forall flat ba /\ Forall midi mi /\ pi mi /\
  (hm f = negb (mains is_main (sw_genome o) =? 0)) /\ (hm f = false -> Forall nomain mi).
Proof.
  intros E. destruct (pr_file _ _ _ _ P f o E) as (S0 & Qt & Qb & Cm).
  set (k := mains is_main (sw_genome o)) in *.
  destruct (support struct_like else_like (keep f) (bef f) (aft f) is_main m (pr_main _ _ _ _ P) o S0) as (_ & _ & A & _).
  destruct (support_code struct_like else_like (keep f) (bef f) (aft f) is_main m (pr_main _ _ _ _ P) o S0) as (fr & mi & ba & E1 & F1 & F2 & F3 & C3).
  unfold ending in E1. fold k in E1, C3.
  set (e := if k =? 0 then [] else [Setup 4]) in *.
  assert (He : e = [] \/ e = [Setup 4]) by (unfold e; destruct (k =? 0); auto).
  assert (Qf : quiet directives fr).
  { eapply quiet_er; [|exact Qt]. eapply front_text; [exact S0|exact E1|exact F1]. }
  assert (Qa : quiet directives ba).
  { eapply quiet_er; [|exact Qb]. eapply (back_text _ _ _ _ _ _ _ S0 ba (fr ++ Setup 1 :: mi) e); [|exact He|exact F2].
    rewrite E1, <- app_assoc. reflexivity. }
  assert (Z : forall l, Forall of_program l -> cnt 3 l = 0).
  { intros l F. apply cnt_none. eapply Forall_impl; [|exact F]. intros c Hc. left. exact Hc. }
  assert (Em : filter m (texts (sw_genome (instrument struct_like else_like (keep f) (bef f) (aft f) is_main o))) = filter m (texts (sw_genome o))).
  { assert (G : forall l, filter m l = filter m (er 0 l)).
    { intros l. induction l as [|c l IH]; [reflexivity|]. cbn [filter]. destruct (keepc 0 c) eqn:Kc; cbn [filter]; rewrite IH; [reflexivity|].
      destruct (m c) eqn:Mc; [|reflexivity]. destruct (m_txt c Mc) as (a & ->). cbn in Kc. destruct (N.eqb_spec a 0) as [->|]; [|discriminate].
      rewrite (proj1 (pr_empty _ _ _ _ P)) in Mc. discriminate. }
    rewrite G, own_text, <- G. reflexivity. }
  assert (PC : pc (fr ++ Setup 1 :: mi ++ Setup 2 :: e ++ ba)).
  { rewrite E1 in A. apply (adj_pc _ _ (le_n _)) in A. apply A. rewrite <- E1, Em, Cm, E1.
    rewrite cnt_app, cnt_cons, cnt_app, cnt_cons, cnt_app, (Z fr F1), (Z ba F2). cbn [is_setup N.eqb Pos.eqb].
    replace (cnt 3 e) with 0 by (destruct He as [-> | ->]; reflexivity). unfold cnt. lia. }
  destruct (pc_split fr (Setup 1) _ (m_setup 1) ltac:(discriminate) PC) as [PF PC1].
  destruct (pc_split mi (Setup 2) _ (m_setup 2) ltac:(discriminate) PC1) as [PM PC2].
  assert (PB : pc ba).
  { destruct He as [He|He]; rewrite He in PC2; [exact PC2|]. apply (pc_split [] (Setup 4) ba (m_setup 4) ltac:(discriminate) PC2). }
  exists (its fr), (its mi), (its ba). split; [|split; [|split; [|split; [|split; [|split]]]]].
  - unfold instrumented. rewrite E, E1. f_equal. rewrite items_app. f_equal. change (its (Setup 1 :: mi ++ Setup 2 :: e ++ ba)) with (ISetup 1 :: its (mi ++ Setup 2 :: e ++ ba)).
    f_equal. rewrite items_app. f_equal. change (its (Setup 2 :: e ++ ba)) with (ISetup 2 :: its (e ++ ba)). f_equal. rewrite items_app. f_equal.
    unfold e. destruct (k =? 0); reflexivity.
  - apply flat_items; [exact F1|apply pc_plain; assumption|exact Qf].
  - apply flat_items; [exact F2|apply pc_plain; assumption|exact Qa].
  - apply mid_items, F3.
  - apply pc_items; assumption.
  - unfold has_main. rewrite E, <- Cm. clear. induction (texts (sw_genome o)) as [|c l IH]; [reflexivity|]. cbn.
    destruct (m c); [reflexivity|exact IH].
  - intros Hm. unfold has_main in Hm. rewrite E in Hm.
    assert (Nm : forall c, In c mi -> m c = false).
    { intros c Hc. destruct (m c) eqn:Mc; [|reflexivity]. exfalso.
      assert (I : In c (filter m (texts (sw_genome o)))).
      { rewrite <- Em, E1. apply filter_In. split; [|exact Mc]. apply in_or_app. right. right. apply in_or_app. left. exact Hc. }
      apply filter_In in I. rewrite <- not_true_iff_false in Hm. apply Hm. apply existsb_exists. exists c. split; [apply I|exact Mc]. }
    apply Forall_forall. intros i Hi. apply in_flat_map in Hi. destruct Hi as (c & Hc & Hi). specialize (Nm c Hc).
    destruct c as [a|j|n|p]; cbn in Hi.
    + rewrite Nm in Hi. destruct Hi as [<-|Hi]; [exact Logic.I|]. apply in_map_iff in Hi. destruct Hi as (d & <- & _). exact Logic.I.
    + destruct Hi as [<-|[]]. exact Logic.I.
    + destruct Hi as [<-|[]]. exact Logic.I.
    + destruct Hi.
Qed.

(** ** Declared and defined once *)
Definition b2n (b : bool) : nat := if b then 1 else 0.
Record inv (s : pstate) : Prop := {
  i_decl : many is_decl (p_out s) = b2n (p_decl s);
  i_impl : many is_impl (p_out s) = b2n (p_impl s);
  i_both : p_impl s = true -> p_decl s = true;
  i_use : forall a t b, p_out s = a ++ t :: b -> is_call t = true \/ t = TImpl -> In TDecl a;
  i_init : forall a b, p_out s = a ++ TInit :: b -> In TImpl a }.
Definition grow (s s' : pstate) : Prop := exists new, p_files s' = p_files s ++ new /\
  p_decl s' = p_decl s || existsb isi new /\ p_impl s' = p_impl s || existsb isi new.
Lemma grow_refl s : grow s s.
Proof. exists []. rewrite app_nil_r, !orb_false_r. auto. Qed.
Lemma grow_trans s s' s'' : grow s s' -> grow s' s'' -> grow s s''.
Proof.
  intros (n & A & B & C) (n' & A' & B' & C'). exists (n ++ n'). rewrite A', A, app_assoc, existsb_app, B', B, C', C, !orb_assoc. auto.
Qed.
Lemma many_in p l : many p l <> 0 -> exists t, In t l /\ p t = true.
Proof.
  unfold many. destruct (filter p l) as [|t r] eqn:E; [cbn; congruence|]. intros _. exists t. apply filter_In. rewrite E. left. reflexivity.
Qed.
Lemma decl_in s : inv s -> p_decl s = true -> In TDecl (p_out s).
Proof.
  intros I E. destruct (many_in is_decl (p_out s)) as (t & H & T0); [rewrite (i_decl s I), E; discriminate|]. destruct t; cbn in T0; congruence.
Qed.
Lemma impl_in s : inv s -> p_impl s = true -> In TImpl (p_out s).
Proof.
  intros I E. destruct (many_in is_impl (p_out s)) as (t & H & T0); [rewrite (i_impl s I), E; discriminate|]. destruct t; cbn in T0; congruence.
Qed.
Lemma snoc_split {A} (l a : list A) x t b : l ++ [x] = a ++ t :: b -> (a = l /\ t = x) \/ exists b', l = a ++ t :: b'.
Proof.
  intros E. destruct (exists_last_or_nil b) as [->|(b' & y & ->)].
  - apply app_inj_tail in E. destruct E as [-> ->]. auto.
  - right. exists b'. replace (a ++ t :: b' ++ [y]) with ((a ++ t :: b') ++ [y]) in E by (rewrite <- app_assoc; reflexivity).
    apply app_inj_tail in E. apply E.
Qed.
Lemma inv_put t s : inv s -> is_decl t = false -> is_impl t = false -> (is_call t = true -> p_decl s = true) ->
  (t = TInit -> p_impl s = true) -> inv (put t s).
Proof.
  intros I D1 D2 C0 I0. split; cbn [put def_decl def_impl p_out p_decl p_impl].
  - rewrite many_app. unfold many at 2. cbn. rewrite D1. cbn. rewrite Nat.add_0_r. apply I.
  - rewrite many_app. unfold many at 2. cbn. rewrite D2. cbn. rewrite Nat.add_0_r. apply I.
  - apply I.
  - intros a u b E U. apply snoc_split in E. destruct E as [[-> ->]|(b' & E)]; [|eapply (i_use s I); eassumption].
    apply decl_in; [exact I|]. destruct U as [U| ->]; [auto|discriminate].
  - intros a b E. apply snoc_split in E. destruct E as [[-> <-]|(b' & E)]; [|eapply (i_init s I); eassumption].
    apply impl_in; auto.
Qed.
Lemma inv_decl s : inv s -> inv (setup_code 1 s) /\ p_decl (setup_code 1 s) = true /\ p_impl (setup_code 1 s) = p_impl s /\ p_files (setup_code 1 s) = p_files s.
Proof.
  intros I. cbn. destruct (p_decl s) eqn:E; [auto|]. cbn. split; [|auto]. split; cbn [put def_decl def_impl p_out p_decl p_impl].
  - rewrite many_app, (i_decl s I), E. reflexivity.
  - rewrite many_app, (i_impl s I). cbn. lia.
  - auto.
  - intros a u b X U. apply snoc_split in X. destruct X as [[-> ->]|(b' & X)]; [|eapply (i_use s I); eassumption].
    destruct U as [U|U]; discriminate.
  - intros a b X. apply snoc_split in X. destruct X as [[-> X]|(b' & X)]; [discriminate|eapply (i_init s I); eassumption].
Qed.
Lemma inv_impl s : inv s -> p_decl s = true -> inv (setup_code 2 s) /\ p_decl (setup_code 2 s) = true /\ p_impl (setup_code 2 s) = true /\ p_files (setup_code 2 s) = p_files s.
Proof.
  intros I D. cbn. destruct (p_impl s) eqn:E; [auto|]. cbn. split; [|auto]. split; cbn [put def_decl def_impl p_out p_decl p_impl].
  - rewrite many_app, (i_decl s I). cbn. lia.
  - rewrite many_app, (i_impl s I), E. reflexivity.
  - auto.
  - intros a u b X U. apply snoc_split in X. destruct X as [[-> ->]|(b' & X)]; [|eapply (i_use s I); eassumption].
    apply decl_in; assumption.
  - intros a b X. apply snoc_split in X. destruct X as [[-> X]|(b' & X)]; [discriminate|eapply (i_init s I); eassumption].
Qed.
Lemma inv_init s : inv s -> p_impl s = true -> inv (setup_code 4 s) /\ p_decl (setup_code 4 s) = p_decl s /\ p_impl (setup_code 4 s) = true /\ p_files (setup_code 4 s) = p_files s.
Proof.
  intros I D. cbn. destruct (p_entry s) eqn:E; [|auto]. cbn. split; [|auto]. apply inv_put; auto. discriminate.
Qed.

Section Inc.
Variable inc : N -> pstate -> option pstate.
Hypothesis Inc : forall f s s', inv s -> inc f s = Some s' -> inv s' /\ grow s s'.
Lemma step_inv i st s st' s' : midi i -> (p_decl s = true \/ nocall i) -> inv s -> step coin inc i st s = Some (st', s') -> inv s' /\ grow s s'.
Proof.
  intros M D I E. destruct i as [a|a|d|c|n]; cbn [step] in E.
  - injection E as <- <-. destruct (active st); [|split; [exact I|apply grow_refl]]. split; [apply inv_put; try discriminate; auto|].
    exists []. cbn. rewrite app_nil_r, !orb_false_r. auto.
  - injection E as <- <-. destruct (active st); [|split; [exact I|apply grow_refl]]. split; [apply inv_put; try discriminate; auto|].
    exists []. cbn. rewrite app_nil_r, !orb_false_r. auto.
  - assert (Tk : inv (tick s) /\ grow s (tick s)).
    { split; [destruct I; split; assumption|]. exists []. cbn. rewrite app_nil_r, !orb_false_r. auto. }
    destruct d.
    + injection E as <- <-. exact Tk.
    + destruct st as [|[t c] r]; [discriminate|]. injection E as <- <-. exact Tk.
    + destruct st as [|[t c] r]; [discriminate|]. injection E as <- <-. split; [exact I|apply grow_refl].
    + destruct st as [|p r]; [discriminate|]. injection E as <- <-. split; [exact I|apply grow_refl].
    + destruct (active st); [|injection E as <- <-; split; [exact I|apply grow_refl]].
      destruct (inc f s) as [s1|] eqn:Ei; [|discriminate]. injection E as <- <-. eapply Inc; eassumption.
  - injection E as <- <-. destruct (active st); [|split; [exact I|apply grow_refl]].
    destruct D as [D|[]]. split; [apply inv_put; auto; discriminate|]. exists []. cbn. rewrite app_nil_r, !orb_false_r. auto.
  - cbn in M. subst n. injection E as <- <-. destruct (active st); [|split; [exact I|apply grow_refl]]. cbn.
    split; [destruct I; split; assumption|]. exists []. cbn. rewrite app_nil_r, !orb_false_r. auto.
Qed.
Lemma lines_inv l : forall st s st' s', Forall midi l -> (p_decl s = true \/ Forall nocall l) -> inv s ->
  lines coin inc l st s = Some (st', s') -> inv s' /\ grow s s'.
Proof.
  induction l as [|i l IH]; intros st s st' s' M D I E; cbn [lines] in E.
  - injection E as <- <-. split; [exact I|apply grow_refl].
  - destruct (step coin inc i st s) as [[st1 s1]|] eqn:Es; [|discriminate].
    destruct (step_inv i st s st1 s1 (Forall_inv M)) as [I1 G1]; auto.
    { destruct D as [D|D]; [auto|right; exact (Forall_inv D)]. }
    destruct (IH st1 s1 st' s' (Forall_inv_tail M)) as [I2 G2]; auto.
    { destruct D as [D|D]; [left|right; exact (Forall_inv_tail D)]. destruct G1 as (n & _ & G1 & _). rewrite G1, D. reflexivity. }
    split; [exact I2|eapply grow_trans; eassumption].
Qed.
Lemma flat_lines l : forall st s, Forall flat l -> exists s', lines coin inc l st s = Some (st, s').
Proof.
  induction l as [|i l IH]; intros st s F; cbn [lines]; [eauto|]. pose proof (Forall_inv F) as Fi. destruct i; cbn in Fi; try contradiction.
  cbn [step]. apply IH. exact (Forall_inv_tail F).
Qed.
Lemma flat_mid l : Forall flat l -> Forall midi l /\ Forall nocall l /\ Forall nomain l /\ pi l.
Proof.
  induction 1 as [|i l H _ (A & B & C & D)]; [repeat split; constructor|]. destruct i; cbn in H; try contradiction.
  split; [|split; [|split]]; try (constructor; [exact Logic.I|assumption]).
Qed.
(** The run of an instrumented file. *)
Lemma run_shape fr mi e ba s s' : Forall flat fr -> Forall flat ba -> (e = [] \/ e = [ISetup 4]) ->
  lines coin inc (fr ++ ISetup 1 :: mi ++ ISetup 2 :: e ++ ba) [] s = Some ([], s') ->
  exists s1 s2 s3, lines coin inc fr [] s = Some ([], s1) /\ lines coin inc mi [] (setup_code 1 s1) = Some ([], s2) /\
    s3 = match e with [] => setup_code 2 s2 | _ => setup_code 4 (setup_code 2 s2) end /\ lines coin inc ba [] s3 = Some ([], s').
Proof.
  intros Ff Fb He E. rewrite lines_app in E. destruct (flat_lines fr [] s Ff) as (s1 & E1). rewrite E1 in E.
  cbn [lines step active forallb] in E. rewrite lines_app in E.
  destruct (lines coin inc mi [] (setup_code 1 s1)) as [[st2 s2]|] eqn:E2; [|discriminate]. cbn [lines step] in E.
  assert (S2 : st2 = []).
  { destruct He as [-> | ->]; cbn [app lines step] in E.
    - destruct (flat_lines ba st2 (if active st2 then setup_code 2 s2 else s2) Fb) as (x & X). rewrite X in E. congruence.
    - set (y := if active st2 then setup_code 2 s2 else s2) in E.
      destruct (flat_lines ba st2 (if active st2 then setup_code 4 y else y) Fb) as (x & X). rewrite X in E. congruence. }
  subst st2. cbn [active forallb] in E. exists s1, s2. eexists. split; [exact E1|]. split; [exact E2|]. split; [reflexivity|].
  destruct He as [-> | ->]; exact E.
Qed.
End Inc.

Theorem expand_inv fuel : forall f s s', inv s -> expand coin inst fuel f s = Some s' -> inv s' /\ grow s s' /\ In f (p_files s').
Proof.
  induction fuel as [|n IH]; intros f s s' I E; [discriminate|]. cbn [expand] in E.
  assert (Inc : forall f s s', inv s -> expand coin inst n f s = Some s' -> inv s' /\ grow s s').
  { intros g a b Ia Ea. destruct (IH g a b Ia Ea) as (X & Y & _). auto. }
  destruct (inst f) as [l|] eqn:El; [|discriminate].
  destruct (lines coin (expand coin inst n) l [] (enter f s)) as [[[|] s0]|] eqn:E0; try discriminate. injection E as ->.
  assert (Ie : inv (enter f s)) by (destruct I; split; assumption).
  destruct (src f) as [[b o]|] eqn:Es; [|unfold instrumented in El; rewrite Es in El; discriminate].
  destruct b.
  - destruct (shape f o Es) as (fr & mi & ba & Ei & Ff & Fb & Fm & _). rewrite El in Ei. injection Ei as ->.
    set (e := if mains is_main (sw_genome o) =? 0 then [] else [ISetup 4]) in *.
    assert (He : e = [] \/ e = [ISetup 4]) by (unfold e; destruct (_ =? 0); auto).
    destruct (run_shape _ fr mi e ba _ _ Ff Fb He E0) as (s1 & s2 & s3 & E1 & E2 & E3 & E4).
    destruct (flat_mid fr Ff) as (A1 & A2 & _). destruct (flat_mid ba Fb) as (B1 & B2 & _).
    destruct (lines_inv _ Inc fr [] _ _ _ A1 (or_intror A2) Ie E1) as [I1 (n1 & G1 & _)].
    destruct (inv_decl s1 I1) as (J1 & D1 & _ & Y1).
    destruct (lines_inv _ Inc mi [] _ _ _ Fm (or_introl D1) J1 E2) as [I2 (n2 & G2 & D2 & _)]. rewrite D1 in D2. cbn in D2.
    destruct (inv_impl s2 I2 D2) as (J2 & D3 & P3 & Y2).
    assert (J3 : inv s3 /\ p_decl s3 = true /\ p_impl s3 = true /\ p_files s3 = p_files s2).
    { destruct He as [He|He]; rewrite He in E3; subst s3; [auto|].
      destruct (inv_init _ J2 P3) as (J & Da & Pa & Ya). rewrite Da, Ya. auto. }
    destruct J3 as (J3 & D4 & P4 & Y3).
    destruct (lines_inv _ Inc ba [] _ _ _ B1 (or_introl D4) J3 E4) as [I4 (n4 & G4 & D5 & P5)]. rewrite D4 in D5. rewrite P4 in P5. cbn in D5, P5.
    assert (Ef : p_files s' = p_files s ++ [f] ++ n1 ++ n2 ++ n4).
    { rewrite G4, Y3, G2, Y1, G1. cbn [enter p_files]. rewrite <- !app_assoc. reflexivity. }
    split; [exact I4|]. split.
    + exists ([f] ++ n1 ++ n2 ++ n4). split; [exact Ef|].
      assert (X : existsb isi ([f] ++ n1 ++ n2 ++ n4) = true) by (cbn; unfold is_instrumented at 1; rewrite Es; reflexivity).
      rewrite X, !orb_true_r. auto.
    + rewrite Ef. apply in_or_app. right. left. reflexivity.
  - unfold instrumented in El. rewrite Es in El. injection El as <-.
    pose proof (pr_plain _ _ _ _ P f o Es) as Pl.
    assert (Nc : Forall nocall (its (texts (sw_genome o))) /\ Forall midi (its (texts (sw_genome o)))).
    { split.
      - apply Forall_forall. intros i Hi. apply in_flat_map in Hi. destruct Hi as (c & Hc & Hi). rewrite Forall_forall in Pl. specialize (Pl c Hc).
        destruct c; cbn in Pl; try contradiction. cbn in Hi. destruct (m _); [destruct Hi as [<-|[]]; exact Logic.I|].
        destruct Hi as [<-|Hi]; [exact Logic.I|]. apply in_map_iff in Hi. destruct Hi as (d & <- & _). exact Logic.I.
      - apply mid_items. eapply Forall_impl; [|exact Pl]. auto. }
    destruct Nc as [Nc Nm]. destruct (lines_inv _ Inc _ [] _ _ _ Nm (or_intror Nc) Ie E0) as [I1 (n1 & G1 & D1 & P1)].
    cbn [enter p_files p_decl p_impl] in G1, D1, P1. split; [exact I1|]. split.
    + assert (Hf : isi f = false) by (unfold is_instrumented; rewrite Es; reflexivity).
      exists (f :: n1). cbn [existsb]. rewrite G1, D1, P1, Hf, <- app_assoc. auto.
    + rewrite G1, <- app_assoc. apply in_or_app. right. left. reflexivity.
Qed.

(** ** The initialisation *)
Hypothesis Main : forall f, hm f = true -> isi f = true.
Notation M s := (many is_entry (p_out s)).
Notation I s := (many is_init (p_out s)).
Notation c l := (length (filter hm l)).
Record eff (l : list item) (s s' : pstate) (new : list N) : Prop := {
  e_files : p_files s' = p_files s ++ new;
  e_0 : c new = 0 -> I s' = I s /\ M s <= M s' /\ p_entry s' = p_entry s || (M s <? M s');
  e_none : c new = 0 -> Forall nomain l -> M s' = M s;
  e_1 : Forall nomain l -> c new = 1 -> p_entry s = false ->
        p_entry s' = (M s <? M s') /\ I s' = I s + b2n (M s <? M s') /\ M s <= M s' }.
Definition whole (s s' : pstate) (new : list N) : Prop :=
  p_files s' = p_files s ++ new /\
  (c new = 0 -> p_entry s' = p_entry s /\ M s' = M s /\ I s' = I s) /\
  (c new = 1 -> p_entry s = false -> p_entry s' = (M s <? M s') /\ I s' = I s + b2n (M s <? M s') /\ M s <= M s').

Lemma eff_calm l s s' : p_files s' = p_files s -> M s' = M s -> I s' = I s -> p_entry s' = p_entry s -> eff l s s' [].
Proof.
  intros F A B C0. split; rewrite ?app_nil_r, ?A, ?B, ?C0; try assumption; try (cbn; intros; discriminate).
  - intros _. rewrite Nat.ltb_irrefl, orb_false_r. auto.
  - reflexivity.
Qed.
Lemma eff_whole l s s' new : whole s s' new -> eff l s s' new.
Proof.
  intros (F & A & B). split; [exact F| | |].
  - intros H. destruct (A H) as (E1 & E2 & E3). rewrite E1, E2, E3, Nat.ltb_irrefl, orb_false_r. auto.
  - intros H _. apply A, H.
  - intros _. exact B.
Qed.
Lemma eff_app l r s s1 s' n n' : eff l s s1 n -> eff r s1 s' n' -> eff (l ++ r) s s' (n ++ n').
Proof.
  intros A B. split.
  - rewrite (e_files _ _ _ _ B), (e_files _ _ _ _ A), app_assoc. reflexivity.
  - rewrite filter_app, app_length. intros H. destruct (e_0 _ _ _ _ A ltac:(lia)) as (A1 & A2 & A3). destruct (e_0 _ _ _ _ B ltac:(lia)) as (B1 & B2 & B3).
    split; [congruence|]. split; [lia|]. rewrite B3, A3. destruct (p_entry s); [reflexivity|]. cbn [orb].
    destruct (Nat.ltb_spec (M s) (M s1)), (Nat.ltb_spec (M s1) (M s')), (Nat.ltb_spec (M s) (M s')); try reflexivity; lia.
  - rewrite filter_app, app_length. intros H F. apply Forall_app in F. destruct F as [F1 F2].
    rewrite (e_none _ _ _ _ B ltac:(lia) F2). apply (e_none _ _ _ _ A ltac:(lia) F1).
  - rewrite filter_app, app_length. intros F H Z. apply Forall_app in F. destruct F as [F1 F2].
    assert (D : (c n = 1 /\ c n' = 0) \/ (c n = 0 /\ c n' = 1)) by lia. destruct D as [[D1 D2]|[D1 D2]].
    + destruct (e_1 _ _ _ _ A F1 D1 Z) as (A1 & A2 & A3). destruct (e_0 _ _ _ _ B D2) as (B1 & B2 & B3).
      pose proof (e_none _ _ _ _ B D2 F2) as B4. rewrite B3, B1, B4, Nat.ltb_irrefl, orb_false_r. auto.
    + destruct (e_0 _ _ _ _ A D1) as (A1 & A2 & A3). pose proof (e_none _ _ _ _ A D1 F1) as A4.
      rewrite A4, Nat.ltb_irrefl, orb_false_r, Z in A3. destruct (e_1 _ _ _ _ B F2 D2 A3) as (B1 & B2 & B3).
      rewrite <- A4, <- A1. auto.
Qed.
Section IncB.
Variable inc : N -> pstate -> option pstate.
Hypothesis Inc : forall f s s', inc f s = Some s' -> exists new, whole s s' new.
Lemma put_M t s : M (put t s) = M s + b2n (is_entry t).
Proof. unfold put. cbn [p_out]. rewrite many_app. unfold many at 2. cbn. destruct (is_entry t); reflexivity. Qed.
Lemma put_I t s : I (put t s) = I s + b2n (is_init t).
Proof. unfold put. cbn [p_out]. rewrite many_app. unfold many at 2. cbn. destruct (is_init t); reflexivity. Qed.
Lemma eff_put l t s : is_entry t = false -> is_init t = false -> eff l s (put t s) [].
Proof. intros A B. apply eff_calm; rewrite ?put_M, ?put_I, ?A, ?B; cbn; auto; lia. Qed.
Lemma eff_12 l n s : n = 1%N \/ n = 2%N -> eff l s (setup_code n s) [].
Proof.
  intros [-> | ->]; cbn; [destruct (p_decl s)|destruct (p_impl s)]; apply eff_calm; try reflexivity; cbn [put def_decl def_impl p_out]; rewrite many_app; cbn; lia.
Qed.
Lemma lines_eff l : pi l -> forall st s st' s', lines coin inc l st s = Some (st', s') -> exists new, eff l s s' new.
Proof.
  induction 1 as [|i l Hi H IH|a l H IH]; intros st s st' s' E.
  - injection E as <- <-. exists []. apply eff_calm; reflexivity.
  - cbn [lines] in E. destruct (step coin inc i st s) as [[st1 s1]|] eqn:Es; [|discriminate].
    destruct (IH _ _ _ _ E) as (n' & X).
    assert (Y : exists n, eff [i] s s1 n).
    { destruct i as [b|b|d|b|k]; cbn [step] in Es; cbn in Hi; try contradiction.
      - injection Es as <- <-. exists []. destruct (active st); [apply eff_put; reflexivity|apply eff_calm; reflexivity].
      - destruct d.
        + injection Es as <- <-. exists []. apply eff_calm; reflexivity.
        + destruct st as [|[t q] r]; [discriminate|]. injection Es as <- <-. exists []. apply eff_calm; reflexivity.
        + destruct st as [|[t q] r]; [discriminate|]. injection Es as <- <-. exists []. apply eff_calm; reflexivity.
        + destruct st as [|q r]; [discriminate|]. injection Es as <- <-. exists []. apply eff_calm; reflexivity.
        + destruct (active st); [|injection Es as <- <-; exists []; apply eff_calm; reflexivity].
          destruct (inc f s) as [s2|] eqn:Ei; [|discriminate]. injection Es as <- <-. destruct (Inc _ _ _ Ei) as (n & W). exists n. apply eff_whole, W.
      - injection Es as <- <-. exists []. destruct (active st); [apply eff_put; reflexivity|apply eff_calm; reflexivity].
      - injection Es as <- <-. exists []. destruct (active st); [apply eff_12; exact Hi|apply eff_calm; reflexivity]. }
    destruct Y as (n & Y). exists (n ++ n'). exact (eff_app [i] l s s1 s' n n' Y X).
  - cbn [lines step] in E. destruct (active st) eqn:Ac.
    + destruct (IH _ _ _ _ E) as (n' & X).
      assert (Y : eff [ISetup 3; IMain a] s (put (TMain a) (setup_code 3 s)) []).
      { split.
        - cbn. rewrite app_nil_r. reflexivity.
        - intros _. rewrite put_M, put_I. cbn [setup_code def_entry p_out is_entry is_init b2n]. split; [lia|]. split; [lia|].
          rewrite (proj2 (Nat.ltb_lt _ _)) by lia. rewrite orb_true_r. reflexivity.
        - intros _ F. apply Forall_inv_tail, Forall_inv in F. destruct F.
        - intros F. apply Forall_inv_tail, Forall_inv in F. destruct F. }
      exists ([] ++ n'). exact (eff_app [ISetup 3; IMain a] l _ _ _ _ _ Y X).
    + destruct (IH _ _ _ _ E) as (n' & X).
      assert (Y : eff [ISetup 3; IMain a] s s []) by (apply eff_calm; reflexivity).
      exists ([] ++ n'). exact (eff_app [ISetup 3; IMain a] l _ _ _ _ _ Y X).
Qed.
End IncB.

Theorem expand_eff fuel : forall f s s', expand coin inst fuel f s = Some s' -> exists new, whole s s' new.
Proof.
  induction fuel as [|n IH]; intros f s s' E; [discriminate|]. cbn [expand] in E.
  destruct (inst f) as [l|] eqn:El; [|discriminate].
  destruct (lines coin (expand coin inst n) l [] (enter f s)) as [[[|] s0]|] eqn:E0; try discriminate. injection E as ->.
  destruct (src f) as [[b o]|] eqn:Es; [|unfold instrumented in El; rewrite Es in El; discriminate].
  destruct b.
  - destruct (shape f o Es) as (fr & mi & ba & Ei & Ff & Fb & Fm & Pm & Hm & Nm). rewrite El in Ei. injection Ei as ->.
    destruct (flat_mid fr Ff) as (_ & _ & A1 & A2). destruct (flat_mid ba Fb) as (_ & _ & B1 & B2).
    set (e := if mains is_main (sw_genome o) =? 0 then [] else [ISetup 4]) in *.
    assert (He : e = [] \/ e = [ISetup 4]) by (unfold e; destruct (_ =? 0); auto).
    destruct (run_shape _ fr mi e ba _ _ Ff Fb He E0) as (s1 & s2 & s3 & E1 & E2 & E3 & E4).
    destruct (lines_eff _ IH fr A2 _ _ _ _ E1) as (n1 & X1).
    destruct (lines_eff _ IH mi Pm _ _ _ _ E2) as (n2 & X2).
    destruct (lines_eff _ IH ba B2 _ _ _ _ E4) as (n3 & X3).
    pose proof (eff_app _ _ _ _ _ _ _ X1 (eff_app _ _ _ _ _ _ _ (eff_12 [ISetup 1] 1%N s1 (or_introl eq_refl))
      (eff_app _ _ _ _ _ _ _ X2 (eff_12 [ISetup 2] 2%N s2 (or_intror eq_refl))))) as Y.
    set (nn := n1 ++ [] ++ n2 ++ []) in *. set (ll := fr ++ [ISetup 1] ++ mi ++ [ISetup 2]) in *.
    destruct (hm f) eqn:Hf.
    + assert (Ee : e = [ISetup 4]) by (unfold e; destruct (mains is_main (sw_genome o) =? 0); [discriminate|reflexivity]).
      rewrite Ee in E3. set (s4 := setup_code 2 s2) in *.
      assert (Q3 : p_files s3 = p_files s4 /\ M s3 = M s4 /\ p_entry s3 = p_entry s4 /\ I s3 = I s4 + b2n (p_entry s4)).
      { subst s3. cbn [setup_code]. destruct (p_entry s4) eqn:E5; [|repeat split; cbn; auto; lia]. rewrite put_M, put_I. cbn [put p_files p_entry is_entry is_init b2n]. repeat split; first [reflexivity|assumption|lia]. }
      destruct Q3 as (Q1 & Q2 & Q3 & Q4).
      exists (f :: nn ++ n3). split; [rewrite (e_files _ _ _ _ X3), Q1, (e_files _ _ _ _ Y); cbn [enter p_files]; rewrite <- !app_assoc; reflexivity|].
      cbn [filter]. rewrite Hf. cbn [length]. split; [discriminate|]. rewrite filter_app, app_length. intros H Z.
      destruct (e_0 _ _ _ _ Y ltac:(lia)) as (Y1 & Y2 & Y3). destruct (e_0 _ _ _ _ X3 ltac:(lia)) as (X4 & X5 & X6).
      pose proof (e_none _ _ _ _ X3 ltac:(lia) B1) as X7. cbn [enter p_out p_entry] in Y1, Y2, Y3. rewrite Z in Y3. cbn [orb] in Y3.
      rewrite X6, X7, Nat.ltb_irrefl, orb_false_r, Q3, Y3, X4, Q4, Y1, Q2, Y3. auto.
    + assert (Ee : e = []) by (unfold e; destruct (mains is_main (sw_genome o) =? 0); [reflexivity|discriminate]).
      rewrite Ee in E3. subst s3. pose proof (eff_app _ _ _ _ _ _ _ Y X3) as Z.
      assert (N0 : Forall nomain (ll ++ ba)).
      { unfold ll. repeat (apply Forall_app; split); auto; repeat constructor. }
      exists (f :: nn ++ n3). split; [rewrite (e_files _ _ _ _ Z); cbn [enter p_files]; rewrite <- !app_assoc; reflexivity|].
      cbn [filter]. rewrite Hf. split.
      * intros H. destruct (e_0 _ _ _ _ Z H) as (Z1 & Z2 & Z3). pose proof (e_none _ _ _ _ Z H N0) as Z4.
        cbn [enter p_out p_entry] in *. rewrite Z4, Nat.ltb_irrefl, orb_false_r in Z3. auto.
      * intros H X. exact (e_1 _ _ _ _ Z N0 H X).
  - unfold instrumented in El. rewrite Es in El. injection El as <-.
    pose proof (pr_plain _ _ _ _ P f o Es) as Pl.
    assert (Hf : hm f = false).
    { destruct (hm f) eqn:H; [|reflexivity]. apply Main in H. unfold is_instrumented in H. rewrite Es in H. discriminate. }
    assert (Nm : forall d, In d (texts (sw_genome o)) -> m d = false).
    { intros d Hd. unfold has_main in Hf. rewrite Es in Hf. destruct (m d) eqn:Md; [|reflexivity].
      rewrite <- not_true_iff_false in Hf. destruct Hf. apply existsb_exists. eauto. }
    destruct (plain_items _ Pl Nm) as (_ & N0 & _ & Pi). destruct (lines_eff _ IH _ Pi _ _ _ _ E0) as (n1 & Z).
    exists (f :: n1). split; [rewrite (e_files _ _ _ _ Z); cbn [enter p_files]; rewrite <- !app_assoc; reflexivity|].
    cbn [filter]. rewrite Hf. split.
    * intros H. destruct (e_0 _ _ _ _ Z H) as (Z1 & Z2 & Z3). pose proof (e_none _ _ _ _ Z H N0) as Z4.
      cbn [enter p_out p_entry] in *. rewrite Z4, Nat.ltb_irrefl, orb_false_r in Z3. auto.
    * intros H X. exact (e_1 _ _ _ _ Z N0 H X).
Qed.
End Project.
