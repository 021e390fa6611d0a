From Coq Require Import Permutation.
From Verif Require Import BaseProofs Types Compare PredSpec PredProofs Order OrderSpec OrderProofs Flyweight FlyweightSpec.

Definition occ (a : N) (l : list N) : nat := count_occ N.eq_dec l a.
Arguments occ : simpl never.
Lemma occ_app : forall a l m, occ a (l ++ m) = (occ a l + occ a m)%nat.
Proof. intros. apply count_occ_app. Qed.
Lemma occ_cons : forall a b l, occ a (b :: l) = ((if N.eqb b a then 1 else 0) + occ a l)%nat.
Proof. intros. unfold occ. cbn. destruct (N.eq_dec b a) as [->|H]; [rewrite N.eqb_refl; reflexivity|]. apply N.eqb_neq in H. rewrite H. reflexivity. Qed.
Lemma occ_nil : forall a, occ a [] = 0%nat.
Proof. reflexivity. Qed.
Lemma occ_In : forall a l, In a l <-> (0 < occ a l)%nat.
Proof. intros. unfold occ. rewrite (count_occ_In N.eq_dec). lia. Qed.
Lemma occ_perm : forall a l m, Permutation l m -> occ a l = occ a m.
Proof. intros a l m H. revert a. apply (Permutation_count_occ N.eq_dec). assumption. Qed.
Lemma occ_remove_at : forall l i a b, nth_error l i = Some b -> occ a l = ((if N.eqb b a then 1 else 0) + occ a (remove_at l i))%nat.
Proof.
  intros l. induction l as [|x l IH]; intros [|i] a b H; cbn in *; try discriminate.
  - inversion H; subst. apply occ_cons.
  - rewrite !occ_cons. rewrite (IH _ _ _ H). lia.
Qed.

Section P.
Context {T : Type}.
Variable D : T -> Prop.

Implicit Types pool : list (fentry T).
Definition cnt (pool : list (fentry T)) (a : N) : N :=
  match find (fun e => f_adr e =? a) pool with Some e => f_cnt e | None => 0 end.
Definition pool_inv (pool : list (fentry T)) (live : list N) : Prop :=
  NoDup (map f_adr pool) /\ NoDup (map f_val pool) /\ Forall D (map f_val pool) /\
  Forall (fun e => f_cnt e <> 0) pool /\ forall a, cnt pool a = N.of_nat (occ a live).

Lemma cnt_cons : forall e pool a, cnt (e :: pool) a = if f_adr e =? a then f_cnt e else cnt pool a.
Proof. intros. unfold cnt. cbn. destruct (f_adr e =? a); reflexivity. Qed.
Lemma cnt_notin : forall pool a, ~ In a (map f_adr pool) -> cnt pool a = 0.
Proof.
  intros pool a H. induction pool as [|e pool IH]; [reflexivity|]. rewrite cnt_cons. cbn in H.
  destruct (N.eqb_spec (f_adr e) a); [tauto|apply IH; tauto].
Qed.
Lemma get_In : forall pool a v, pool_get pool a = Some v -> exists e, In e pool /\ f_adr e = a /\ f_val e = v.
Proof.
  intros pool a v. induction pool as [|e pool IH]; intro H; cbn in H; [discriminate|]. destruct (N.eqb_spec (f_adr e) a) as [E|E].
  - inversion H; subst. exists e. cbn; auto.
  - destruct (IH H) as (e' & H1 & H2). exists e'. cbn; auto.
Qed.
Lemma In_get : forall pool e, NoDup (map f_adr pool) -> In e pool -> pool_get pool (f_adr e) = Some (f_val e).
Proof.
  intros pool e. induction pool as [|e' pool IH]; intros HN H; [contradiction|]. cbn in *. inversion HN as [|? ? H1 H2]; subst. destruct H as [<-|H].
  - rewrite N.eqb_refl. reflexivity.
  - destruct (N.eqb_spec (f_adr e') (f_adr e)) as [E|E]; [exfalso; apply H1; rewrite E; apply in_map; assumption|auto].
Qed.
Lemma get_adr : forall pool a, (exists v, pool_get pool a = Some v) <-> In a (map f_adr pool).
Proof.
  intros pool a. induction pool as [|e pool IH]; cbn; [split; [intros [v H]; discriminate|contradiction]|].
  destruct (N.eqb_spec (f_adr e) a) as [E|E]; split; intro H; eauto.
  - right. apply IH. assumption.
  - apply IH. tauto.
Qed.

Lemma live_get : forall pool live a, pool_inv pool live -> In a live -> exists v, pool_get pool a = Some v.
Proof.
  intros pool live a (_ & _ & _ & _ & H) HI. apply get_adr. destruct (in_dec N.eq_dec a (map f_adr pool)) as [|Hn]; [assumption|].
  apply cnt_notin in Hn. rewrite H in Hn. apply occ_In in HI. lia.
Qed.
Lemma get_live : forall pool live a v, pool_inv pool live -> pool_get pool a = Some v -> In a live.
Proof.
  intros pool live a v (HN & _ & _ & HC & H) G. apply get_In in G. destruct G as (e & H1 & <- & _). apply occ_In.
  assert (E : cnt pool (f_adr e) <> 0); [|rewrite H in E; lia]. clear H. induction pool as [|x pool IH]; [contradiction|].
  rewrite cnt_cons. inversion HC; subst. inversion HN; subst. destruct H1 as [<-|H1]; [rewrite N.eqb_refl; assumption|].
  destruct (N.eqb_spec (f_adr x) (f_adr e)) as [E|_]; [|auto]. exfalso. apply H4. rewrite E. apply in_map. assumption.
Qed.
Lemma get_inj : forall pool live a b v, pool_inv pool live -> pool_get pool a = Some v -> pool_get pool b = Some v -> a = b.
Proof.
  intros pool live a b v (_ & HN & _) Ga Gb. apply get_In in Ga, Gb. destruct Ga as (e & H1 & <- & Ev), Gb as (e' & H1' & <- & Ev').
  f_equal. clear -HN H1 H1' Ev Ev'. subst. induction pool as [|x pool IH]; [contradiction|]. cbn in HN. inversion HN; subst.
  destruct H1 as [<-|H1], H1' as [<-|H1']; auto; exfalso; apply H2; [rewrite <- Ev'|rewrite Ev']; apply in_map; assumption.
Qed.

Lemma retain_ok : forall pool live a, pool_inv pool live -> In a live ->
  exists pool', retain pool a = Ok pool' /\ map f_val pool' = map f_val pool /\ (forall b, pool_get pool' b = pool_get pool b) /\ pool_inv pool' (a :: live).
Proof.
  intros pool live a HI Ha.
  assert (Hin : In a (map f_adr pool)) by (apply get_adr; eapply live_get; eauto).
  assert (HG : exists pool', retain pool a = Ok pool' /\ map f_val pool' = map f_val pool /\ map f_adr pool' = map f_adr pool /\
     (forall b, pool_get pool' b = pool_get pool b) /\ (forall b, cnt pool' b = cnt pool b + (if a =? b then 1 else 0)) /\
     (Forall (fun e => f_cnt e <> 0) pool -> Forall (fun e => f_cnt e <> 0) pool')).
  { clear -Hin. induction pool as [|e pool IH]; [contradiction|]. cbn [retain].
    destruct (N.eqb_spec (f_adr e) a) as [E|E].
    - eexists. split; [reflexivity|]. subst a. conj_split; try reflexivity.
      + intro b. rewrite !cnt_cons. cbn [f_adr f_cnt]. destruct (f_adr e =? b); lia.
      + intro H. inversion H; subst. constructor; [cbn; lia|assumption].
    - destruct Hin as [Hin|Hin]; [contradiction|]. destruct (IH Hin) as (p' & -> & H1 & H2 & H3 & H4 & H5). cbn [bind]. eexists. split; [reflexivity|].
      conj_split; cbn [map]; try congruence.
      + intro b. cbn. destruct (f_adr e =? b); [reflexivity|apply H3].
      + intro b. rewrite !cnt_cons, H4. destruct (N.eqb_spec (f_adr e) b) as [Eb|Eb]; [|reflexivity]. destruct (N.eqb_spec a b); [congruence|lia].
      + intro H. inversion H; subst. constructor; auto. }
  destruct HG as (p' & E & H1 & H2 & H3 & H4 & H5). exists p'. conj_split; auto. destruct HI as (I1 & I2 & I3 & I4 & I5).
  split; [rewrite H2; assumption|]. split; [rewrite H1; assumption|]. split; [rewrite H1; assumption|]. split; [auto|].
  intro b. rewrite H4, I5, occ_cons. destruct (a =? b); lia.
Qed.

Lemma release_ok : forall pool live a, pool_inv pool (a :: live) ->
  exists pool' d v, release pool a = Ok (pool', d) /\ pool_inv pool' live /\ (forall b, In b live -> pool_get pool' b = pool_get pool b) /\
    pool_get pool a = Some v /\
    (d = None /\ map f_val pool' = map f_val pool \/ d = Some v /\ Permutation (map f_val pool) (v :: map f_val pool') /\ ~ In a live).
Proof.
  intros pool live a HI. destruct (live_get _ _ a HI (or_introl eq_refl)) as (v & Hv).
  assert (Hin : In a (map f_adr pool)) by (apply get_adr; eauto).
  pose proof HI as (I1 & I2 & I3 & I4 & I5).
  assert (HG : exists pool' d, release pool a = Ok (pool', d) /\ (forall b, cnt pool' b = cnt pool b - (if a =? b then 1 else 0)) /\
     (d = None /\ map f_val pool' = map f_val pool /\ map f_adr pool' = map f_adr pool /\ (forall b, pool_get pool' b = pool_get pool b) \/
      d = Some v /\ cnt pool a = 1 /\ Permutation (map f_val pool) (v :: map f_val pool') /\ Permutation (map f_adr pool) (a :: map f_adr pool') /\
      (forall b, b <> a -> pool_get pool' b = pool_get pool b)) /\ Forall (fun e => f_cnt e <> 0) pool').
  { clear I5 HI I2 I3. induction pool as [|e pool IH]; [contradiction|]. cbn [release pool_get] in *. cbn [map] in I1. inversion I1 as [|? ? N1 N2]; subst. inversion I4 as [|? ? C1 C2]; subst.
    destruct (N.eqb_spec (f_adr e) a) as [E|E].
    - inversion Hv; subst. destruct (N.eqb_spec (f_cnt e) 1) as [Ec|Ec].
      + eexists _, _. split; [reflexivity|]. split; [|split; [right; conj_split; auto|assumption]].
        * intro b. rewrite cnt_cons. destruct (N.eqb_spec (f_adr e) b) as [Eb|Eb]; [|lia]. rewrite Ec. rewrite cnt_notin; [reflexivity|congruence].
        * rewrite cnt_cons, N.eqb_refl. assumption.
        * intros b Hb. cbn. destruct (N.eqb_spec (f_adr e) b); [congruence|reflexivity].
      + eexists _, _. split; [reflexivity|]. split; [|split; [left; conj_split; try reflexivity|]].
        * intro b. rewrite !cnt_cons. cbn. destruct (f_adr e =? b); lia.
        * constructor; [cbn; lia|assumption].
    - destruct Hin as [Hin|Hin]; [contradiction|]. destruct (IH Hv Hin N2 C2) as (p' & d & -> & H1 & H2 & H3). cbn [bind]. eexists _, _. split; [reflexivity|].
      assert (Hcnt : forall b, cnt (e :: p') b = cnt (e :: pool) b - (if a =? b then 1 else 0)).
      { intro b. rewrite !cnt_cons, H1. destruct (N.eqb_spec (f_adr e) b) as [Eb|Eb]; [|reflexivity]. destruct (N.eqb_spec a b); [congruence|lia]. }
      split; [exact Hcnt|]. split; [|constructor; assumption].
      destruct H2 as [(-> & H4 & H5 & H6)|(-> & H4 & H5 & H6 & H7)]; [left|right]; conj_split; auto; cbn [map]; try congruence.
      + intro b. cbn. destruct (f_adr e =? b); [reflexivity|apply H6].
      + rewrite cnt_cons. destruct (N.eqb_spec (f_adr e) a); [congruence|assumption].
      + etransitivity; [apply perm_skip; exact H5|apply perm_swap].
      + etransitivity; [apply perm_skip; exact H6|apply perm_swap].
      + intros b Hb. cbn. destruct (f_adr e =? b); [reflexivity|apply H7; assumption]. }
  destruct HG as (p' & d & E & H1 & H2 & H3). exists p', d, v. split; [exact E|].
  assert (Hocc : forall b, cnt p' b = N.of_nat (occ b live)).
  { intro b. rewrite H1, I5, occ_cons. destruct (a =? b); lia. }
  destruct H2 as [(-> & H4 & H5 & H6)|(-> & H4 & H5 & H6 & H7)].
  - split; [split; [rewrite H5; assumption|split; [rewrite H4; assumption|split; [rewrite H4; assumption|split; assumption]]]|].
    conj_split; auto.
  - assert (Hna : ~ In a live).
    { rewrite occ_In. rewrite I5, occ_cons, N.eqb_refl in H4. lia. }
    split; [|split; [intros b Hb; apply H7; congruence|split; [assumption|right; auto]]].
    split; [|split; [|split; [|split; assumption]]].
    + eapply Permutation_NoDup in I1; [|exact H6]. inversion I1; assumption.
    + eapply Permutation_NoDup in I2; [|exact H5]. inversion I2; assumption.
    + eapply Permutation_Forall in I3; [|exact H5]. inversion I3; assumption.
Qed.

Lemma pool_inv_occ : forall pool l m, (forall a, occ a l = occ a m) -> pool_inv pool l -> pool_inv pool m.
Proof. intros pool l m H (I1 & I2 & I3 & I4 & I5). conj_split; auto. split; [|split; [|split; [|split]]]; auto. intro a. rewrite <- H. apply I5. Qed.

Lemma retain_all_ok : forall l pool live, pool_inv pool live -> (forall a, In a l -> In a live) ->
  exists pool', retain_all pool l = Ok pool' /\ map f_val pool' = map f_val pool /\ (forall b, pool_get pool' b = pool_get pool b) /\ pool_inv pool' (l ++ live).
Proof.
  intros l. induction l as [|a l IH]; intros pool live HI Hl; cbn [retain_all].
  - exists pool. conj_split; auto.
  - destruct (retain_ok pool live a HI (Hl a (or_introl eq_refl))) as (p & -> & E1 & E2 & E3). cbn [bind].
    destruct (IH p (a :: live) E3) as (p' & -> & F1 & F2 & F3); [intros b Hb; right; apply Hl; right; assumption|].
    exists p'. split; [reflexivity|]. split; [congruence|]. split.
    + intro b. rewrite F2. apply E2.
    + eapply pool_inv_occ; [|exact F3]. intro b. rewrite !occ_app, !occ_cons, ?occ_app. lia.
Qed.
Lemma release_all_ok : forall l pool live, pool_inv pool (l ++ live) ->
  exists pool', release_all pool l = Ok pool' /\ pool_inv pool' live /\ (forall b, In b live -> pool_get pool' b = pool_get pool b).
Proof.
  intros l. induction l as [|a l IH]; intros pool live HI; cbn [release_all].
  - exists pool. auto.
  - destruct (release_ok pool (l ++ live) a HI) as (p & d & v & -> & E1 & E2 & _). cbn [bind]. destruct (IH p live E1) as (p' & -> & F1 & F2).
    exists p'. conj_split; auto. intros b Hb. rewrite F2 by assumption. apply E2. apply in_app_iff. auto.
Qed.

Section Find.
Variables (eq : T -> T -> bool) (h : T -> N).
Hypothesis Heq : forall x y, D x -> D y -> (eq x y = true <-> x = y).
Lemma find_ok : forall pool v, Forall D (map f_val pool) -> D v ->
  match pool_find eq h pool v with Some e => In e pool /\ f_val e = v | None => ~ In v (map f_val pool) end.
Proof.
  intros pool v HF Hv. unfold pool_find. destruct (find _ pool) as [e|] eqn:E.
  - apply find_some in E. destruct E as [H1 H2]. split; [assumption|]. apply andb_true_iff in H2. destruct H2 as [_ H2]. rewrite Forall_forall in HF.
    apply Heq; auto. apply HF. apply in_map. assumption.
  - intro HI. apply in_map_iff in HI. destruct HI as (e & <- & HI). apply (find_none _ _ E) in HI. rewrite N.eqb_refl in HI. cbn in HI.
    assert (eq (f_val e) (f_val e) = true) by (apply Heq; auto). congruence.
Qed.

Lemma intern_ok : forall new pool live v, (forall l, ~ In (new l) l) -> pool_inv pool live -> D v ->
  exists pool' a fresh, intern eq h new pool v = Ok (pool', a, fresh) /\ pool_inv pool' (a :: live) /\ pool_get pool' a = Some v /\
    (forall b w, pool_get pool b = Some w -> pool_get pool' b = Some w) /\
    (fresh = false /\ map f_val pool' = map f_val pool \/ fresh = true /\ map f_val pool' = v :: map f_val pool).
Proof.
  intros new pool live v Hnew HI Hv. unfold intern. pose proof HI as (I1 & I2 & I3 & I4 & I5). pose proof (find_ok pool v I3 Hv) as HF.
  destruct (pool_find eq h pool v) as [e|].
  - destruct HF as [H1 H2]. pose proof (In_get _ _ I1 H1) as G. pose proof (get_live _ _ _ _ HI G) as HL.
    destruct (retain_ok _ _ _ HI HL) as (p' & -> & E1 & E2 & E3). cbn [bind]. eexists _, _, _. split; [reflexivity|]. split; [exact E3|].
    split; [rewrite E2, G; congruence|]. split; [intros b w Hb; rewrite E2; assumption|]. left. auto.
  - set (a := new (map f_adr pool)). assert (Ha : ~ In a (map f_adr pool)) by apply Hnew.
    eexists _, _, _. split; [reflexivity|]. split; [|split; [cbn; rewrite N.eqb_refl; reflexivity|split; [|right; auto]]].
    + split; [cbn [map]; constructor; assumption|]. split; [cbn [map]; constructor; assumption|]. split; [cbn [map]; constructor; assumption|].
      split; [constructor; [cbn; lia|assumption]|]. intro b. rewrite cnt_cons, occ_cons. cbn [f_adr f_cnt].
      destruct (N.eqb_spec a b) as [E|E]; [|rewrite I5; lia]. subst b. specialize (I5 a).
      rewrite (cnt_notin _ _ Ha) in I5. lia.
    + intros b w Hb. cbn. destruct (N.eqb_spec a b) as [E|E]; [|assumption]. exfalso. apply Ha. rewrite E. apply get_adr. eauto.
Qed.

End Find.
End P.

(** ** The two-level machine *)
Lemma sdata_eqb_iff : forall a b, sdata_eqb a b = true <-> a = b.
Proof.
  intros [a b c] [a' b' c']. unfold sdata_eqb. cbn. rewrite !andb_true_iff, (list_eqb_iff _ _ bufsz_eqb_iff), !(list_eqb_iff _ _ N.eqb_eq).
  split; [intros [[-> ->] ->]; reflexivity|intro H; inversion H; auto].
Qed.

Definition refs (vals : list sdata) : list N := flat_map sd_vars vals.

(** Entry a of the data pool denotes d. *)
Definition denotes (s : shared) (a : N) (d : sdval) : Prop :=
  exists l, pool_get (sh_dp s) a = Some (mkSD (dv_sizes d) l (dv_aux d)) /\ Forall2 (fun b v => pool_get (sh_vp s) b = Some v) l (dv_vars d).

Definition minv (s : shared) (p : plain) : Prop :=
  pool_inv var_ok (sh_vp s) (sh_vars s ++ refs (map f_val (sh_dp s))) /\
  pool_inv anyD (sh_dp s) (sh_data s) /\
  Forall2 (fun a v => pool_get (sh_vp s) a = Some v) (sh_vars s) (pl_vars p) /\
  Forall2 (denotes s) (sh_data s) (pl_data p).

Lemma F2_nth : forall A B (R : A -> B -> Prop) l m i y, Forall2 R l m -> nth_error m i = Some y -> exists x, nth_error l i = Some x /\ R x y.
Proof.
  intros A B R l m i y H. revert i. induction H; intros [|i] E; cbn in *; try discriminate; eauto. inversion E; subst; eauto.
Qed.
Lemma F2_remove : forall A B (R : A -> B -> Prop) l m i, Forall2 R l m -> Forall2 R (remove_at l i) (remove_at m i).
Proof. intros A B R l m i H. revert i. induction H; intros [|i]; cbn; auto. Qed.
Lemma F2_pick : forall A B (R : A -> B -> Prop) l m is ys, Forall2 R l m -> pick_all m is = Some ys -> exists xs, pick_all l is = Some xs /\ Forall2 R xs ys /\ forall x, In x xs -> In x l.
Proof.
  intros A B R l m is. induction is as [|i is IH]; intros ys H E; cbn in E.
  - inversion E; subst. exists []. conj_split; cbn; auto. contradiction.
  - destruct (nth_error m i) as [y|] eqn:En; [|discriminate]. destruct (pick_all m is) as [ys'|]; [|discriminate]. inversion E; subst.
    destruct (F2_nth _ _ _ _ _ _ _ H En) as (x & Ex & HR). destruct (IH _ H eq_refl) as (xs & Exs & H1 & H2).
    exists (x :: xs). cbn. rewrite Ex, Exs. conj_split; auto. intros z [<-|Hz]; [eapply nth_error_In; eauto|auto].
Qed.
Lemma F2_app1 : forall A B (R : A -> B -> Prop) l m x y, Forall2 R l m -> R x y -> Forall2 R (l ++ [x]) (m ++ [y]).
Proof. intros. apply Forall2_app; auto. Qed.
Lemma F2_imp : forall A B (R S : A -> B -> Prop) l m, Forall2 R l m -> (forall x y, In x l -> R x y -> S x y) -> Forall2 S l m.
Proof. intros A B R S l m H. induction H; intros HI; constructor; cbn in *; auto. Qed.

Lemma refs_In : forall vals d a, In d vals -> In a (sd_vars d) -> In a (refs vals).
Proof. intros. apply in_flat_map. eauto. Qed.

Section M.
Variables (new : list N -> N) (hv : var -> N) (hd : sdata -> N).
Hypothesis Hnew : forall l, ~ In (new l) l.
Notation venv := (var_eqb_ok).

Lemma vHeq : forall x y, var_ok x -> var_ok y -> (var_eqb x y = true <-> x = y).
Proof. intros. apply var_eqb_ok; assumption. Qed.
Lemma dHeq : forall x y, anyD x -> anyD y -> (sdata_eqb x y = true <-> x = y).
Proof. intros. apply sdata_eqb_iff. Qed.

(** The data pool is unchanged and the variable pool keeps what is referenced. *)
Lemma denotes_mono : forall s vp' cv cd a d, denotes s a d ->
  (forall b v, In b (refs (map f_val (sh_dp s))) -> pool_get (sh_vp s) b = Some v -> pool_get vp' b = Some v) -> denotes (mkSh vp' (sh_dp s) cv cd) a d.
Proof.
  intros s vp' cv cd a d (l & H1 & H2) H. exists l. cbn. split; [assumption|]. eapply F2_imp; [exact H2|]. intros b v Hb Hv. apply H; auto.
  apply get_In in H1. destruct H1 as (e & He & _ & Ev). apply refs_In with (d := f_val e); [apply in_map; assumption|]. rewrite Ev. assumption.
Qed.

Lemma step_ok : forall s p o p', minv s p -> Forall var_ok (created [o]) -> step_plain p o = Some p' ->
  exists s', step_shared new hv hd s o = Ok s' /\ minv s' p'.
Proof.
  intros [vp dp cv cd] [pv pd] o p' (V & Dp & RV & RD) HC HS. cbn [sh_vp sh_dp sh_vars sh_data pl_vars pl_data] in *.
  destruct o as [v|i|i|sizes is aux|i|i|i j]; cbn [step_plain step_shared sh_vp sh_dp sh_vars sh_data pl_vars pl_data] in *.
  - inversion HS; subst. clear HS. cbn in HC. inversion HC; subst.
    destruct (intern_ok var_ok var_eqb hv vHeq new vp _ v Hnew V H1) as (vp' & a & fr & -> & V' & G & K & _). cbn [bind].
    eexists. split; [reflexivity|]. split; [|split; [exact Dp|split]]; cbn [sh_vp sh_dp sh_vars sh_data pl_vars pl_data].
    + eapply pool_inv_occ; [|exact V']. intro b. rewrite occ_cons, !occ_app, occ_cons, ?occ_nil. lia.
    + apply F2_app1; [|assumption]. eapply F2_imp; [exact RV|]. intros. apply K. assumption.
    + eapply F2_imp; [exact RD|]. intros x y _ Hxy. eapply (denotes_mono (mkSh vp dp cv cd)); [exact Hxy|]. intros. apply K. assumption.
  - destruct (nth_error pv i) as [v|] eqn:En; [|discriminate]. inversion HS; subst. clear HS.
    destruct (F2_nth _ _ _ _ _ _ _ RV En) as (a & Ea & Ga). rewrite Ea.
    assert (Hin : In a (cv ++ refs (map f_val dp))) by (apply in_app_iff; left; eapply nth_error_In; eauto).
    destruct (retain_ok var_ok vp _ a V Hin) as (vp' & -> & E1 & E2 & V'). cbn [bind]. eexists. split; [reflexivity|].
    split; [|split; [exact Dp|split]]; cbn [sh_vp sh_dp sh_vars sh_data pl_vars pl_data].
    + eapply pool_inv_occ; [|exact V']. intro b. rewrite occ_cons, !occ_app, occ_cons, ?occ_nil. lia.
    + apply F2_app1; [|rewrite E2; assumption]. eapply F2_imp; [exact RV|]. intros. rewrite E2. assumption.
    + eapply F2_imp; [exact RD|]. intros x y _ Hxy. eapply (denotes_mono (mkSh vp dp cv cd)); [exact Hxy|]. intros. cbn in *. rewrite E2. assumption.
  - destruct (nth_error pv i) as [v|] eqn:En; [|discriminate]. inversion HS; subst. clear HS.
    destruct (F2_nth _ _ _ _ _ _ _ RV En) as (a & Ea & Ga). rewrite Ea.
    assert (V0 : pool_inv var_ok vp (a :: remove_at cv i ++ refs (map f_val dp))).
    { eapply pool_inv_occ; [|exact V]. intro b. rewrite occ_cons, !occ_app, (occ_remove_at _ _ b _ Ea). lia. }
    destruct (release_ok var_ok vp _ a V0) as (vp' & d & w & -> & V' & K & _). cbn [bind]. eexists. split; [reflexivity|].
    split; [exact V'|split; [exact Dp|split]]; cbn [sh_vp sh_dp sh_vars sh_data pl_vars pl_data].
    + eapply F2_imp; [apply F2_remove; exact RV|]. intros x y Hx Hxy. rewrite K; [assumption|]. apply in_app_iff. auto.
    + eapply F2_imp; [exact RD|]. intros x y _ Hxy. eapply (denotes_mono (mkSh vp dp cv cd)); [exact Hxy|]. intros b v' Hb Hv'. cbn in *. rewrite K; [assumption|].
      apply in_app_iff. auto.
  - destruct (pick_all pv is) as [vs|] eqn:Ep; [|discriminate]. inversion HS; subst. clear HS.
    destruct (F2_pick _ _ _ _ _ _ _ RV Ep) as (l & -> & Hl & Hin).
    destruct (intern_ok anyD sdata_eqb hd dHeq new dp _ (mkSD sizes l aux) Hnew Dp I) as (dp' & a & fr & -> & D' & G & K & HV). cbn [bind].
    assert (HX : exists vp', (if fr then retain_all vp l else Ok vp) = Ok vp' /\ pool_inv var_ok vp' (cv ++ refs (map f_val dp')) /\ forall b, pool_get vp' b = pool_get vp b).
    { destruct HV as [[-> ->]|[-> ->]].
      - exists vp. auto.
      - destruct (retain_all_ok var_ok l vp _ V) as (vp' & -> & E1 & E2 & V'); [intros b Hb; apply in_app_iff; auto|]. exists vp'. conj_split; auto.
        eapply pool_inv_occ; [|exact V']. intro b. cbn [refs flat_map sd_vars]. rewrite !occ_app. unfold refs. lia. }
    destruct HX as (vp' & -> & V' & E2). cbn [bind]. eexists. split; [reflexivity|]. split; [exact V'|]. cbn [sh_vp sh_dp sh_vars sh_data pl_vars pl_data].
    split; [|split].
    + eapply pool_inv_occ; [|exact D']. intro b. rewrite occ_cons, occ_app, occ_cons, ?occ_nil. lia.
    + eapply F2_imp; [exact RV|]. intros. rewrite E2. assumption.
    + apply F2_app1.
      * eapply F2_imp; [exact RD|]. intros x y _ (l' & H1 & H2). exists l'. cbn. split; [apply K; assumption|]. eapply F2_imp; [exact H2|]. intros. rewrite E2. assumption.
      * exists l. cbn. split; [assumption|]. eapply F2_imp; [exact Hl|]. intros. rewrite E2. assumption.
  - destruct (nth_error pd i) as [d|] eqn:En; [|discriminate]. inversion HS; subst. clear HS.
    destruct (F2_nth _ _ _ _ _ _ _ RD En) as (a & Ea & Ga). rewrite Ea.
    destruct (retain_ok anyD dp _ a Dp (nth_error_In _ _ Ea)) as (dp' & -> & E1 & E2 & D'). cbn [bind]. eexists. split; [reflexivity|].
    split; [cbn [sh_vp sh_dp sh_vars]; rewrite E1; exact V|]. cbn [sh_vp sh_dp sh_vars sh_data pl_vars pl_data]. split; [|split; [exact RV|]].
    + eapply pool_inv_occ; [|exact D']. intro b. rewrite occ_cons, occ_app, occ_cons, ?occ_nil. lia.
    + assert (HD : forall x y, denotes (mkSh vp dp cv cd) x y -> denotes (mkSh vp dp' cv (cd ++ [a])) x y).
      { intros x y (l & H1 & H2). exists l. cbn in *. rewrite E2. auto. }
      apply F2_app1; [|apply HD; assumption]. eapply F2_imp; [exact RD|]. auto.
  - destruct (nth_error pd i) as [d|] eqn:En; [|discriminate]. inversion HS; subst. clear HS.
    destruct (F2_nth _ _ _ _ _ _ _ RD En) as (a & Ea & Ga). rewrite Ea.
    assert (D0 : pool_inv anyD dp (a :: remove_at cd i)).
    { eapply pool_inv_occ; [|exact Dp]. intro b. rewrite occ_cons, (occ_remove_at _ _ b _ Ea). lia. }
    destruct (release_ok anyD dp _ a D0) as (dp' & dead & w & -> & D' & K & Gw & HV). cbn [bind].
    assert (HX : exists vp', match dead with Some d => release_all vp (sd_vars d) | None => Ok vp end = Ok vp' /\ pool_inv var_ok vp' (cv ++ refs (map f_val dp')) /\
       forall b, In b (cv ++ refs (map f_val dp')) -> pool_get vp' b = pool_get vp b).
    { destruct HV as [[-> E]|(-> & E & _)].
      - exists vp. rewrite E. auto.
      - assert (V0 : pool_inv var_ok vp (sd_vars w ++ cv ++ refs (map f_val dp'))).
        { eapply pool_inv_occ; [|exact V]. intro b. rewrite !occ_app.
          rewrite (occ_perm b (refs (map f_val dp)) (refs (w :: map f_val dp'))) by (apply Permutation_flat_map; assumption).
          cbn [refs flat_map]. rewrite occ_app. unfold refs. lia. }
        destruct (release_all_ok var_ok _ _ _ V0) as (vp' & -> & V' & K'). exists vp'. auto. }
    destruct HX as (vp' & -> & V' & K'). cbn [bind]. eexists. split; [reflexivity|]. split; [exact V'|]. cbn [sh_vp sh_dp sh_vars sh_data pl_vars pl_data].
    split; [exact D'|]. split.
    + eapply F2_imp; [exact RV|]. intros x y Hx Hxy. rewrite K'; [assumption|]. apply in_app_iff. auto.
    + eapply F2_imp; [apply F2_remove; exact RD|]. intros x y Hx (l & H1 & H2). cbn in *. exists l. cbn. rewrite K by assumption. split; [assumption|].
      eapply F2_imp; [exact H2|]. intros b v Hb Hv. rewrite K'; [assumption|]. apply in_app_iff. right.
      rewrite <- (K x Hx) in H1. apply get_In in H1. destruct H1 as (e & He & _ & Ev). apply refs_In with (d := f_val e); [apply in_map; assumption|]. rewrite Ev. assumption.
  - destruct (nth_error pd i) as [d|] eqn:En; [|discriminate]. destruct (nth_error (dv_vars d) j) as [v|] eqn:Ej; [|discriminate]. inversion HS; subst. clear HS.
    destruct (F2_nth _ _ _ _ _ _ _ RD En) as (a & Ea & (l & Ga & Gl)). cbn [sh_vp sh_dp] in *. rewrite Ea, Ga. cbn [sd_vars].
    destruct (F2_nth _ _ _ _ _ _ _ Gl Ej) as (b & Eb & Gb). rewrite Eb.
    assert (Hin : In b (cv ++ refs (map f_val dp))).
    { apply in_app_iff. right. apply get_In in Ga. destruct Ga as (e & He & _ & Ev). apply refs_In with (d := f_val e); [apply in_map; assumption|]. rewrite Ev. eapply nth_error_In; eauto. }
    destruct (retain_ok var_ok vp _ b V Hin) as (vp' & -> & E1 & E2 & V'). cbn [bind]. eexists. split; [reflexivity|].
    split; [|split; [exact Dp|split]]; cbn [sh_vp sh_dp sh_vars sh_data pl_vars pl_data].
    + eapply pool_inv_occ; [|exact V']. intro c. rewrite occ_cons, !occ_app, occ_cons, ?occ_nil. lia.
    + apply F2_app1; [|rewrite E2; assumption]. eapply F2_imp; [exact RV|]. intros. rewrite E2. assumption.
    + eapply F2_imp; [exact RD|]. intros x y _ Hxy. eapply (denotes_mono (mkSh vp dp cv cd)); [exact Hxy|]. intros. cbn in *. rewrite E2. assumption.
Qed.

Lemma run_ok : forall ops s p p', minv s p -> Forall var_ok (created ops) -> run_plain p ops = Some p' ->
  exists s', run_shared new hv hd s ops = Ok s' /\ minv s' p'.
Proof.
  intros ops. induction ops as [|o ops IH]; intros s p p' HI HC H; cbn [run_plain run_shared] in *.
  - inversion H; subst. eauto.
  - destruct (step_plain p o) as [p1|] eqn:E; [|discriminate].
    assert (HC' : Forall var_ok (created [o]) /\ Forall var_ok (created ops)).
    { replace (created (o :: ops)) with (created [o] ++ created ops) in HC by (unfold created; cbn; rewrite app_nil_r; reflexivity). apply Forall_app in HC. assumption. }
    destruct HC' as [H1 H2]. destruct (step_ok _ _ _ _ HI H1 E) as (s1 & -> & HI1). cbn [bind]. eapply IH; eauto.
Qed.
End M.

Lemma minv_empty : minv (mkSh [] [] [] []) (mkPl [] []).
Proof.
  split; [|split; [|split; constructor]]; (split; [constructor|]; split; [constructor|]; split; [constructor|]; split; [constructor|]; reflexivity).
Qed.

Lemma see_vars_ok : forall vp l vs, Forall2 (fun b v => pool_get vp b = Some v) l vs -> see_vars vp l = Ok vs.
Proof. intros vp l vs H. induction H; cbn; [reflexivity|]. unfold see_vars in IHForall2. rewrite IHForall2. cbn. rewrite H. reflexivity. Qed.
Lemma see_data_ok : forall s a d, denotes s a d -> see_data s a = Ok d.
Proof. intros s a [sz vs ax] (l & H1 & H2). unfold see_data. rewrite H1. cbn [sd_vars sd_sizes sd_aux dv_sizes dv_vars dv_aux] in *. rewrite (see_vars_ok _ _ _ H2). reflexivity. Qed.

(** Same address iff same value. *)
Lemma denotes_inj : forall s p a b d e, minv s p -> denotes s a d -> denotes s b e -> (a = b <-> d = e).
Proof.
  intros s p a b d e (V & Dp & _) (l & H1 & H2) (m & H3 & H4). split.
  - intros <-. rewrite H1 in H3. inversion H3; subst. destruct d, e; cbn in *. subst. f_equal. apply see_vars_ok in H2, H4. congruence.
  - intros <-. assert (l = m); [|subst; eapply get_inj; eauto]. clear -V H2 H4. revert m H4. induction H2; intros m H4; inversion H4; subst; [reflexivity|].
    f_equal; [eapply get_inj; eauto|auto].
Qed.
