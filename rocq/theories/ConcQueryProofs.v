From Verif Require Import Base Types Compare Predicate Query ConcQuery ConcQuerySpec.

Lemma qkey_eqb_eq : forall a b, qkey_eqb a b = true <-> a = b.
Proof.
  intros [t [m s]] [t' [m' s']]. unfold qkey_eqb. cbn.
  rewrite !Bool.andb_true_iff, Nat.eqb_eq, !N.eqb_eq. split.
  - intros [-> [-> ->]]. reflexivity.
  - intros E. inversion E. auto.
Qed.
Lemma qkey_eqb_refl : forall a, qkey_eqb a a = true.
Proof. intros. apply qkey_eqb_eq. reflexivity. Qed.
Lemma qkey_eqb_neq : forall a b, a <> b -> qkey_eqb a b = false.
Proof. intros a b H. destruct (qkey_eqb a b) eqn:E; [apply qkey_eqb_eq in E; contradiction|reflexivity]. Qed.
Lemma qkey_dec : forall a b : qkey, {a = b} + {a <> b}.
Proof. intros a b. destruct (qkey_eqb a b) eqn:E; [left; apply qkey_eqb_eq; exact E|right; intros ->; rewrite qkey_eqb_refl in E; discriminate]. Qed.

Lemma find_set_same : forall m k v, map_find (map_set m k v) k = Some v.
Proof.
  induction m as [|[k' v'] m IH]; intros k v; cbn.
  - rewrite qkey_eqb_refl. reflexivity.
  - destruct (qkey_eqb k' k) eqn:E; cbn; rewrite E; [reflexivity|apply IH].
Qed.
Lemma find_set_other : forall m k v k', k' <> k -> map_find (map_set m k v) k' = map_find m k'.
Proof.
  induction m as [|[k0 v0] m IH]; intros k v k' H; cbn.
  - rewrite (qkey_eqb_neq k k') by auto. reflexivity.
  - destruct (qkey_eqb k0 k) eqn:E; cbn.
    + apply qkey_eqb_eq in E. subst k0. rewrite (qkey_eqb_neq k k') by auto. reflexivity.
    + destruct (qkey_eqb k0 k'); [reflexivity|apply IH; exact H].
Qed.

Lemma set_at_len : forall A (l : list A) i x, length (set_at l i x) = length l.
Proof. induction l as [|y l IH]; intros [|i] x; cbn; try rewrite IH; reflexivity. Qed.
Lemma set_at_same : forall A (l : list A) i x y, nth_error l i = Some y -> nth_error (set_at l i x) i = Some x.
Proof. induction l as [|z l IH]; intros [|i] x y H; cbn in *; try discriminate; [reflexivity|eapply IH; exact H]. Qed.
Lemma set_at_other : forall A (l : list A) i j x, i <> j -> nth_error (set_at l i x) j = nth_error l j.
Proof. induction l as [|z l IH]; intros [|i] [|j] x H; cbn; try reflexivity; try congruence. apply IH. congruence. Qed.

Definition same_but (k : qkey) (sh sh' : cshared) : Prop :=
  forall k', k' <> k -> map_find (cs_map sh') k' = map_find (cs_map sh) k' /\
    forall v, map_find (cs_map sh) k' = Some v -> buffer sh' (vc_buf v) = buffer sh (vc_buf v).
Definition holds (sh : cshared) (k : qkey) (l : list pt) : Prop :=
  exists v, map_find (cs_map sh) k = Some v /\ buffer sh (vc_buf v) = Some l /\ vc_len v = length l.
Definition own_bufs (sh : cshared) : Prop :=
  forall k k' v v', map_find (cs_map sh) k = Some v -> map_find (cs_map sh) k' = Some v' -> vc_buf v = vc_buf v' -> k = k'.
Definition good (sh : cshared) : Prop :=
  own_bufs sh /\ forall k v, map_find (cs_map sh) k = Some v -> exists l, buffer sh (vc_buf v) = Some l /\ vc_len v = length l.

Lemma buffer_lt : forall sh b l, buffer sh b = Some l -> (b < length (cs_bufs sh))%nat.
Proof.
  intros sh b l H. unfold buffer in H. apply nth_error_Some. destruct (nth_error (cs_bufs sh) b); [discriminate|discriminate H].
Qed.

(* change of one entry of the cache *)
Lemma change_entry : forall sh k v bufs l,
  good sh ->
  nth_error bufs (vc_buf v) = Some (Some l) -> vc_len v = length l ->
  (forall k' v', k' <> k -> map_find (cs_map sh) k' = Some v' -> vc_buf v' <> vc_buf v /\ nth_error bufs (vc_buf v') = nth_error (cs_bufs sh) (vc_buf v')) ->
  good (mkCS (map_set (cs_map sh) k v) bufs) /\ holds (mkCS (map_set (cs_map sh) k v) bufs) k l /\
  same_but k sh (mkCS (map_set (cs_map sh) k v) bufs).
Proof.
  intros sh k v bufs l [OW G] HB HL HF.
  assert (S : same_but k sh (mkCS (map_set (cs_map sh) k v) bufs)).
  { intros k' Hk. cbn. split; [apply find_set_other; exact Hk|]. intros v' Hv.
    unfold buffer. cbn. destruct (HF _ _ Hk Hv) as [_ ->]. reflexivity. }
  split; [split|split].
  - intros k1 k2 v1 v2 H1 H2 E. cbn in H1, H2.
    destruct (qkey_dec k1 k) as [->|N1], (qkey_dec k2 k) as [->|N2]; try reflexivity.
    + rewrite find_set_same in H1. injection H1 as <-. rewrite find_set_other in H2 by exact N2.
      destruct (HF _ _ N2 H2) as [X _]. congruence.
    + rewrite find_set_same in H2. injection H2 as <-. rewrite find_set_other in H1 by exact N1.
      destruct (HF _ _ N1 H1) as [X _]. congruence.
    + rewrite find_set_other in H1 by exact N1. rewrite find_set_other in H2 by exact N2. eapply OW; eauto.
  - intros k1 v1 H1. destruct (qkey_dec k1 k) as [->|N1].
    + cbn in H1. rewrite find_set_same in H1. injection H1 as <-. exists l. unfold buffer. cbn. rewrite HB. auto.
    + destruct (S k1 N1) as [E1 E2]. rewrite E1 in H1. rewrite (E2 _ H1). apply (G k1). exact H1.
  - exists v. cbn. rewrite find_set_same. unfold buffer. cbn. rewrite HB. auto.
  - exact S.
Qed.

Lemma push_point_good : forall grow sh k p l, good sh -> holds sh k l ->
  exists sh', push_point grow sh k p = Some sh' /\ good sh' /\ holds sh' k (l ++ [p]) /\ same_but k sh sh'.
Proof.
  intros grow sh k p l G (v & HF & HB & HL). pose proof (buffer_lt _ _ _ HB) as LT.
  assert (HN : nth_error (cs_bufs sh) (vc_buf v) = Some (Some l)).
  { unfold buffer in HB. destruct (nth_error (cs_bufs sh) (vc_buf v)) as [[x|]|]; congruence. }
  assert (D : forall k' v', k' <> k -> map_find (cs_map sh) k' = Some v' -> vc_buf v <> vc_buf v').
  { intros k' v' Hk Hv E. apply Hk. symmetry. eapply (proj1 G); eauto. }
  unfold push_point. rewrite HF, HB. rewrite HL, firstn_all.
  destruct (Nat.ltb (length l) (vc_cap v)).
  - eexists. split; [reflexivity|]. apply change_entry; cbn.
    + exact G.
    + eapply set_at_same. exact HN.
    + rewrite app_length. cbn. lia.
    + intros k' v' Hk Hv. pose proof (D _ _ Hk Hv). split; [congruence|]. apply set_at_other. congruence.
  - eexists. split; [reflexivity|]. apply change_entry; cbn.
    + exact G.
    + rewrite nth_error_app2; rewrite set_at_len; [|lia]. rewrite Nat.sub_diag. reflexivity.
    + rewrite app_length. cbn. lia.
    + intros k' v' Hk Hv. pose proof (D _ _ Hk Hv) as Hd. destruct (proj2 G _ _ Hv) as (l' & HB' & _).
      pose proof (buffer_lt _ _ _ HB'). split; [lia|].
      rewrite nth_error_app1 by (rewrite set_at_len; lia). apply set_at_other. congruence.
Qed.

Lemma insert_good : forall sh k, good sh ->
  let bufs := match map_find (cs_map sh) k with Some v => set_at (cs_bufs sh) (vc_buf v) None | None => cs_bufs sh end in
  let sh' := mkCS (map_set (cs_map sh) k (mkVec (length bufs) 0 0)) (bufs ++ [Some []]) in
  good sh' /\ holds sh' k [] /\ same_but k sh sh'.
Proof.
  intros sh k G bufs sh'. apply change_entry; cbn.
  - exact G.
  - rewrite nth_error_app2 by lia. rewrite Nat.sub_diag. reflexivity.
  - reflexivity.
  - intros k' v' Hk Hv. destruct (proj2 G _ _ Hv) as (l' & HB' & _). pose proof (buffer_lt _ _ _ HB') as LT.
    assert (LEN : length bufs = length (cs_bufs sh)).
    { unfold bufs. destruct (map_find (cs_map sh) k); [apply set_at_len|reflexivity]. }
    split; [lia|]. rewrite nth_error_app1 by lia. unfold bufs. destruct (map_find (cs_map sh) k) as [v|] eqn:E; [|reflexivity].
    apply set_at_other. intros X. apply Hk. symmetry. eapply (proj1 G); eauto.
Qed.

Lemma holds_frame : forall k k' sh sh' l, same_but k sh sh' -> k' <> k -> holds sh k' l -> holds sh' k' l.
Proof.
  intros k k' sh sh' l S Hk (v & HF & HB & HL). destruct (S k' Hk) as [E1 E2]. exists v.
  rewrite E1, (E2 _ HF). auto.
Qed.
Lemma holds_fun : forall sh k l l', holds sh k l -> holds sh k l' -> l = l'.
Proof. intros sh k l l' (v & HF & HB & _) (v' & HF' & HB' & _). congruence. Qed.

Section Run.
Variable grow : nat -> nat.
Variable points : nat -> list pt.
Variable ok : N -> bool.
Variable pick : N -> N -> N.
Variable O : fops.

Definition sel (c : qcall) (ps : list pt) : list pt :=
  filter (fun p => N.land (p_stmt p) (q_mask (snd c)) =? q_stmt (snd c)) ps.

Lemma selected_key : forall c d, key_of c = key_of d -> selected points c = selected points d.
Proof. intros [t q] [t' q'] E. unfold key_of in E. cbn in E. injection E as -> E1 E2. unfold selected. cbn. rewrite E1, E2. reflexivity. Qed.

Lemma alone_selected : forall c, alone ok pick O points c = on_points ok pick O (snd c) (selected points c).
Proof.
  intros [t q]. unfold alone, run_query, query, on_points, selected, get_points. cbn [fst snd].
  change (cache_find [] (q_mask q, q_stmt q)) with (@None (list pt)). cbv beta iota zeta.
  destruct (q_seed q =? 0).
  - destruct (collect_all _ _ _ _ _ _ _ _) as [[? ?]| | | |]; reflexivity.
  - destruct (filter _ (points t)) as [|a l]; [reflexivity|].
    destruct (nthN _ _); [|reflexivity]. destruct (collect _ _ _ _ _ _ _ _) as [[? ?]| | | |]; reflexivity.
Qed.

(* what holds for a thread *)
Definition tinv (sh : cshared) (c : qcall) (s : qstate) : Prop :=
  match s with
  | QFind => True
  | QInsert => map_find (cs_map sh) (key_of c) = None
  | QFill rest => exists l, holds sh (key_of c) l /\ l ++ sel c rest = selected points c
  | QRef => holds sh (key_of c) (selected points c)
  | QCopy b n i got => holds sh (key_of c) (selected points c) /\
      (exists v, map_find (cs_map sh) (key_of c) = Some v /\ b = vc_buf v) /\
      n = length (selected points c) /\ (i <= n)%nat /\ got = firstn i (selected points c)
  | QEval ps => ps = selected points c
  | QDone o => o = alone ok pick O points c
  | QCrash _ => False
  end.
Definition inv (st : qsystem) : Prop :=
  good (fst st) /\
  (forall i c s, nth_error (snd st) i = Some (c, s) -> tinv (fst st) c s) /\
  (forall c l, holds (fst st) (key_of c) l ->
     l = selected points c \/ exists i d r, nth_error (snd st) i = Some (d, QFill r) /\ key_of d = key_of c).

(* other threads are not disturbed by a change of an entry *)
Lemma tinv_frame : forall k sh sh' c s, same_but k sh sh' -> key_of c <> k -> tinv sh c s -> tinv sh' c s.
Proof.
  intros k sh sh' c s S Hk T. destruct s; cbn in *; auto.
  - destruct (S _ Hk) as [-> _]. exact T.
  - destruct T as (l & H & E). exists l. split; [eapply holds_frame; eauto|exact E].
  - eapply holds_frame; eauto.
  - destruct T as (H & (v & HF & ->) & R). split; [eapply holds_frame; eauto|]. split; [|exact R].
    exists v. destruct (S _ Hk) as [-> _]. auto.
Qed.
(* a thread that neither makes nor reads an entry does not depend on the cache *)
Lemma tinv_idle : forall sh sh' c s, ~ making s -> ~ reading s -> tinv sh c s -> tinv sh' c s.
Proof.
  intros sh sh' c s M R T. destruct s; cbn in *; auto.
  - destruct M. left. reflexivity.
  - destruct M. right. eauto.
  - destruct R. left. reflexivity.
  - destruct R. right. eauto 6.
Qed.

Lemma nth_set_cases : forall A (l : list A) i j x y z, nth_error l i = Some y -> nth_error (set_at l i x) j = Some z ->
  (j = i /\ z = x) \/ (j <> i /\ nth_error l j = Some z).
Proof.
  intros A l i j x y z H H'. destruct (Nat.eq_dec j i) as [->|N].
  - left. rewrite (set_at_same _ _ _ _ _ H) in H'. split; congruence.
  - right. rewrite set_at_other in H' by auto. auto.
Qed.

(* a step that leaves the cache alone *)
Lemma step_quiet : forall sh ts i c s s', inv (sh, ts) -> nth_error ts i = Some (c, s) ->
  tinv sh c s' ->
  (forall r, s = QFill r -> (exists r', s' = QFill r') \/ holds sh (key_of c) (selected points c)) ->
  inv (sh, set_at ts i (c, s')).
Proof.
  intros sh ts i c s s' (G & T & E) Hi Ht Hm. split; [exact G|]. split; cbn [fst snd].
  - intros j d t Hj. destruct (nth_set_cases _ _ _ _ _ _ _ Hi Hj) as [[-> X]|[Nj Hj']].
    + injection X as -> ->. exact Ht.
    + apply (T _ _ _ Hj').
  - intros d l Hl. destruct (E d l Hl) as [->|(j & e & r & Hj & Ek)]; [left; reflexivity|].
    destruct (Nat.eq_dec j i) as [->|Nj].
    + cbn in Hj. rewrite Hi in Hj. injection Hj as -> ->. destruct (Hm r eq_refl) as [(r' & ->)|Hs].
      * right. exists i, e, r'. split; [|exact Ek]. eapply set_at_same. exact Hi.
      * left. rewrite Ek in Hs. rewrite (holds_fun _ _ _ _ Hl Hs). apply selected_key. exact Ek.
    + right. exists j, e, r. split; [|exact Ek]. rewrite set_at_other by auto. exact Hj.
Qed.
(* a step that changes the thread's entry *)
Lemma step_entry : forall sh sh' ts i c s r l, inv (sh, ts) -> calm_now ts -> nth_error ts i = Some (c, s) -> making s ->
  good sh' -> same_but (key_of c) sh sh' -> holds sh' (key_of c) l -> l ++ sel c r = selected points c ->
  inv (sh', set_at ts i (c, QFill r)).
Proof.
  intros sh sh' ts i c s r l (G & T & E) CA Hi Mk G' S Hl El. split; [exact G'|]. split; cbn [fst snd].
  - intros j d t Hj. destruct (nth_set_cases _ _ _ _ _ _ _ Hi Hj) as [[-> X]|[Nj Hj']].
    + injection X as -> ->. cbn. eauto.
    + specialize (T _ _ _ Hj'). destruct (qkey_dec (key_of d) (key_of c)) as [Ek|Nk].
      * destruct (CA i j c d s t Hi Hj' (not_eq_sym Nj) (eq_sym Ek) Mk) as [M R]. eapply tinv_idle; eauto.
      * eapply tinv_frame; eauto.
  - intros d l' Hl'. destruct (qkey_dec (key_of d) (key_of c)) as [Ek|Nk].
    + right. exists i, c, r. split; [|auto]. eapply set_at_same. exact Hi.
    + assert (Hold : holds sh (key_of d) l').
      { destruct Hl' as (v & HF & HB & HL). destruct (S _ Nk) as [E1 E2]. rewrite E1 in HF. exists v. rewrite <- (E2 _ HF). auto. }
      destruct (E d l' Hold) as [->|(j & e & r' & Hj & Ek)]; [left; reflexivity|].
      right. exists j, e, r'. split; [|exact Ek]. rewrite set_at_other; [exact Hj|].
      intros <-. cbn in Hj. rewrite Hi in Hj. injection Hj as -> _. congruence.
Qed.

Lemma firstn_S : forall A (l : list A) i x, nth_error l i = Some x -> firstn (S i) l = firstn i l ++ [x].
Proof. induction l as [|y l IH]; intros [|i] x H; cbn in *; try discriminate; [congruence|]. f_equal. apply IH. exact H. Qed.

Lemma qpick_inv : forall i st, inv st -> calm_now (snd st) -> calm_now (snd (qpick grow points ok pick O i st)) ->
  inv (qpick grow points ok pick O i st).
Proof.
  intros i [sh ts] I CA CA'. unfold qpick in *. destruct (nth_error ts i) as [[c s]|] eqn:Hi; [|exact I].
  pose proof I as (G & T & E). cbn [fst snd] in *. pose proof (T _ _ _ Hi) as Ti.
  destruct s as [| |[|p rest]| |b n k got|ps|o|u]; cbn [qstep] in *.
  - (* QFind *)
    destruct (map_find (cs_map sh) (key_of c)) as [v|] eqn:F.
    + destruct (proj2 G _ _ F) as (l & HB & HL).
      assert (Hh : holds sh (key_of c) l) by (exists v; auto).
      eapply step_quiet; [exact I|exact Hi| |discriminate]. cbn.
      destruct (E c l Hh) as [->|(j & d & r & Hj & Ek)]; [exact Hh|]. exfalso.
      assert (Nj : j <> i) by (intros ->; rewrite Hi in Hj; discriminate).
      destruct (CA' j i d c (QFill r) QRef) as [_ R].
      * cbn. rewrite set_at_other by auto. exact Hj.
      * cbn. eapply set_at_same. exact Hi.
      * exact Nj.
      * exact Ek.
      * right. eauto.
      * apply R. left. reflexivity.
    + eapply step_quiet; [exact I|exact Hi|exact F|discriminate].
  - (* QInsert *)
    destruct (insert_good sh (key_of c) G) as (G' & H' & S').
    eapply step_entry with (sh := sh) (s := QInsert) (l := []); [exact I|exact CA|exact Hi|left; reflexivity|exact G'|exact S'|exact H'|reflexivity].
  - (* end of the loop *)
    destruct Ti as (l & Hh & El). cbn in El. rewrite app_nil_r in El. subst l.
    eapply step_quiet; [exact I|exact Hi|exact Hh|]. intros r _. right. exact Hh.
  - (* a point *)
    destruct Ti as (l & Hh & El). unfold sel in El. cbn [filter] in El.
    destruct (N.land (p_stmt p) (q_mask (snd c)) =? q_stmt (snd c)) eqn:Em.
    + destruct (push_point_good grow sh (key_of c) p l G Hh) as (sh' & P & G' & H' & S'). rewrite P in *.
      eapply step_entry with (sh := sh) (s := QFill (p :: rest)); [exact I|exact CA|exact Hi|right; eauto|exact G'|exact S'|exact H'|].
      rewrite <- app_assoc. exact El.
    + eapply step_quiet; [exact I|exact Hi| |].
      * cbn. exists l. split; [exact Hh|]. exact El.
      * intros r _. left. eauto.
  - (* QRef *)
    cbn in Ti. pose proof Ti as (v & HF & HB & HL). rewrite HF in *.
    eapply step_quiet; [exact I|exact Hi| |discriminate]. cbn.
    split; [exact Ti|]. split; [eauto|]. split; [exact HL|]. split; [lia|reflexivity].
  - (* QCopy *)
    destruct Ti as (Hh & (v & HF & ->) & -> & Le & ->).
    pose proof Hh as (v' & HF' & HB & HL). rewrite HF in HF'. injection HF' as <-.
    destruct (Nat.ltb k (length (selected points c))) eqn:L.
    + apply Nat.ltb_lt in L. rewrite HB in *.
      destruct (nth_error (selected points c) k) as [p|] eqn:Hp; [|apply nth_error_None in Hp; lia].
      eapply step_quiet; [exact I|exact Hi| |discriminate]. cbn [tinv].
      split; [exact Hh|]. split; [eauto|]. split; [reflexivity|]. split; [lia|]. symmetry. apply firstn_S. exact Hp.
    + apply Nat.ltb_ge in L. eapply step_quiet; [exact I|exact Hi| |discriminate]. cbn.
      rewrite firstn_all2 by lia. reflexivity.
  - (* QEval *)
    cbn in Ti. subst ps. eapply step_quiet; [exact I|exact Hi| |discriminate]. cbn. symmetry. apply alone_selected.
  - exact I.
  - exact I.
Qed.

Lemma start_inv : forall sh cs, cache_good points sh -> inv (qstart sh cs).
Proof.
  intros sh cs [H1 H2]. split; [split|split]; cbn [fst snd].
  - exact H2.
  - intros [t [m s]] v F. destruct (H1 (t, mkQ [] (Pred NULL_PREDICATE 0 []) [] 0%N m s) v F) as [B L]. eauto.
  - intros i c s Hi. unfold qstart in Hi. cbn in Hi. apply nth_error_In in Hi. apply in_map_iff in Hi.
    destruct Hi as (d & X & _). injection X as <- <-. exact I.
  - intros c l (v & F & B & L). left. destruct (H1 c v F) as [B' _]. change (fst (qstart sh cs)) with sh in B. congruence.
Qed.
Lemma exec_inv : forall sched st, inv st -> calm grow points ok pick O sched st -> inv (qexec grow points ok pick O sched st).
Proof.
  induction sched as [|i sched IH]; intros st I CA; cbn in *; [exact I|]. destruct CA as [C1 C2].
  apply IH; [|exact C2]. apply qpick_inv; [exact I|exact C1|]. destruct sched; apply C2.
Qed.

(* ** all schedules, for calls that are separate *)
Definition cold (sh0 : cshared) (st : qsystem) : Prop :=
  (forall k, map_find (cs_map sh0) k <> None -> map_find (cs_map (fst st)) k <> None) /\
  (forall i c s, nth_error (snd st) i = Some (c, s) -> making s -> map_find (cs_map sh0) (key_of c) = None).
Lemma find_set_some : forall m k v k', map_find m k' <> None -> map_find (map_set m k v) k' <> None.
Proof. intros m k v k' H. destruct (qkey_dec k' k) as [->|N]; [rewrite find_set_same; discriminate|rewrite find_set_other; auto]. Qed.
Lemma qpick_cold : forall sh0 i st, cold sh0 st -> cold sh0 (qpick grow points ok pick O i st).
Proof.
  intros sh0 i [sh ts] [C1 C2]. unfold qpick. destruct (nth_error ts i) as [[c s]|] eqn:Hi; [|split; assumption].
  destruct (qstep grow points ok pick O c sh s) as [[sh' s']|] eqn:Q; [|split; assumption].
  assert (X : (forall k, map_find (cs_map sh) k <> None -> map_find (cs_map sh') k <> None) /\
              (making s' -> making s \/ map_find (cs_map sh) (key_of c) = None)).
  { destruct s as [| |[|p rest]| |b n k got|ps|o|u]; cbn [qstep] in Q.
    - injection Q as <- <-. split; [auto|]. destruct (map_find (cs_map sh) (key_of c)); [|auto].
      intros [X|(r & X)]; discriminate.
    - injection Q as <- <-. split; [intros k; apply find_set_some|]. intros _. left. left. reflexivity.
    - injection Q as <- <-. split; [auto|]. intros [X|(r & X)]; discriminate.
    - destruct (_ =? _).
      + destruct (push_point grow sh (key_of c) p) eqn:P; injection Q as <- <-.
        * split; [|intros _; left; right; eauto]. unfold push_point in P.
          destruct (map_find (cs_map sh) (key_of c)); [|discriminate]. destruct (buffer sh (vc_buf v)); [|discriminate].
          destruct (Nat.ltb _ _); injection P as <-; intros k; apply find_set_some.
        * split; [auto|]. intros [X|(r & X)]; discriminate.
      + injection Q as <- <-. split; [auto|]. intros _. left. right. eauto.
    - destruct (map_find (cs_map sh) (key_of c)); injection Q as <- <-; (split; [auto|]); intros [X|(r & X)]; discriminate.
    - destruct (Nat.ltb k n).
      + destruct (buffer sh b) as [l|]; [destruct (nth_error l k)|]; injection Q as <- <-; (split; [auto|]); intros [X|(r & X)]; discriminate.
      + injection Q as <- <-; (split; [auto|]); intros [X|(r & X)]; discriminate.
    - injection Q as <- <-; (split; [auto|]); intros [X|(r & X)]; discriminate.
    - discriminate.
    - discriminate. }
  destruct X as [X1 X2]. split; cbn [fst snd].
  - intros k Hk. apply X1, C1, Hk.
  - intros j d t Hj M. destruct (nth_set_cases _ _ _ _ _ _ _ Hi Hj) as [[-> Y]|[Nj Hj']].
    + injection Y as -> ->. destruct (X2 M) as [M'|F]; [eapply C2; eauto|].
      destruct (map_find (cs_map sh0) (key_of c)) eqn:F0; [|reflexivity].
      exfalso. apply (C1 (key_of c)); [congruence|exact F].
    + eapply C2; eauto.
Qed.
Lemma qpick_calls : forall i st, map fst (snd (qpick grow points ok pick O i st)) = map fst (snd st).
Proof.
  intros i [sh ts]. unfold qpick. destruct (nth_error ts i) as [[c s]|] eqn:Hi; [|reflexivity].
  destruct (qstep grow points ok pick O c sh s) as [[sh' s']|]; [|reflexivity]. cbn [snd].
  clear -Hi. revert i Hi. induction ts as [|x ts IH]; intros [|i] H; cbn in *; try discriminate.
  - injection H as ->. reflexivity.
  - rewrite IH by exact H. reflexivity.
Qed.
Lemma qexec_calls : forall sched st, map fst (snd (qexec grow points ok pick O sched st)) = map fst (snd st).
Proof. induction sched as [|i r IH]; intros st; cbn; [reflexivity|]. rewrite IH. apply qpick_calls. Qed.
Lemma start_calls : forall sh cs, map fst (snd (qstart sh cs)) = cs.
Proof. intros. unfold qstart. cbn. rewrite map_map. cbn. apply map_id. Qed.

Lemma cold_calm : forall sh0 cs st, separate sh0 cs -> map fst (snd st) = cs -> cold sh0 st -> calm_now (snd st).
Proof.
  intros sh0 cs st SE EC [C1 C2] i j c d s t Hi Hj Nij Ek M. exfalso.
  apply (SE i j c d); auto.
  - rewrite <- EC. rewrite nth_error_map, Hi. reflexivity.
  - rewrite <- EC. rewrite nth_error_map, Hj. reflexivity.
  - eapply C2; eauto.
Qed.
Lemma separate_calm_st : forall sh0 cs, separate sh0 cs -> forall sched st, map fst (snd st) = cs -> cold sh0 st ->
  calm grow points ok pick O sched st.
Proof.
  intros sh0 cs SE. induction sched as [|i r IH]; intros st EC C; cbn.
  - split; [|exact I]. eapply cold_calm; eauto.
  - split; [eapply cold_calm; eauto|]. apply IH; [rewrite qpick_calls; exact EC|apply qpick_cold; exact C].
Qed.
Lemma separate_calm : forall sh cs sched, separate sh cs -> calm grow points ok pick O sched (qstart sh cs).
Proof.
  intros. eapply separate_calm_st; [exact H|apply start_calls|]. split; cbn [fst snd].
  - auto.
  - intros i c s Hi [->|(r & ->)]; unfold qstart in Hi; cbn in Hi; apply nth_error_In in Hi; apply in_map_iff in Hi;
      destruct Hi as (d & X & _); discriminate.
Qed.

(* ** every query ends *)
Definition left_steps (c : qcall) (s : qstate) : nat :=
  let n := length (points (fst c)) in
  match s with
  | QFind => n + n + 6 | QInsert => n + n + 5 | QFill r => length r + n + 4
  | QRef => n + 3 | QCopy _ m i _ => (m - i) + 2 | QEval _ => 1 | _ => 0
  end%nat.
Lemma filter_len : forall A f (l : list A), (length (filter f l) <= length l)%nat.
Proof. induction l as [|x l IH]; cbn; [lia|]. destruct (f x); cbn; lia. Qed.

Lemma qstep_left : forall c sh s sh' s', tinv sh c s -> qstep grow points ok pick O c sh s = Some (sh', s') ->
  (left_steps c s' < left_steps c s)%nat.
Proof.
  intros c sh s sh' s' T Q. destruct s as [| |[|p rest]| |b n k got|ps|o|u]; cbn [qstep] in Q.
  - injection Q as <- <-. destruct (map_find (cs_map sh) (key_of c)); cbn; lia.
  - injection Q as <- <-. cbn. lia.
  - injection Q as <- <-. cbn. lia.
  - destruct (_ =? _); [destruct (push_point grow sh (key_of c) p)|]; injection Q as <- <-; cbn; lia.
  - cbn in T. destruct T as (v & F & B & L). rewrite F in Q. injection Q as <- <-. cbn. rewrite L.
    unfold selected. pose proof (filter_len _ (fun p => N.land (p_stmt p) (q_mask (snd c)) =? q_stmt (snd c)) (points (fst c))). lia.
  - destruct (Nat.ltb k n) eqn:E.
    + apply Nat.ltb_lt in E. destruct (buffer sh b) as [l|]; [destruct (nth_error l k)|]; injection Q as <- <-; cbn; lia.
    + injection Q as <- <-. cbn. lia.
  - injection Q as <- <-. cbn. lia.
  - discriminate.
  - discriminate.
Qed.
Lemma left_run : forall i sched st c s, inv st -> calm grow points ok pick O sched st -> nth_error (snd st) i = Some (c, s) ->
  (left_steps c s <= count_occ Nat.eq_dec sched i)%nat ->
  exists o, nth_error (snd (qexec grow points ok pick O sched st)) i = Some (c, QDone o).
Proof.
  intros i. induction sched as [|j r IH]; intros st c s IN CA Hi HL; cbn [qexec].
  - cbn in HL. pose proof (proj1 (proj2 IN) _ _ _ Hi) as T.
    destruct s; cbn in HL; try lia; [eauto|destruct T].
  - cbn in CA. destruct CA as [C1 C2].
    assert (C3 : calm_now (snd (qpick grow points ok pick O j st))) by (destruct r; apply C2).
    pose proof (qpick_inv j st IN C1 C3) as IN'.
    destruct st as [sh ts]. cbn [snd] in Hi. cbn [count_occ] in HL.
    destruct (Nat.eq_dec j i) as [->|Nj].
    + pose proof (proj1 (proj2 IN) _ _ _ Hi) as T. cbn [fst] in T.
      unfold qpick in *. rewrite Hi in *. destruct (qstep grow points ok pick O c sh s) as [[sh' s']|] eqn:Q.
      * apply IH with (s := s'); [exact IN'|exact C2|cbn; eapply set_at_same; exact Hi|].
        pose proof (qstep_left _ _ _ _ _ T Q). lia.
      * apply IH with (s := s); [exact IN'|exact C2|exact Hi|].
        destruct s as [| |[|p rest]| |b n k got|ps|o|u]; cbn [qstep] in Q; try discriminate Q; cbn; try lia.
        -- destruct (_ =? _); [destruct (push_point grow sh (key_of c) p)|]; discriminate.
        -- destruct (map_find (cs_map sh) (key_of c)); discriminate.
        -- destruct (Nat.ltb k n); [destruct (buffer sh b) as [l|]; [destruct (nth_error l k)|]|]; discriminate.
    + apply IH with (s := s); [exact IN'|exact C2| |exact HL].
      unfold qpick. destruct (nth_error ts j) as [[d t]|]; [|exact Hi].
      destruct (qstep grow points ok pick O d sh t) as [[sh' s']|]; [|exact Hi]. cbn. rewrite set_at_other by auto. exact Hi.
Qed.

(* ** the cache afterwards *)
Lemma inv_cache_good : forall sh ts, inv (sh, ts) -> (forall i c s, nth_error ts i = Some (c, s) -> ~ making s) ->
  cache_good points sh.
Proof.
  intros sh ts (G & T & E) NM. split.
  - intros c v F. destruct (proj2 G _ _ F) as (l & B & L). cbn [fst] in *.
    destruct (E c l) as [->|(i & d & r & Hi & _)]; [exists v; auto|auto|].
    exfalso. apply (NM _ _ _ Hi). right. eauto.
  - exact (proj1 G).
Qed.
End Run.
