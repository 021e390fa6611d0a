(** Consequences of the refinement used by the property files. *)
From Verif Require Import Base BaseProofs MemMapSpec SkipList SkipListProofs AMap MemMapProofs.

(** Records reported since the last clear(). *)
Definition since_clear (ops : list mm_op) : history :=
  fold_left (fun h o => match o with OpUpdate a s => h ++ [(a, s)] | OpClear => [] end) ops [].

Definition op_ok (o : mm_op) : Prop :=
  match o with OpUpdate a s => a < 2 ^ 64 /\ s < 2 ^ 64 | OpClear => True end.

Definition ops_safe (ops : list mm_op) : Prop :=
  forall pre post, ops = pre ++ post -> sentinel_safe (since_clear pre).

Lemma since_clear_snoc : forall ops o, since_clear (ops ++ [o]) =
  match o with OpUpdate a s => since_clear ops ++ [(a, s)] | OpClear => [] end.
Proof. intros. unfold since_clear. rewrite fold_left_app. reflexivity. Qed.

Lemma ops_safe_snoc : forall ops o, ops_safe (ops ++ [o]) <->
  ops_safe ops /\ sentinel_safe (since_clear (ops ++ [o])).
Proof.
  intros h r. split.
  - intro H. split.
    + intros pre post E. apply (H pre (post ++ [r])). rewrite E, app_assoc. reflexivity.
    + apply (H (h ++ [r]) []). rewrite app_nil_r. reflexivity.
  - intros [H1 H2] pre post. destruct post as [|x post _] using rev_ind; intro E.
    + rewrite app_nil_r in E. subst pre. exact H2.
    + rewrite app_assoc in E. apply app_inj_tail in E. destruct E as [E _].
      apply (H1 pre post). exact E.
Qed.

Lemma mm_ops_run_snoc : forall coins ops m o,
  mm_ops_run coins m (ops ++ [o]) = (m' <- mm_ops_run coins m ops ;; mm_step coins m' o).
Proof.
  induction ops as [|x ops IH]; intros m o; simpl.
  - destruct (mm_step coins m o); reflexivity.
  - destruct (mm_step coins m x); simpl; auto.
Qed.

Lemma le_max64 : forall a, a < 2 ^ 64 -> a <= max64.
Proof. intros a H. change (2 ^ 64) with two64 in H. unfold two64, max64 in *. lia. Qed.

Lemma ops_run_char : forall coins pos ops, Forall op_ok ops ->
  (ops_safe ops /\ exists m am, mm_ops_run coins (mm_new pos) ops = Ok m /\ repr m am /\ am_ok (since_clear ops) am) \/
  (~ ops_safe ops /\ mm_ops_run coins (mm_new pos) ops = UB UBadFree).
Proof.
  intros coins pos. induction ops as [|o ops IH] using rev_ind; intro HF.
  - left. split.
    + intros pre post E. symmetry in E. apply app_eq_nil in E. destruct E as [-> _]. apply sentinel_safe_nil.
    + exists (mm_new pos), []. split; [reflexivity|]. split; [apply repr_new|apply am_ok_nil].
  - apply Forall_app in HF. destruct HF as [HF Ho]. inversion Ho as [|? ? Ho1 _]; subst.
    rewrite mm_ops_run_snoc, ops_safe_snoc, since_clear_snoc.
    destruct (IH HF) as [(Hs & m & am & Hm & HR & HA)|(Hs & Hm)].
    + rewrite Hm. cbn [bind]. destruct o as [a s|]; cbn [mm_step].
      * destruct Ho1 as [Ha _]. pose proof (am_ok_step _ _ a s HA (le_max64 a Ha)) as HS.
        pose proof (repr_update coins m am a s HR (le_max64 a Ha)) as HU.
        destruct (am_update am a s) as [am'| |u| |]; try contradiction.
        -- left. destruct HU as (m' & Hm' & HR'). split; [|exists m', am'; auto].
           split; [exact Hs|]. apply sentinel_safe_snoc. split.
           ++ apply (Hs ops []). symmetry. apply app_nil_r.
           ++ pose proof (ao_sent _ _ HS). lia.
        -- right. destruct HS as [-> HS]. split; [|exact HU]. intros [_ H]. apply sentinel_safe_snoc in H. lia.
      * left. destruct (repr_clear m am HR) as (m' & Hc & HR'). split.
        -- split; [exact Hs|apply sentinel_safe_nil].
        -- exists m', []. split; [exact Hc|]. split; [exact HR'|apply am_ok_nil].
    + right. rewrite Hm. split; [tauto|reflexivity].
Qed.

Lemma C02_lemma : forall coins pos ops, Forall op_ok ops ->
  (ops_safe ops ->
     exists m, mm_ops_run coins (mm_new pos) ops = Ok m /\
       (forall a, a < 2 ^ 64 -> exists r, mm_compute m a = Ok r) /\
       (exists heap, destruct_map (mm_sl m) = Ok heap /\ forall i, heap i = None)) /\
  (~ ops_safe ops -> mm_ops_run coins (mm_new pos) ops = UB UBadFree).
Proof.
  intros coins pos ops HF. destruct (ops_run_char coins pos ops HF) as [(Hs & m & am & Hm & HR & HA)|(Hs & Hm)].
  - split; [|tauto]. intros _. exists m. split; [exact Hm|]. split.
    + intros a Ha. exists (am_compute am a). apply repr_compute; auto. apply le_max64. exact Ha.
    + apply repr_destruct with am. exact HR.
  - split; tauto.
Qed.

Lemma clear_frees_lemma : forall coins pos ops, Forall op_ok ops -> ops_safe ops ->
  exists m m', mm_ops_run coins (mm_new pos) ops = Ok m /\ mm_clear m = Ok m' /\
    (forall i, sl_heap (mm_sl m') i = None) /\
    (forall a, a < 2 ^ 64 -> mm_compute m' a = Ok (2 ^ 64 - 1)).
Proof.
  intros coins pos ops HF Hs.
  destruct (ops_run_char coins pos ops HF) as [(_ & m & am & Hm & HR & HA)|(Hn & _)]; [|tauto].
  destruct (repr_clear m am HR) as (m' & Hc & HR'). exists m, m'. conj_split; auto.
  - destruct HR' as (L & HI & E). symmetry in E. apply map_eq_nil in E. subst L.
    intro i. apply (no_dead _ _ (inv_nodes _ _ HI)). intros [].
  - intros a Ha. rewrite (repr_compute m' []); auto; [|apply le_max64; exact Ha].
    unfold am_compute. simpl. destruct (a =? max64); reflexivity.
Qed.

Lemma mm_run_char : forall coins pos h, records_ok h ->
  (sentinel_safe h /\ exists m am, mm_run coins (mm_new pos) h = Ok m /\ repr m am /\ am_ok h am) \/
  (~ sentinel_safe h /\ mm_run coins (mm_new pos) h = UB UBadFree).
Proof.
  intros coins pos h Hr. pose proof (records_ok_max h Hr) as Hmax.
  pose proof (repr_run coins h (mm_new pos) [] (repr_new pos) Hmax) as HR.
  destruct (am_run_ok h Hmax) as [(Hs & am & Ham & Ho)|(Hs & Ham)]; rewrite Ham in HR.
  - left. split; [exact Hs|]. destruct HR as (m & Hm & HR). exists m, am. auto.
  - right. auto.
Qed.

Lemma lt_max64 : forall a, a < 2 ^ 64 - 1 -> a < max64.
Proof. intros a H. change (2 ^ 64 - 1) with max64 in H. exact H. Qed.

Lemma C01_lemma : forall coins pos h a, records_ok h -> sentinel_safe h -> a < 2 ^ 64 - 1 ->
  exists m r, mm_run coins (mm_new pos) h = Ok m /\ mm_compute m a = Ok r /\ answer h a r /\
              (forall r', answer h a r' -> r' = r).
Proof.
  intros coins pos h a Hr Hs Ha. apply lt_max64 in Ha.
  destruct (mm_run_char coins pos h Hr) as [(_ & m & am & Hm & HR & HA)|(Hn & _)]; [|tauto].
  exists m, (am_compute am a). conj_split; auto.
  - apply repr_compute; auto. lia.
  - apply am_compute_answer; auto.
  - intros r' Hr'. eapply answer_fun; [exact Hr'|]. apply am_compute_answer; auto.
Qed.

Lemma C01_top_lemma : forall m, mm_compute m (2 ^ 64 - 1) = Ok (2 ^ 64 - 1).
Proof. intro m. reflexivity. Qed.

Lemma C01_random_lemma : forall coins coins' pos pos' h a m m',
  records_ok h -> a < 2 ^ 64 ->
  mm_run coins (mm_new pos) h = Ok m -> mm_run coins' (mm_new pos') h = Ok m' ->
  mm_compute m a = mm_compute m' a.
Proof.
  intros coins coins' pos pos' h a m m' Hr Ha Hm Hm'.
  pose proof (records_ok_max h Hr) as Hmax.
  pose proof (repr_run coins h (mm_new pos) [] (repr_new pos) Hmax) as HR.
  pose proof (repr_run coins' h (mm_new pos') [] (repr_new pos') Hmax) as HR'.
  rewrite Hm in HR. rewrite Hm' in HR'.
  destruct (am_run [] h) as [am| | | |]; try contradiction; try discriminate.
  destruct HR as (x & Hx & HR). destruct HR' as (y & Hy & HR'). inversion Hx; inversion Hy; subst.
  rewrite (repr_compute x am), (repr_compute y am); auto; apply le_max64; exact Ha.
Qed.

(** Records for the sentinel address do not influence answers. *)
Lemma last_size_app : forall h1 h2 k,
  last_size (h1 ++ h2) k = match last_size h2 k with Some x => Some x | None => last_size h1 k end.
Proof.
  induction h1 as [|[a s] h1 IH]; intros h2 k; simpl.
  - destruct (last_size h2 k); reflexivity.
  - rewrite IH. destruct (last_size h2 k); reflexivity.
Qed.

Lemma live_ext_answer : forall h h' a r, (forall k v, k <= a -> (live h k v <-> live h' k v)) ->
  answer h a r -> answer h' a r.
Proof.
  intros h h' a r HE HA.
  assert (HN : forall k v, nearest h a k v -> nearest h' a k v).
  { intros k v (H1 & H2 & H3). split; [apply HE; auto|]. split; [exact H2|].
    intros k' v' Hl Hk. apply (H3 k' v'); auto. apply HE; auto. }
  inversion HA; subst; [eapply ans_inside|eapply ans_beyond|eapply ans_none]; eauto.
  intros k v Hl Hk. apply (H k v); auto. apply HE; auto.
Qed.

Lemma C03_harmless_lemma : forall coins pos h1 h2 s m m' a,
  records_ok (h1 ++ (2 ^ 64 - 1, s) :: h2) -> a < 2 ^ 64 ->
  mm_run coins (mm_new pos) (h1 ++ (2 ^ 64 - 1, s) :: h2) = Ok m ->
  mm_run coins (mm_new pos) (h1 ++ h2) = Ok m' ->
  mm_compute m a = mm_compute m' a.
Proof.
  intros coins pos h1 h2 s m m' a Hr Ha Hm Hm'.
  assert (Hr' : records_ok (h1 ++ h2)).
  { apply Forall_app in Hr. destruct Hr as [R1 R2]. inversion R2; subst. apply Forall_app. auto. }
  destruct (mm_run_char coins pos _ Hr) as [(_ & x & am & Hx & HR & HA)|(_ & Hx)]; rewrite Hm in Hx; [|discriminate].
  destruct (mm_run_char coins pos _ Hr') as [(_ & y & am' & Hy & HR' & HA')|(_ & Hy)]; rewrite Hm' in Hy; [|discriminate].
  inversion Hx; inversion Hy; subst x y.
  rewrite (repr_compute m am), (repr_compute m' am'); auto; try (apply le_max64; exact Ha). f_equal.
  destruct (N.eq_dec a max64) as [->|Hne]; [reflexivity|].
  assert (Hlt : a < max64) by (pose proof (le_max64 a Ha); lia).
  eapply answer_fun; [apply am_compute_answer; eauto|].
  eapply live_ext_answer; [|apply am_compute_answer; eauto].
  intros k v Hk. unfold live. rewrite !last_size_app. cbn [last_size].
  destruct (last_size h2 k); [tauto|]. destruct (N.eqb_spec (2 ^ 64 - 1) k) as [E|E]; [|tauto].
  change (2 ^ 64 - 1) with max64 in E. lia.
Qed.

Lemma C03_char_lemma : forall coins pos h, records_ok h ->
  (sentinel_safe h <-> is_ok (mm_run coins (mm_new pos) h) = true) /\
  (~ sentinel_safe h <-> mm_run coins (mm_new pos) h = UB UBadFree).
Proof.
  intros coins pos h Hr. destruct (mm_run_char coins pos h Hr) as [(Hs & m & am & Hm & _)|(Hs & Hm)]; rewrite Hm; simpl.
  - split; split; auto; intro X; try tauto; discriminate.
  - split; split; auto; intro X; try tauto; discriminate.
Qed.

(** Live allocations other than [k] do not overlap [k, k+v). *)
Definition no_overlap (h : history) (k v : N) : Prop :=
  forall k' v', live h k' v' -> k' <> k -> k' + v' <= k \/ k + v <= k'.

Lemma C04_lemma : forall coins pos h k v a,
  records_ok h -> sentinel_safe h -> live h k v -> k + v < 2 ^ 64 -> no_overlap h k v ->
  k <= a -> (a < k + v \/ a = k + v /\ a < 2 ^ 64 - 1 /\ (forall w, ~ live h a w)) ->
  exists m, mm_run coins (mm_new pos) h = Ok m /\ mm_compute m a = Ok (k + v - a).
Proof.
  intros coins pos h k v a Hr Hs Hl Hkv Hno Hka Ha.
  assert (Hlt : a < 2 ^ 64 - 1).
  { change (2 ^ 64 - 1) with max64. change (2 ^ 64) with two64 in Hkv. unfold two64, max64 in *.
    destruct Ha as [Ha|[_ [Ha _]]]; [lia|]. change (2 ^ 64 - 1) with 18446744073709551615 in Ha. exact Ha. }
  destruct (C01_lemma coins pos h a Hr Hs Hlt) as (m & r & Hm & Hc & HA & _).
  exists m. split; [exact Hm|]. rewrite Hc. f_equal.
  assert (HN : nearest h a k v).
  { split; [exact Hl|]. split; [exact Hka|]. intros k' v' Hl' Hk'.
    destruct (N.eq_dec k' k) as [->|Hne]; [lia|].
    destruct (Hno k' v' Hl' Hne) as [H|H]; [lia|].
    destruct Ha as [Ha|(E & _ & Hnl)]; [lia|]. assert (k' = a) by lia. subst k'.
    exfalso. apply (Hnl v'). exact Hl'. }
  eapply answer_fun; [exact HA|].
  assert (E : (k + v) mod 2 ^ 64 = k + v) by (apply N.mod_small; exact Hkv).
  rewrite <- E at 1. apply ans_inside; auto. rewrite E. lia.
Qed.
