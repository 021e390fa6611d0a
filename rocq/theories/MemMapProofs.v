(** The skip list refines the abstract map; the abstract map answers as the
    history specification says. *)
From Verif Require Import Base BaseProofs MemMapSpec SkipList SkipListProofs AMap.
From Coq Require Import Sorting.Sorted.

Definition kv (c : cell) : N * N := (c_key c, c_val c).

(** The skip list [m] represents the abstract map [am]. *)
Definition repr (m : memory_map) (am : amap) : Prop :=
  exists L, inv (mm_sl m) L /\ am = map kv L.

Lemma repr_new : forall pos, repr (mm_new pos) [].
Proof. intro pos. exists []. split; [|reflexivity]. apply construct_inv. reflexivity. Qed.

Lemma am_insert_lt : forall A B k v,
  (forall c, In c A -> c_key c < k) ->
  am_insert (map kv (A ++ B)) k v = map kv A ++ am_insert (map kv B) k v.
Proof.
  induction A as [|c A IH]; intros B k v HA; [reflexivity|].
  cbn [map app am_insert kv]. pose proof (HA c (or_introl eq_refl)).
  destruct (N.ltb_spec (c_key c) k); [|lia]. f_equal. apply IH. intros; apply HA; right; assumption.
Qed.

Lemma am_remove_lt : forall A B k,
  (forall c, In c A -> c_key c < k) ->
  am_remove (map kv (A ++ B)) k = (r <- am_remove (map kv B) k ;; Ok (map kv A ++ r)).
Proof.
  induction A as [|c A IH]; intros B k HA.
  - simpl. destruct (am_remove (map kv B) k); reflexivity.
  - cbn [map app am_remove kv]. pose proof (HA c (or_introl eq_refl)).
    destruct (N.ltb_spec (c_key c) k); [|lia]. rewrite IH by (intros; apply HA; right; assumption).
    destruct (am_remove (map kv B) k); reflexivity.
Qed.

Lemma am_find_le : forall A B a, (forall c, In c A -> c_key c <= a) -> (forall c, In c B -> a < c_key c) ->
  am_find (map kv (A ++ B)) a = option_map kv (last_cell A).
Proof.
  induction A as [|c A IH]; intros B a HA HB.
  - simpl. destruct B as [|b B]; [reflexivity|]. cbn [map am_find kv].
    pose proof (HB b (or_introl eq_refl)). destruct (N.leb_spec (c_key b) a); [lia|reflexivity].
  - cbn [map app am_find kv]. pose proof (HA c (or_introl eq_refl)).
    destruct (N.leb_spec (c_key c) a); [|lia]. rewrite IH; auto.
    2:{ intros; apply HA; right; assumption. }
    unfold last_cell. cbn [rev]. destruct (rev A) as [|d r] eqn:E; [reflexivity|]. reflexivity.
Qed.

Lemma sorted_tail_key : forall b B, StronglySorted before (b :: B) -> c_key b < max64 ->
  forall c, In c B -> c_key b < c_key c.
Proof.
  intros b B HS Hb c Hc. inversion HS as [|? ? _ HF]; subst. rewrite Forall_forall in HF.
  destruct (HF c Hc) as [|[]]; lia.
Qed.

Lemma repr_update : forall coins m am a s, repr m am -> a <= max64 ->
  match am_update am a s with
  | Ok am' => exists m', mm_update coins m a s = Ok m' /\ repr m' am'
  | UB k => mm_update coins m a s = UB k
  | _ => False
  end.
Proof.
  intros coins m am a s (L & HI & ->) Ha.
  pose proof HI as [HN HS HP]. pose proof (so_sorted _ _ HS) as Hsort.
  destruct (lt_split L a Hsort) as (A & B & -> & HA & HB).
  unfold am_update, mm_update. destruct (N.eqb_spec s 0) as [Hs|Hs].
  - (* remove *)
    rewrite am_remove_lt by exact HA.
    destruct B as [|b B].
    + cbn [map am_remove]. destruct (N.eqb_spec a max64) as [Hm|Hm].
      * subst a. cbn [bind].
        rewrite (skip_list_remove_sentinel (mm_sl m) (A ++ [])); [reflexivity| exact HI |].
        intros c Hc. rewrite app_nil_r in Hc. auto.
      * cbn [bind]. rewrite skip_list_remove_absent with (A := A) (B := []); auto; try lia.
        2:{ intros c []. }
        cbn [bind]. eexists. split; [reflexivity|]. exists (A ++ []). split; [exact HI|].
        rewrite !map_app. reflexivity.
    + cbn [map am_remove kv]. pose proof (HB b (or_introl eq_refl)) as Hb.
      destruct (N.ltb_spec (c_key b) a); [lia|].
      destruct (N.eqb_spec (c_key b) a) as [He|He].
      * cbn [bind]. subst a.
        destruct (skip_list_remove_found (mm_sl m) A b B HI HA) as (sl' & Hr & HI' & _).
        rewrite Hr. cbn [bind]. eexists. split; [reflexivity|]. exists (A ++ B). split; [exact HI'|].
        rewrite map_app. reflexivity.
      * cbn [bind].
        assert (Hbm : c_key b <= max64) by (apply (so_max _ _ HS); apply in_app_iff; simpl; auto).
        rewrite skip_list_remove_absent with (A := A) (B := b :: B); auto; try lia.
        2:{ intros c [<-|Hc]; [lia|]. apply ss_app in Hsort. destruct Hsort as (_ & Hs2 & _).
            inversion Hs2 as [|? ? _ HF]; subst. rewrite Forall_forall in HF.
            destruct (HF c Hc) as [|[]]; lia. }
        cbn [bind]. eexists. split; [reflexivity|]. exists (A ++ b :: B). split; [exact HI|].
        rewrite !map_app. reflexivity.
  - (* update *)
    rewrite am_insert_lt by exact HA. unfold skip_list_update.
    assert (Hins : forall level pos, (1 <= level <= max_height)%nat ->
       (forall c, In c B -> a < c_key c \/ a = max64 /\ c_key c = max64) ->
       am_insert (map kv B) a s = (a, s) :: map kv B ->
       exists sl', skip_list_insert (mm_sl m) a s level = Ok sl' /\
                   repr (mkMM sl' pos) (map kv A ++ am_insert (map kv B) a s)).
    { intros level pos Hl HB' ->.
      destruct (skip_list_insert_spec (mm_sl m) A B a s level HI Ha Hl HA HB') as (sl' & id & lvl & Hins & HI').
      exists sl'. split; [exact Hins|]. eexists. split; [exact HI'|]. rewrite map_app. reflexivity. }
    assert (Hrl := random_level_bound coins (mm_pos m)).
    destruct (random_level coins (mm_pos m)) as [level pos'] eqn:Er. simpl in Hrl.
    specialize (Hins level pos' Hrl).
    assert (HBm : forall c, In c B -> c_key c <= max64).
    { intros c Hc. apply (so_max _ _ HS). apply in_app_iff; auto. }
    destruct (N.eq_dec a max64) as [Hm|Hm].
    + (* sentinel key *)
      assert (Hf : skip_list_find (mm_sl m) a = Ok None) by (subst a; reflexivity).
      rewrite Hf. cbn [bind]. destruct Hins as (sl' & Hi & HR).
      { intros c Hc. pose proof (HB c Hc). pose proof (HBm c Hc). right. lia. }
      { destruct B as [|b B]; [reflexivity|]. cbn [map am_insert kv].
        pose proof (HB b (or_introl eq_refl)). destruct (N.ltb_spec (c_key b) a); [lia|].
        rewrite Hm, N.eqb_refl, andb_false_r. reflexivity. }
      rewrite Hi. cbn [bind]. eauto.
    + destruct B as [|b B].
      * rewrite (skip_list_find_spec _ _ A [] a HI); auto; try lia.
        2:{ intros c Hc. apply HA in Hc. lia. }
        2:{ intros c []. }
        cbn [bind]. destruct Hins as (sl' & Hi & HR); [intros c []|reflexivity|].
        destruct (last_cell A) as [l|] eqn:El; cbn [option_map].
        -- assert (In l A) as Hl.
           { unfold last_cell in El. apply in_rev. destruct (rev A); [discriminate|]. inversion El. left. reflexivity. }
           rewrite key_of_cell with (L := A ++ []); [|exact HN|apply in_app_iff; auto]. cbn [bind].
           pose proof (HA l Hl). destruct (N.eqb_spec (c_key l) a); [lia|].
           rewrite Hi. cbn [bind]. eauto.
        -- rewrite Hi. cbn [bind]. eauto.
      * pose proof (HB b (or_introl eq_refl)) as Hb.
        assert (Hsb : StronglySorted before (b :: B)) by (apply ss_app in Hsort; tauto).
        destruct (N.eq_dec (c_key b) a) as [He|He].
        -- rewrite (skip_list_find_spec _ _ (A ++ [b]) B a HI); auto; try lia.
           2:{ rewrite <- app_assoc. reflexivity. }
           2:{ intros c Hc. apply in_app_iff in Hc. destruct Hc as [Hc|[<-|[]]]; [apply HA in Hc; lia|lia]. }
           2:{ intros c Hc. rewrite <- He. apply sorted_tail_key with B; auto. lia. }
           cbn [bind]. unfold last_cell. rewrite rev_app_distr. cbn [rev app option_map].
           rewrite key_of_cell with (L := A ++ b :: B); [|exact HN|apply in_app_iff; simpl; auto].
           cbn [bind]. rewrite He, N.eqb_refl.
           destruct (set_value_spec (mm_sl m) A b B s HI) as (sl' & Hsv & HI').
           rewrite Hsv. cbn [bind]. eexists. split; [reflexivity|].
           eexists. split; [exact HI'|]. rewrite map_app. f_equal. cbn [map am_insert kv c_key c_val].
           destruct (N.ltb_spec (c_key b) a); [lia|].
           rewrite He, N.eqb_refl. destruct (N.eqb_spec a max64); [lia|]. reflexivity.
        -- rewrite (skip_list_find_spec _ _ A (b :: B) a HI); auto; try lia.
           2:{ intros c Hc. apply HA in Hc. lia. }
           2:{ intros c [<-|Hc]; [lia|]. inversion Hsb as [|? ? _ HF]; subst. rewrite Forall_forall in HF.
               destruct (HF c Hc) as [|[]]; lia. }
           cbn [bind]. destruct Hins as (sl' & Hi & HR).
           { intros c [<-|Hc]; [lia|]. inversion Hsb as [|? ? _ HF]; subst. rewrite Forall_forall in HF.
             destruct (HF c Hc) as [|[]]; lia. }
           { cbn [map am_insert kv]. destruct (N.ltb_spec (c_key b) a); [lia|].
             destruct (N.eqb_spec (c_key b) a); [lia|]. reflexivity. }
           destruct (last_cell A) as [l|] eqn:El; cbn [option_map].
           ++ assert (In l A) as Hl.
              { unfold last_cell in El. apply in_rev. destruct (rev A); [discriminate|]. inversion El. left. reflexivity. }
              rewrite key_of_cell with (L := A ++ b :: B); [|exact HN|apply in_app_iff; auto]. cbn [bind].
              pose proof (HA l Hl). destruct (N.eqb_spec (c_key l) a); [lia|].
              rewrite Hi. cbn [bind]. eauto.
           ++ rewrite Hi. cbn [bind]. eauto.
Qed.

Lemma repr_compute : forall m am a, repr m am -> a <= max64 -> mm_compute m a = Ok (am_compute am a).
Proof.
  intros m am a (L & HI & ->) Ha. pose proof HI as [HN HS HP].
  unfold mm_compute, am_compute. destruct (N.eqb_spec a max64) as [Hm|Hm].
  - subst a. reflexivity.
  - destruct (find_split L a (so_sorted _ _ HS)) as (A & B & -> & HA & HB).
    rewrite (skip_list_find_spec _ _ A B a HI); auto; try lia. cbn [bind].
    rewrite am_find_le by assumption.
    destruct (last_cell A) as [l|] eqn:El; cbn [option_map kv]; [|reflexivity].
    assert (In l A) as Hl.
    { unfold last_cell in El. apply in_rev. destruct (rev A); [discriminate|]. inversion El. left. reflexivity. }
    destruct (no_node _ _ HN l) as (n & Hn & Hk & Hv & _); [apply in_app_iff; auto|].
    rewrite Hn, Hk, Hv. unfold kv. destruct (a <=? add64 (c_key l) (c_val l)); reflexivity.
Qed.

Lemma repr_clear : forall m am, repr m am -> exists m', mm_clear m = Ok m' /\ repr m' [].
Proof.
  intros m am (L & HI & ->). unfold mm_clear.
  destruct (destruct_map_spec _ _ HI) as (heap & Hd & Hnone). rewrite Hd. cbn [bind].
  eexists. split; [reflexivity|]. exists []. split; [|reflexivity]. apply construct_inv. exact Hnone.
Qed.

Lemma repr_destruct : forall m am, repr m am ->
  exists heap, destruct_map (mm_sl m) = Ok heap /\ forall i, heap i = None.
Proof. intros m am (L & HI & ->). apply destruct_map_spec with L. exact HI. Qed.

(** ** The abstract map and the history specification *)

Definition keys_sorted (m : amap) : Prop :=
  StronglySorted (fun x y => fst x < fst y \/ (fst x = max64 /\ fst y = max64)) m.

(** Number of sentinel entries. *)
Definition sentinels (m : amap) : nat := length (filter (fun e => fst e =? max64) m).

Record am_ok (h : history) (m : amap) : Prop := {
  ao_sorted : keys_sorted m;
  ao_max : forall e, In e m -> fst e <= max64;
  ao_live : forall k v, k < max64 -> (In (k, v) m <-> live h k v);
  ao_sent : (sentinels m + sentinel_frees h = sentinel_allocs h)%nat
}.

Lemma last_size_snoc : forall h a s k,
  last_size (h ++ [(a, s)]) k = if a =? k then Some s else last_size h k.
Proof.
  induction h as [|[b t] h IH]; intros a s k; simpl.
  - destruct (a =? k); reflexivity.
  - rewrite IH. destruct (a =? k); reflexivity.
Qed.

Lemma filter_len_snoc : forall A (f : A -> bool) l x,
  length (filter f (l ++ [x])) = (length (filter f l) + if f x then 1 else 0)%nat.
Proof. intros. rewrite filter_app, app_length. simpl. destruct (f x); reflexivity. Qed.

Lemma am_insert_in : forall m k v, keys_sorted m -> (forall e, In e m -> fst e <= max64) -> k <= max64 ->
  forall a w, a < max64 -> (In (a, w) (am_insert m k v) <-> (a = k /\ w = v) \/ (a <> k /\ In (a, w) m)).
Proof.
  induction m as [|[b x] m IH]; intros k v HS Hm Hk a w Ha.
  - simpl. split.
    + intros [H|[]]. inversion H. auto.
    + intros [[-> ->]|[_ []]]. auto.
  - cbn [am_insert]. inversion HS as [|? ? HS' HF]; subst. pose proof (Hm _ (or_introl eq_refl)) as Hb. simpl in Hb.
    rewrite Forall_forall in HF.
    destruct (N.ltb_spec b k) as [Hlt|Hge].
    + cbn [In]. rewrite IH; auto; [|intros; apply Hm; right; assumption]. split.
      * intros [H|[H|H]]; [inversion H; subst; right; split; [lia|auto]| tauto | tauto].
      * intros [H|[H1 [H2|H2]]]; auto.
    + destruct (N.eqb_spec b k) as [He|He]; cbn [andb].
      * destruct (N.eqb_spec k max64) as [Hkm|Hkm]; cbn [negb].
        -- cbn [In]. split.
           ++ intros [H|[H|H]].
              ** inversion H; subst; lia.
              ** inversion H; subst; lia.
              ** right. split; [|auto]. lia.
           ++ intros [[-> ->]|[_ [H|H]]]; auto.
        -- cbn [In]. split.
           ++ intros [H|H]; [inversion H; auto|]. right. split; [|auto].
              specialize (HF _ H). simpl in HF. lia.
           ++ intros [[-> ->]|[H1 [H|H]]]; auto. inversion H; subst; congruence.
      * cbn [In]. split.
        -- intros [H|[H|H]]; [inversion H; auto| |]; right.
           ++ inversion H; subst. split; [lia|auto].
           ++ specialize (HF _ H). simpl in HF. split; [lia|auto].
        -- intros [[-> ->]|[H1 [H|H]]]; auto.
Qed.

Lemma am_insert_key : forall m k v e, In e (am_insert m k v) -> fst e = k \/ exists e', In e' m /\ fst e' = fst e.
Proof.
  induction m as [|[b x] m IH]; intros k v e H; cbn [am_insert] in H.
  - destruct H as [<-|[]]; auto.
  - destruct (b <? k).
    + destruct H as [<-|H]; [right; eexists; split; [left; reflexivity|reflexivity]|].
      destruct (IH k v e H) as [|(e' & H1 & H2)]; auto. right. exists e'. simpl; auto.
    + destruct ((b =? k) && negb (k =? max64)).
      * destruct H as [<-|H]; auto. right. exists e. simpl; auto.
      * destruct H as [<-|H]; auto. right. exists e. auto.
Qed.

Lemma am_insert_sorted : forall m k v, keys_sorted m -> (forall e, In e m -> fst e <= max64) -> k <= max64 ->
  keys_sorted (am_insert m k v).
Proof.
  induction m as [|[b x] m IH]; intros k v HS Hm Hk; cbn [am_insert].
  - constructor; constructor.
  - inversion HS as [|? ? HS' HF]; subst. pose proof (Hm _ (or_introl eq_refl)) as Hb. simpl in Hb.
    pose proof HF as HF0. rewrite Forall_forall in HF.
    destruct (N.ltb_spec b k) as [Hlt|Hge].
    + constructor.
      * apply IH; auto. intros; apply Hm; right; assumption.
      * apply Forall_forall. intros e He. simpl. destruct (am_insert_key _ _ _ _ He) as [->|(e' & He' & Ee)].
        -- left. exact Hlt.
        -- specialize (HF e' He'). simpl in HF. rewrite Ee in HF. exact HF.
    + destruct (N.eqb_spec b k) as [He|He]; cbn [andb].
      * destruct (N.eqb_spec k max64) as [Hkm|Hkm]; cbn [negb].
        -- constructor; auto. apply Forall_forall. intros e [<-|Hin]; simpl; [right; lia|].
           specialize (HF e Hin). simpl in HF. lia.
        -- subst b. constructor; auto.
      * constructor; auto. apply Forall_forall. intros e [<-|Hin]; simpl; [left; lia|].
        specialize (HF e Hin). simpl in HF. lia.
Qed.

Lemma sentinels_cons : forall e m, sentinels (e :: m) = ((if (fst e =? max64)%N then 1 else 0) + sentinels m)%nat.
Proof. intros. unfold sentinels. cbn [filter]. destruct (fst e =? max64); reflexivity. Qed.

Lemma am_insert_sent : forall m k v,
  sentinels (am_insert m k v) = (sentinels m + if (k =? max64)%N then 1 else 0)%nat.
Proof.
  induction m as [|[b x] m IH]; intros k v; cbn [am_insert].
  - rewrite sentinels_cons. simpl fst. unfold sentinels. simpl. destruct (k =? max64); reflexivity.
  - destruct (b <? k).
    + rewrite !sentinels_cons, IH. lia.
    + destruct (N.eqb_spec b k) as [->|Hne]; cbn [andb].
      * destruct (N.eqb_spec k max64) as [->|Hm]; cbn [negb]; rewrite !sentinels_cons; simpl fst.
        -- rewrite N.eqb_refl. lia.
        -- destruct (N.eqb_spec k max64); [congruence|]. lia.
      * rewrite !sentinels_cons. simpl fst. lia.
Qed.

Lemma am_remove_spec : forall m k, keys_sorted m -> (forall e, In e m -> fst e <= max64) -> k <= max64 ->
  match am_remove m k with
  | Ok m' =>
      keys_sorted m' /\ (forall e, In e m' -> In e m) /\
      (forall a w, a < max64 -> (In (a, w) m' <-> (a <> k /\ In (a, w) m))) /\
      (k = max64 -> (S (sentinels m') = sentinels m)%nat) /\ (k <> max64 -> sentinels m' = sentinels m)
  | UB u => u = UBadFree /\ k = max64 /\ sentinels m = O
  | _ => False
  end.
Proof.
  induction m as [|[b x] m IH]; intros k HS Hm Hk; cbn [am_remove].
  - destruct (N.eqb_spec k max64) as [E|E]; [auto|]. conj_split; auto.
    + intros a w _. simpl. tauto.
    + intro; congruence.
  - inversion HS as [|? ? HS' HF]; subst. pose proof (Hm _ (or_introl eq_refl)) as Hb. simpl in Hb.
    pose proof HF as HF0. rewrite Forall_forall in HF.
    destruct (N.ltb_spec b k) as [Hlt|Hge].
    + assert (Hm' : forall e, In e m -> fst e <= max64) by (intros; apply Hm; right; assumption).
      specialize (IH k HS' Hm' Hk). destruct (am_remove m k) as [m'| |u| |]; cbn [bind]; try contradiction.
      * destruct IH as (I1 & I2 & I3 & I4 & I5). conj_split.
        -- constructor; auto. apply Forall_forall. intros e He. apply HF. auto.
        -- intros e [<-|He]; simpl; auto.
        -- intros a w Ha. cbn [In]. rewrite I3 by exact Ha. split.
           ++ intros [H|[]]; auto. inversion H; subst. split; [lia|auto].
           ++ intros [H1 [H2|H2]]; auto.
        -- intro Ek. rewrite !sentinels_cons, <- I4 by exact Ek. lia.
        -- intro Ek. rewrite !sentinels_cons, I5 by exact Ek. reflexivity.
      * destruct IH as (I1 & I2 & I3). conj_split; auto. rewrite sentinels_cons, I3. simpl fst.
        destruct (N.eqb_spec b max64); [lia|reflexivity].
    + destruct (N.eqb_spec b k) as [He|He].
      * subst b. conj_split; auto.
        -- intros e He. right. exact He.
        -- intros a w Ha. split.
           ++ intro H. split; [|right; exact H]. specialize (HF _ H). simpl in HF. lia.
           ++ intros [H1 [H2|H2]]; [inversion H2; congruence|exact H2].
        -- intros ->. rewrite sentinels_cons. simpl fst. rewrite N.eqb_refl. reflexivity.
        -- intro Hn. rewrite sentinels_cons. simpl fst. destruct (N.eqb_spec k max64); [congruence|reflexivity].
      * conj_split; auto.
        -- intros a w Ha. split.
           ++ intros [H|H].
              ** inversion H; subst. split; [lia|left; reflexivity].
              ** split; [|right; exact H]. specialize (HF _ H). simpl in HF. lia.
           ++ tauto.
        -- intro Ek. lia.
Qed.

Lemma am_ok_nil : am_ok [] [].
Proof.
  constructor; [constructor | intros ? [] | | reflexivity].
  - intros k v _. unfold live. simpl. split; [intros []|intros [H _]; discriminate].
Qed.

Lemma max64_spec : 2 ^ 64 - 1 = max64. Proof. reflexivity. Qed.

Lemma am_ok_step : forall h m a s, am_ok h m -> a <= max64 ->
  match am_update m a s with
  | Ok m' => am_ok (h ++ [(a, s)]) m'
  | UB u => u = UBadFree /\ (sentinel_allocs (h ++ [(a, s)]) < sentinel_frees (h ++ [(a, s)]))%nat
  | _ => False
  end.
Proof.
  intros h m a s [HS Hm Hl Hc] Ha. unfold am_update.
  assert (Hfr : sentinel_frees (h ++ [(a, s)]) = (sentinel_frees h + if (a =? max64)%N && (s =? 0)%N then 1 else 0)%nat).
  { unfold sentinel_frees. rewrite filter_len_snoc. reflexivity. }
  assert (Hal : sentinel_allocs (h ++ [(a, s)]) = (sentinel_allocs h + if (a =? max64)%N && negb (s =? 0)%N then 1 else 0)%nat).
  { unfold sentinel_allocs. rewrite filter_len_snoc. reflexivity. }
  destruct (N.eqb_spec s 0) as [Hs|Hs].
  - pose proof (am_remove_spec m a HS Hm Ha) as HR. destruct (am_remove m a) as [m'| |u| |]; try contradiction.
    + destruct HR as (R1 & R2 & R3 & R4 & R5). constructor; auto.
      * intros k v Hk. rewrite R3, Hl by exact Hk. unfold live. rewrite last_size_snoc.
        destruct (N.eqb_spec a k); [|split; [tauto|intro; split; [congruence|tauto]]]. subst k. split.
        -- intros [H _]. congruence.
        -- intros [H1 H2]. inversion H1. congruence.
      * rewrite Hfr, Hal. destruct (N.eqb_spec a max64) as [E|E]; cbn [andb negb].
        -- specialize (R4 E). lia.
        -- specialize (R5 E). lia.
    + destruct HR as (R1 & R2 & R3). split; [exact R1|]. rewrite Hfr, Hal. subst a.
      rewrite !N.eqb_refl. cbn [andb negb]. lia.
  - constructor.
    + apply am_insert_sorted; auto.
    + intros e He. destruct (am_insert_key _ _ _ _ He) as [->|(e' & He' & <-)]; auto.
    + intros k v Hk. rewrite am_insert_in by auto. rewrite Hl by exact Hk. unfold live. rewrite last_size_snoc.
      destruct (N.eqb_spec a k) as [->|Hne]; split.
      * intros [[_ ->]|[H _]]; [auto|congruence].
      * intros [H _]. inversion H. auto.
      * intros [[-> _]|[_ H]]; [congruence|exact H].
      * intro H. right. split; [congruence|exact H].
    + rewrite Hfr, Hal, am_insert_sent. cbn [negb].
      rewrite andb_true_r, andb_false_r. lia.
Qed.

Lemma am_run_snoc : forall h m a s,
  am_run m (h ++ [(a, s)]) = (m' <- am_run m h ;; am_update m' a s).
Proof.
  induction h as [|[b t] h IH]; intros m a s; simpl.
  - destruct (am_update m a s); reflexivity.
  - destruct (am_update m b t); simpl; auto.
Qed.

Lemma sentinel_safe_snoc : forall h r, sentinel_safe (h ++ [r]) <->
  sentinel_safe h /\ (sentinel_frees (h ++ [r]) <= sentinel_allocs (h ++ [r]))%nat.
Proof.
  intros h r. split.
  - intro H. split.
    + intros pre post E. apply (H pre (post ++ [r])). rewrite E, app_assoc. reflexivity.
    + apply (H (h ++ [r]) []). rewrite app_nil_r. reflexivity.
  - intros [H1 H2] pre post. destruct post as [|x post _] using rev_ind; intro E.
    + rewrite app_nil_r in E. subst pre. exact H2.
    + rewrite app_assoc in E. apply app_inj_tail in E. destruct E as [E _].
      apply (H1 pre post). exact E.
Qed.

Lemma sentinel_safe_nil : sentinel_safe [].
Proof. intros pre post E. symmetry in E. apply app_eq_nil in E. destruct E as [-> _]. apply le_n. Qed.

Lemma records_ok_max : forall h, records_ok h -> forall r, In r h -> fst r <= max64.
Proof.
  intros h H r Hr. unfold records_ok in H. rewrite Forall_forall in H. destruct (H r Hr) as [H1 _].
  change (2 ^ 64) with two64 in H1. unfold two64, max64 in *. lia.
Qed.

(** Running the abstract map on a history. *)
Lemma am_run_ok : forall h, (forall r, In r h -> fst r <= max64) ->
  (sentinel_safe h /\ exists m, am_run [] h = Ok m /\ am_ok h m) \/
  (~ sentinel_safe h /\ am_run [] h = UB UBadFree).
Proof.
  induction h as [|[a s] h IH] using rev_ind; intro Hr.
  - left. split; [apply sentinel_safe_nil|]. exists []. split; [reflexivity|apply am_ok_nil].
  - rewrite am_run_snoc. destruct IH as [(Hs & m & Hm & Ho)|(Hs & Hm)].
    + intros r Hin. apply Hr. apply in_app_iff; auto.
    + rewrite Hm. cbn [bind].
      assert (Ha : a <= max64) by (apply (Hr (a, s)); apply in_app_iff; simpl; auto).
      pose proof (am_ok_step h m a s Ho Ha) as HS. destruct (am_update m a s) as [m'| |u| |]; try contradiction.
      * left. split; [|eauto]. apply sentinel_safe_snoc. split; [exact Hs|]. pose proof (ao_sent _ _ HS). lia.
      * destruct HS as [-> HS]. right. split; [|reflexivity]. rewrite sentinel_safe_snoc. lia.
    + right. rewrite Hm. split; [|reflexivity]. rewrite sentinel_safe_snoc. tauto.
Qed.

Lemma repr_run : forall coins h m am, repr m am -> (forall r, In r h -> fst r <= max64) ->
  match am_run am h with
  | Ok am' => exists m', mm_run coins m h = Ok m' /\ repr m' am'
  | UB k => mm_run coins m h = UB k
  | _ => False
  end.
Proof.
  induction h as [|[a s] h IH]; intros m am HR Hr; cbn [am_run mm_run].
  - eauto.
  - pose proof (repr_update coins m am a s HR (Hr (a, s) (or_introl eq_refl))) as HU.
    destruct (am_update am a s) as [am'| |u| |]; try contradiction; cbn [bind].
    + destruct HU as (m' & Hm' & HR'). rewrite Hm'. cbn [bind]. apply IH; auto.
      intros; apply Hr; right; assumption.
    + rewrite HU. reflexivity.
Qed.

Lemma am_find_spec : forall m a, keys_sorted m -> a < max64 ->
  match am_find m a with
  | Some (k, v) => In (k, v) m /\ k <= a /\ (forall e, In e m -> fst e <= a -> fst e <= k)
  | None => forall e, In e m -> a < fst e
  end.
Proof.
  induction m as [|[b x] m IH]; intros a HS Ha; cbn [am_find]; [intros ? []|].
  inversion HS as [|? ? HS' HF]; subst. rewrite Forall_forall in HF.
  destruct (N.leb_spec b a) as [Hle|Hgt].
  - specialize (IH a HS' Ha). destruct (am_find m a) as [[k v]|].
    + destruct IH as (I1 & I2 & I3). conj_split; auto; [right; exact I1|].
      intros e [<-|He] Hea; simpl; auto. specialize (HF _ I1). simpl in HF. lia.
    + conj_split; auto; [left; reflexivity|]. intros e [<-|He] Hea; simpl; [lia|].
      specialize (IH e He). lia.
  - intros e [<-|He]; simpl; auto. specialize (HF e He). simpl in HF. lia.
Qed.

Lemma am_compute_answer : forall h m a, am_ok h m -> a < max64 -> answer h a (am_compute m a).
Proof.
  intros h m a [HS Hm Hl Hc] Ha. unfold am_compute. destruct (N.eqb_spec a max64); [lia|].
  pose proof (am_find_spec m a HS Ha) as HF. destruct (am_find m a) as [[k v]|].
  - destruct HF as (F1 & F2 & F3).
    assert (HN : nearest h a k v).
    { split; [apply Hl; [lia|exact F1]|]. split; [exact F2|].
      intros k' v' Hk' Hle. apply Hl in Hk'; [|lia]. apply (F3 (k', v')); auto. }
    unfold add64. change two64 with (2 ^ 64). destruct (N.leb_spec a ((k + v) mod 2 ^ 64)).
    + apply ans_inside; auto.
    + rewrite <- max64_spec. eapply ans_beyond; eauto.
  - rewrite <- max64_spec. apply ans_none. intros k v Hk Hle. apply Hl in Hk; [|lia].
    specialize (HF _ Hk). simpl in HF. lia.
Qed.

Lemma nearest_fun : forall h a k v k' v', nearest h a k v -> nearest h a k' v' -> k = k' /\ v = v'.
Proof.
  intros h a k v k' v' (L1 & H1 & M1) (L2 & H2 & M2).
  assert (k = k') by (pose proof (M1 _ _ L2 H2); pose proof (M2 _ _ L1 H1); lia).
  subst k'. split; [reflexivity|]. destruct L1, L2. congruence.
Qed.

Lemma answer_fun : forall h a r r', answer h a r -> answer h a r' -> r = r'.
Proof.
  intros h a r r' H1 H2.
  inversion H1 as [k v N1 L1|k v N1 L1|N1]; inversion H2 as [k' v' N2 L2|k' v' N2 L2|N2]; subst; auto;
  try (destruct (nearest_fun _ _ _ _ _ _ N1 N2); subst; try lia; reflexivity);
  try (destruct N1 as (X & Y & _); exfalso; eapply N2; eauto; fail);
  try (destruct N2 as (X & Y & _); exfalso; eapply N1; eauto; fail).
Qed.
