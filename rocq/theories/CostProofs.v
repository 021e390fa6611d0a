(** Proofs about the number of comparisons of the memory map. *)
From Verif Require Import Base BaseProofs SkipList SkipListProofs MemMapSpec AMap MemMapProofs MemMapMore Cost.
From Coq Require Import Sorting.Sorted Logic.FinFun.

(** ** Forgetting the counts *)

Definition erase {A} (o : outcome (A * nat)) : outcome A := ' (x, _) <- o ;; Ok x.

Lemma walk_erase : forall f sl i t c, erase (walk_n f sl i t c) = walk f sl i t c.
Proof.
  unfold erase. induction f as [|f IH]; intros sl i t c; [reflexivity|]. cbn [walk_n walk].
  destruct (next_of sl c i) as [nx| | | |]; cbn [bind]; auto.
  destruct (key_of sl nx) as [k| | | |]; cbn [bind]; auto.
  destruct (t k); [|reflexivity]. rewrite <- IH. destruct (walk_n f sl i t nx) as [[? ?]| | | |]; reflexivity.
Qed.

Lemma find_loop_erase : forall i sl key c, erase (find_loop_n sl key i c) = find_loop sl key i c.
Proof.
  induction i as [|i IH]; intros sl key c; [reflexivity|]. cbn [find_loop_n find_loop].
  rewrite <- walk_erase. unfold erase at 2. destruct (walk_n _ _ _ _ _) as [[c' n]| | | |]; cbn [bind]; auto.
  rewrite <- IH. unfold erase. destruct (find_loop_n sl key i c') as [[? ?]| | | |]; reflexivity.
Qed.

Lemma find_erase : forall sl key, erase (skip_list_find_n sl key) = skip_list_find sl key.
Proof.
  intros sl key. unfold skip_list_find_n, skip_list_find. destruct (key =? max64); [reflexivity|].
  rewrite <- find_loop_erase. unfold erase. destruct (find_loop_n _ _ _ _) as [[[|id] n]| | | |]; reflexivity.
Qed.

Lemma remove_search_erase : forall i sl key c, erase (remove_search_n sl key i c) = remove_search sl key i c.
Proof.
  induction i as [|i IH]; intros sl key c; [reflexivity|]. cbn [remove_search_n remove_search].
  rewrite <- walk_erase. unfold erase at 2. destruct (walk_n _ _ _ _ _) as [[c' n]| | | |]; cbn [bind]; auto.
  rewrite <- IH. unfold erase. destruct (remove_search_n sl key i c') as [[[? ?] ?]| | | |]; reflexivity.
Qed.

Lemma remove_erase : forall sl key, erase (skip_list_remove_n sl key) = skip_list_remove sl key.
Proof.
  intros sl key. unfold skip_list_remove_n, skip_list_remove. rewrite <- remove_search_erase. unfold erase.
  destruct (remove_search_n _ _ _ _) as [[[c ups] n]| | | |]; cbn [bind]; auto.
  destruct (next_of sl c 1) as [t| | | |]; cbn [bind]; auto.
  destruct (key_of sl t) as [k| | | |]; cbn [bind]; auto. destruct (k =? key); [|reflexivity].
  destruct (unlink_loop sl 1 ups t) as [s1| | | |]; cbn [bind]; auto.
  destruct (free_node s1 t) as [s2| | | |]; cbn [bind]; auto.
  destruct (shrink_loop s2 (sl_height s2)) as [h| | | |]; reflexivity.
Qed.

Lemma insert_loop_erase : forall i sl key new lv c, erase (insert_loop_n sl key new lv i c) = insert_loop sl key new lv i c.
Proof.
  induction i as [|i IH]; intros sl key new lv c; [reflexivity|]. cbn [insert_loop_n insert_loop].
  rewrite <- walk_erase. unfold erase at 2. destruct (walk_n _ _ _ _ _) as [[c' n]| | | |]; cbn [bind]; auto.
  match goal with |- erase (bind ?x _) = _ => destruct x as [s'| | | |]; cbn [bind]; auto end.
  rewrite <- IH. unfold erase. destruct (insert_loop_n s' key new lv i c') as [[? ?]| | | |]; reflexivity.
Qed.

Lemma update_erase : forall coins sl pos key v,
  erase (skip_list_update_n coins sl pos key v) = skip_list_update coins sl pos key v.
Proof.
  intros coins sl pos key v. unfold skip_list_update_n, skip_list_update. rewrite <- find_erase. unfold erase at 2.
  destruct (skip_list_find_n sl key) as [[[id|] n]| | | |]; cbn [bind]; auto.
  - destruct (key_of sl (Nd id)) as [k| | | |]; cbn [bind]; auto. destruct (k =? key).
    + destruct (set_value sl id v) as [s| | | |]; reflexivity.
    + destruct (random_level coins pos) as [lv p]. unfold skip_list_insert_n, skip_list_insert.
      rewrite <- insert_loop_erase. unfold erase. destruct (insert_loop_n _ _ _ _ _ _) as [[? ?]| | | |]; reflexivity.
  - destruct (random_level coins pos) as [lv p]. unfold skip_list_insert_n, skip_list_insert.
    rewrite <- insert_loop_erase. unfold erase. destruct (insert_loop_n _ _ _ _ _ _) as [[? ?]| | | |]; reflexivity.
Qed.

Lemma mm_update_erase : forall coins m a s, erase (mm_update_n coins m a s) = mm_update coins m a s.
Proof.
  intros coins m a s. unfold mm_update_n, mm_update. destruct (s =? 0).
  - rewrite <- remove_erase. unfold erase. destruct (skip_list_remove_n _ _) as [[? ?]| | | |]; reflexivity.
  - rewrite <- update_erase. unfold erase. destruct (skip_list_update_n _ _ _ _ _) as [[[? ?] ?]| | | |]; reflexivity.
Qed.

Lemma mm_compute_erase : forall m a, erase (mm_compute_n m a) = mm_compute m a.
Proof.
  intros m a. unfold mm_compute_n, mm_compute. rewrite <- find_erase. unfold erase.
  destruct (skip_list_find_n _ _) as [[[id|] n]| | | |]; cbn [bind]; auto.
  destruct (sl_heap (mm_sl m) id) as [nd|]; auto. cbv zeta. destruct (a <=? _); reflexivity.
Qed.

Lemma mm_run_erase : forall coins h m, erase (mm_run_n coins m h) = mm_run coins m h.
Proof.
  intros coins. induction h as [|[a s] h IH]; intro m; [reflexivity|]. cbn [mm_run_n mm_run].
  rewrite <- mm_update_erase. unfold erase at 2. destruct (mm_update_n coins m a s) as [[m' n]| | | |]; cbn [bind]; auto.
  rewrite <- IH. unfold erase. destruct (mm_run_n coins m' h) as [[? ?]| | | |]; reflexivity.
Qed.

Lemma erase_ok : forall A (o : outcome (A * nat)) x, erase o = Ok x -> exists n, o = Ok (x, n).
Proof. intros A [[y n]| | | |] x H; try discriminate. injection H as ->. eauto. Qed.

(** ** Walks *)

(** Number of cells after the last one that satisfies [p]. *)
Fixpoint lead (p : cell -> bool) (l : list cell) : nat :=
  match l with [] => 0 | c :: r => if p c then 0 else S (lead p r) end.
Definition aft (p : cell -> bool) (A : list cell) : nat := lead p (rev A).

Lemma aft_le : forall p A, (aft p A <= length A)%nat.
Proof.
  intros p A. unfold aft. rewrite <- rev_length. induction (rev A) as [|c r IH]; simpl; [lia|]. destruct (p c); lia.
Qed.

Lemma suffix_n : forall (p q : cell -> bool), (forall c, p c = true -> q c = true) ->
  forall A, exists A2,
    (forall c, In c A2 -> In c (filter q A)) /\ (length A2 + aft q A <= aft p A)%nat /\
    lastp Head (ids (filter q A)) = lastp (lastp Head (ids (filter p A))) (ids A2) /\
    forall sl i T, path sl i Head (ids (filter q A ++ T)) ->
                   path sl i (lastp Head (ids (filter p A))) (ids (A2 ++ T)).
Proof.
  intros p q Hpq. unfold aft. induction A as [|c A IH] using rev_ind.
  - exists []. conj_split; simpl; auto.
  - destruct IH as (A2 & Hin & Hlen & Hlast & Hpath). rewrite rev_app_distr. cbn [rev app lead].
    rewrite !filter_app. simpl. destruct (p c) eqn:Ep.
    + rewrite (Hpq c Ep). exists []. conj_split; simpl; auto; try lia.
      * unfold ids. rewrite !map_app. simpl. rewrite !lastp_snoc. reflexivity.
      * intros sl i T Hp. unfold ids in *. rewrite !map_app in *. simpl in *.
        rewrite <- app_assoc in Hp. apply path_app in Hp. destruct Hp as [_ Hp].
        simpl in Hp. destruct Hp as [_ Hp]. rewrite lastp_snoc. exact Hp.
    + rewrite app_nil_r. destruct (q c) eqn:Eq.
      * exists (A2 ++ [c]). conj_split.
        -- intros d Hd. apply in_app_iff in Hd. apply in_app_iff. destruct Hd; auto.
        -- rewrite !app_length. simpl. lia.
        -- unfold ids in *. rewrite !map_app. simpl. rewrite lastp_snoc, lastp_app.
           rewrite lastp_cons, lastp_nil. reflexivity.
        -- intros sl i T Hp. rewrite <- app_assoc in *. simpl in *. apply Hpath. exact Hp.
      * exists A2. rewrite app_nil_r. conj_split; auto. simpl. lia.
Qed.

Lemma walk_n_spec : forall sl i test, test max64 = false ->
  forall S1 S2 cur fuel,
  path sl i cur (ids (S1 ++ S2)) ->
  (forall c, In c (S1 ++ S2) -> key_of sl (Nd (c_id c)) = Ok (c_key c)) ->
  (forall c, In c S1 -> test (c_key c) = true) ->
  (forall c, In c S2 -> test (c_key c) = false) ->
  (length S1 < fuel)%nat ->
  walk_n fuel sl i test cur = Ok (lastp cur (ids S1), S (length S1)).
Proof.
  intros sl i test Hmax. induction S1 as [|c S1 IH]; intros S2 cur fuel Hp Hk H1 H2 Hf.
  - destruct fuel as [|f]; [simpl in Hf; lia|]. simpl.
    pose proof (path_next _ _ _ _ Hp) as Hn. rewrite Hn. simpl.
    destruct S2 as [|d S2]; simpl.
    + rewrite Hmax. reflexivity.
    + simpl in Hk. pose proof (Hk d (or_introl eq_refl)) as Hkd. simpl in Hkd.
      rewrite Hkd. simpl. rewrite (H2 d (or_introl eq_refl)). reflexivity.
  - destruct fuel as [|f]; [simpl in Hf; lia|]. simpl in Hp. destruct Hp as [Hn Hp].
    cbn [walk_n]. rewrite Hn. cbn [bind].
    rewrite (Hk c (or_introl eq_refl)). cbn [bind]. rewrite (H1 c (or_introl eq_refl)).
    rewrite (IH S2 (Nd (c_id c)) f); auto.
    + cbn [bind ids map length]. rewrite lastp_cons. reflexivity.
    + intros d Hd. apply Hk. right. exact Hd.
    + intros d Hd. apply H1. right. exact Hd.
    + simpl in Hf. lia.
Qed.

Lemma walk_n_descend : forall sl A B i test fuel,
  (forall c, In c (A ++ B) -> key_of sl (Nd (c_id c)) = Ok (c_key c)) -> (length A < fuel)%nat ->
  path sl i Head (ids (at_lvl i (A ++ B))) ->
  test max64 = false ->
  (forall c, In c A -> test (c_key c) = true) ->
  (forall c, In c B -> test (c_key c) = false) ->
  exists n, walk_n fuel sl i test (last_at (S i) A) = Ok (last_at i A, n) /\
    (n + aft (ge_lvl i) A <= 1 + aft (ge_lvl (S i)) A)%nat.
Proof.
  intros sl A B i test fuel Hkey Hf Hp Hmax HA HB.
  destruct (suffix_n (ge_lvl (S i)) (ge_lvl i) (at_lvl_mono i) A) as (A2 & Hin & Hlen & Hlast & Hpath).
  exists (S (length A2)). split; [|lia].
  unfold last_at, at_lvl. rewrite Hlast. rewrite at_lvl_app in Hp.
  apply walk_n_spec with (S2 := at_lvl i B); auto.
  - intros c Hc. apply Hkey. apply in_app_iff. apply in_app_iff in Hc. destruct Hc as [Hc|Hc].
    + left. apply Hin in Hc. apply filter_In in Hc. tauto.
    + right. apply in_at_lvl in Hc. tauto.
  - intros c Hc. apply HA. apply Hin in Hc. apply filter_In in Hc. tauto.
  - intros c Hc. apply HB. apply in_at_lvl in Hc. tauto.
  - pose proof (aft_le (ge_lvl (S i)) A). lia.
Qed.

Section Descent.
Variables (sl : skiplist) (A B : list cell) (key : N).
Hypothesis HI : inv sl (A ++ B).

Lemma keys_inv : forall c, In c (A ++ B) -> key_of sl (Nd (c_id c)) = Ok (c_key c).
Proof. intros c Hc. apply key_of_cell with (A ++ B); [apply (inv_nodes _ _ HI)|exact Hc]. Qed.
Lemma len_inv : (length A < fuel_of sl)%nat.
Proof.
  pose proof (nodes_len _ _ (inv_nodes _ _ HI)). rewrite app_length in H. unfold fuel_of. lia.
Qed.
Lemma top_inv : Head = last_at (S (sl_height sl)) A.
Proof.
  symmetry. apply last_at_top with (sl_height sl); [|lia]. intros c Hc.
  apply (so_lvl _ _ (inv_shape _ _ HI)). apply in_app_iff; auto.
Qed.
Lemma height_inv : (1 <= sl_height sl <= max_height)%nat.
Proof. apply (so_height _ _ (inv_shape _ _ HI)). Qed.

Lemma find_loop_n_spec : key < max64 ->
  (forall c, In c A -> c_key c <= key) -> (forall c, In c B -> key < c_key c) ->
  forall i, (i <= sl_height sl)%nat ->
  exists n, find_loop_n sl key i (last_at (S i) A) = Ok (last_at 1 A, n) /\ (n <= i + aft (ge_lvl (S i)) A)%nat.
Proof.
  intros Hk HA HB. induction i as [|i IH]; intro Hi; [exists 0%nat; split; [reflexivity|lia]|].
  cbn [find_loop_n].
  destruct (walk_n_descend sl A B (S i) (fun k => k <=? key) (fuel_of sl)) as (n & Hw & Hn).
  - exact keys_inv.
  - exact len_inv.
  - apply (inv_path _ _ HI). pose proof height_inv. lia.
  - apply N.leb_gt. exact Hk.
  - intros c Hc. apply N.leb_le. auto.
  - intros c Hc. apply N.leb_gt. auto.
  - rewrite Hw. cbn [bind]. destruct IH as (n' & E & Hn'); [lia|]. rewrite E. cbn [bind].
    eexists. split; [reflexivity|]. lia.
Qed.

Lemma find_n_bound : key <= max64 -> (forall c, In c A -> c_key c <= key) -> (forall c, In c B -> key < c_key c) ->
  forall r n, skip_list_find_n sl key = Ok (r, n) -> (n <= length A + max_height)%nat.
Proof.
  intros Hm HA HB r n. unfold skip_list_find_n. destruct (N.eqb_spec key max64) as [|Hk].
  - intro H. assert (n = 0%nat) by congruence. lia.
  - destruct (find_loop_n_spec ltac:(lia) HA HB (sl_height sl) ltac:(lia)) as (n' & E & Hn').
    rewrite <- top_inv in E. rewrite E. cbn [bind]. pose proof (aft_le (ge_lvl (S (sl_height sl))) A).
    pose proof height_inv. intro H1. destruct (last_at 1 A); injection H1 as _ <-; lia.
Qed.

Lemma remove_search_n_spec : key <= max64 ->
  (forall c, In c A -> c_key c < key) -> (forall c, In c B -> key <= c_key c) ->
  forall i, (i <= sl_height sl)%nat ->
  exists ups n, remove_search_n sl key i (last_at (S i) A) = Ok (last_at 1 A, ups, n) /\
    (n <= i + aft (ge_lvl (S i)) A)%nat.
Proof.
  intros Hk HA HB. induction i as [|i IH]; intro Hi; [exists [], 0%nat; split; [reflexivity|lia]|].
  cbn [remove_search_n].
  destruct (walk_n_descend sl A B (S i) (fun k => k <? key) (fuel_of sl)) as (n & Hw & Hn).
  - exact keys_inv.
  - exact len_inv.
  - apply (inv_path _ _ HI). pose proof height_inv. lia.
  - apply N.ltb_ge. exact Hk.
  - intros c Hc. apply N.ltb_lt. auto.
  - intros c Hc. apply N.ltb_ge. auto.
  - rewrite Hw. cbn [bind]. destruct IH as (ups & n' & E & Hn'); [lia|]. rewrite E. cbn [bind].
    do 2 eexists. split; [reflexivity|]. lia.
Qed.

Lemma remove_n_bound : key <= max64 -> (forall c, In c A -> c_key c < key) -> (forall c, In c B -> key <= c_key c) ->
  forall r n, skip_list_remove_n sl key = Ok (r, n) -> (n <= length A + max_height + 1)%nat.
Proof.
  intros Hm HA HB r n. unfold skip_list_remove_n.
  destruct (remove_search_n_spec Hm HA HB (sl_height sl) ltac:(lia)) as (ups & n' & E & Hn').
  rewrite <- top_inv in E. rewrite E. cbn [bind]. pose proof (aft_le (ge_lvl (S (sl_height sl))) A).
  pose proof height_inv. clear E.
  destruct (next_of sl _ 1) as [t| | | |]; cbn [bind]; try discriminate.
  destruct (key_of sl t) as [k| | | |]; cbn [bind]; try discriminate. destruct (k =? key).
  - destruct (unlink_loop sl 1 ups t) as [s1| | | |]; cbn [bind]; try discriminate.
    destruct (free_node s1 t) as [s2| | | |]; cbn [bind]; try discriminate.
    destruct (shrink_loop s2 (sl_height s2)) as [h| | | |]; cbn [bind]; try discriminate.
    intro X. assert (n = S n') by congruence. lia.
  - intro X. assert (n = S n') by congruence. lia.
Qed.
End Descent.

(** ** Insertion: at each level the walk sees the pointers of that level as
    they were before the insertion. *)

Lemma set_next_frame : forall sl p i q sl', set_next sl p i q = Ok sl' ->
  sl_fresh sl' = sl_fresh sl /\ sl_height sl' = sl_height sl /\
  (forall r, key_of sl' r = key_of sl r) /\ (forall r j, j <> i -> next_of sl' r j = next_of sl r j).
Proof.
  intros sl p i q sl' H. destruct p as [|id]; cbn [set_next] in H.
  - destruct (Nat.ltb i (length (sl_head sl))); [|discriminate]. injection H as <-. cbn.
    conj_split; auto. intros [|x] j Hj; cbn [next_of sl_head sl_heap]; [|reflexivity].
    unfold read_arr. rewrite list_set_other by auto. reflexivity.
  - destruct (sl_heap sl id) as [n|] eqn:En; [|discriminate].
    destruct (Nat.ltb i (length (sn_next n))); [|discriminate]. injection H as <-. cbn.
    conj_split; auto.
    + intros [|x]; cbn [key_of sl_heap]; [reflexivity|]. unfold heap_set.
      destruct (Nat.eqb_spec x id) as [->|]; [rewrite En|]; reflexivity.
    + intros [|x] j Hj; cbn [next_of sl_head sl_heap]; [reflexivity|]. unfold heap_set.
      destruct (Nat.eqb_spec x id) as [->|]; [rewrite En|reflexivity].
      unfold read_arr. cbn [sn_next]. rewrite list_set_other by auto. reflexivity.
Qed.

Lemma path_ext : forall sl sl' i, (forall r, next_of sl' r i = next_of sl r i) ->
  forall l p, path sl i p l -> path sl' i p l.
Proof.
  intros sl sl' i H. induction l as [|x l IH]; intros p Hp; cbn [path] in *; rewrite H; [exact Hp|].
  destruct Hp as [H1 H2]. split; auto.
Qed.

Lemma insert_loop_n_bound : forall A B key new level, key <= max64 ->
  (forall c, In c A -> c_key c < key) -> (forall c, In c B -> key <= c_key c) ->
  forall i sl, (forall c, In c (A ++ B) -> key_of sl (Nd (c_id c)) = Ok (c_key c)) ->
  (length A < fuel_of sl)%nat ->
  (forall j, (1 <= j <= i)%nat -> path sl j Head (ids (at_lvl j (A ++ B)))) ->
  forall r n, insert_loop_n sl key new level i (last_at (S i) A) = Ok (r, n) ->
  (n <= i + aft (ge_lvl (S i)) A)%nat /\ sl_height r = sl_height sl.
Proof.
  intros A B key new level Hk HA HB. induction i as [|i IH]; intros sl Hkeys Hf Hp r n H.
  - cbn [insert_loop_n] in H. injection H as <- <-. split; [lia|reflexivity].
  - cbn [insert_loop_n] in H.
    destruct (walk_n_descend sl A B (S i) (fun k => k <? key) (fuel_of sl)) as (n1 & Hw & Hn1); auto.
    { apply Hp. lia. }
    { apply N.ltb_ge. exact Hk. }
    { intros c Hc. apply N.ltb_lt. auto. }
    { intros c Hc. apply N.ltb_ge. auto. }
    rewrite Hw in H. cbn [bind] in H.
    match type of H with bind ?x _ = _ => destruct x as [s'| | | |] eqn:Es end; cbn [bind] in H; try discriminate.
    destruct (insert_loop_n s' key new level i (last_at (S i) A)) as [[r' n2]| | | |] eqn:El; cbn [bind] in H; try discriminate.
    injection H as <- <-.
    assert (Hfr : sl_fresh s' = sl_fresh sl /\ sl_height s' = sl_height sl /\
      (forall r, key_of s' r = key_of sl r) /\ (forall r j, j <> S i -> next_of s' r j = next_of sl r j)).
    { destruct (Nat.leb (S i) level).
      - destruct (next_of sl (last_at (S i) A) (S i)) as [q| | | |]; cbn [bind] in Es; try discriminate.
        destruct (set_next sl new (S i) q) as [s1| | | |] eqn:E1; cbn [bind] in Es; try discriminate.
        apply set_next_frame in E1. apply set_next_frame in Es.
        destruct E1 as (a1 & a2 & a3 & a4). destruct Es as (b1 & b2 & b3 & b4).
        split; [congruence|]. split; [congruence|]. split.
        + intro x. rewrite b3, a3. reflexivity.
        + intros x j Hj. rewrite b4, a4 by exact Hj. reflexivity.
      - injection Es as <-. auto. }
    destruct Hfr as (f1 & f2 & f3 & f4).
    assert (g1 : forall c, In c (A ++ B) -> key_of s' (Nd (c_id c)) = Ok (c_key c)).
    { intros c Hc. rewrite f3. auto. }
    assert (g2 : (length A < fuel_of s')%nat) by (unfold fuel_of in *; rewrite f1; exact Hf).
    assert (g3 : forall j, (1 <= j <= i)%nat -> path s' j Head (ids (at_lvl j (A ++ B)))).
    { intros j Hj. apply path_ext with sl; [intro x; apply f4; lia|]. apply Hp. lia. }
    destruct (IH s' g1 g2 g3 _ _ El) as [Hn2 Hh]. split; [lia|congruence].
Qed.

Lemma insert_n_bound : forall sl A B key value level r n, inv sl (A ++ B) -> key <= max64 ->
  (1 <= level <= max_height)%nat ->
  (forall c, In c A -> c_key c < key) -> (forall c, In c B -> key <= c_key c) ->
  skip_list_insert_n sl key value level = Ok (r, n) ->
  (n <= length A + max_height)%nat /\ (level = 1%nat -> sl_height r = sl_height sl).
Proof.
  intros sl A B key value level r n HI Hk Hl HA HB. pose proof HI as [HN HS HP]. unfold skip_list_insert_n.
  pose proof (so_height _ _ HS) as Hh.
  set (grow := Nat.ltb (sl_height sl) level).
  set (height := if grow then S (sl_height sl) else sl_height sl).
  set (lv := if grow then height else level).
  assert (Hheight : (height <= max_height)%nat /\ (sl_height sl <= height)%nat /\ (level = 1%nat -> height = sl_height sl)).
  { unfold lv, height, grow. destruct (Nat.ltb_spec (sl_height sl) level); lia. }
  destruct Hheight as (Hht & Hge & H1).
  set (sl1 := mkSL height (sl_head sl) _ (S (sl_fresh sl))).
  assert (Ht : Head = last_at (S height) A).
  { symmetry. apply last_at_top with (sl_height sl); [|lia]. intros c Hc. apply (so_lvl _ _ HS). apply in_app_iff; auto. }
  assert (Hfr : forall c, In c (A ++ B) -> c_id c <> sl_fresh sl).
  { intros c Hc. pose proof (no_fresh _ _ HN c Hc). lia. }
  rewrite Ht. intro E.
  destruct (insert_loop_n_bound A B key (Nd (sl_fresh sl)) lv Hk HA HB height sl1) with (r := r) (n := n) as [Hn Hr]; auto.
  - intros c Hc. pose proof (key_of_cell _ _ _ HN Hc) as Hkc. cbn [key_of sl_heap sl1] in *.
    unfold sl1. cbn [sl_heap]. rewrite heap_set_other by (apply Hfr; exact Hc). exact Hkc.
  - pose proof (nodes_len _ _ HN) as Hlen. rewrite app_length in Hlen. unfold fuel_of, sl1. cbn [sl_fresh]. lia.
  - intros j Hj. apply path_frame with sl; [apply HP; lia|].
    intros q Hq. destruct Hq as [->|(x & Hx & ->)]; [reflexivity|].
    unfold ids in Hx. apply in_map_iff in Hx. destruct Hx as (c & <- & Hc). apply in_at_lvl in Hc.
    cbn [next_of sl1 sl_heap]. unfold sl1. cbn [sl_heap]. rewrite heap_set_other by (apply Hfr; tauto). reflexivity.
  - pose proof (aft_le (ge_lvl (S height)) A). split; [lia|]. intro X. rewrite Hr. cbn [sl1 sl_height]. auto.
Qed.

(** ** Live allocations *)

Lemma keys_nodup : forall A, StronglySorted before A -> (forall c, In c A -> c_key c < max64) -> NoDup (map c_key A).
Proof.
  induction A as [|a A IH]; intros HS HA; [constructor|]. inversion HS as [|? ? HS' HF]; subst.
  cbn [map]. constructor.
  - intro Hin. apply in_map_iff in Hin. destruct Hin as (c & E & Hc). rewrite Forall_forall in HF.
    pose proof (HA a (or_introl eq_refl)). destruct (HF c Hc) as [|[]]; lia.
  - apply IH; [exact HS'|]. intros c Hc. apply HA. right. exact Hc.
Qed.

Lemma live_count : forall h L A B l a, am_ok h (map kv L) -> L = A ++ B -> StronglySorted before L ->
  (forall c, In c A -> c_key c < max64 /\ c_key c <= a) ->
  (forall k v, live h k v -> k <= a -> In k l) -> (length A <= length l)%nat.
Proof.
  intros h L A B l a HO -> HS HA Hl. rewrite <- (map_length c_key A). apply NoDup_incl_length.
  - apply keys_nodup; [apply ss_app in HS; tauto|]. intros c Hc. apply HA. exact Hc.
  - intros k Hk. apply in_map_iff in Hk. destruct Hk as (c & <- & Hc). destruct (HA c Hc) as [H1 H2].
    apply (Hl _ (c_val c)); [|exact H2]. apply (ao_live _ _ HO); [exact H1|].
    apply in_map_iff. exists c. split; [reflexivity|]. apply in_app_iff; auto.
Qed.

Lemma compute_bound : forall h m am l a r n, repr m am -> am_ok h am -> a <= max64 ->
  (forall k v, live h k v -> k <= a -> In k l) ->
  mm_compute_n m a = Ok (r, n) -> (n <= length l + 32)%nat.
Proof.
  intros h m am l a r n (L & HI & ->) HO Ha Hl H. unfold mm_compute_n in H.
  destruct (skip_list_find_n (mm_sl m) a) as [[o n']| | | |] eqn:E; cbn [bind] in H; try discriminate.
  assert (n' = n) as ->.
  { destruct o as [id|]; [|congruence]. destruct (sl_heap (mm_sl m) id); [|discriminate]. cbv zeta in H.
    destruct (a <=? _); congruence. }
  destruct (N.eq_dec a max64) as [->|Hm].
  { unfold skip_list_find_n in E. rewrite N.eqb_refl in E. assert (n = 0%nat) by congruence. lia. }
  pose proof (so_sorted _ _ (inv_shape _ _ HI)) as Hs.
  destruct (find_split L a Hs) as (A & B & E2 & HA & HB). pose proof HI as HI2. rewrite E2 in HI2.
  pose proof (find_n_bound _ _ _ _ HI2 Ha HA HB _ _ E) as Hb.
  pose proof (live_count h L A B l a HO E2 Hs) as Hc. unfold max_height in Hb.
  assert (length A <= length l)%nat; [|lia]. apply Hc; [|exact Hl]. intros c Hin. pose proof (HA c Hin). lia.
Qed.

Lemma update_bound : forall h coins m am l a s r n, repr m am -> am_ok h am -> a <= max64 ->
  (forall k v, live h k v -> k <= a -> In k l) ->
  mm_update_n coins m a s = Ok (r, n) -> (n <= (if (s =? 0)%N then length l + 33 else 2 * length l + 65))%nat.
Proof.
  intros h coins m am l a s r n (L & HI & ->) HO Ha Hl H. unfold mm_update_n in H.
  pose proof (so_sorted _ _ (inv_shape _ _ HI)) as Hs.
  destruct (lt_split L a Hs) as (A & B & E2 & HA & HB). pose proof HI as HI2. rewrite E2 in HI2.
  assert (HlA : (length A <= length l)%nat).
  { apply (live_count h L A B l a HO E2 Hs); [|exact Hl]. intros c Hin. pose proof (HA c Hin). lia. }
  destruct (s =? 0).
  - destruct (skip_list_remove_n (mm_sl m) a) as [[sl' n']| | | |] eqn:E; cbn [bind] in H; try discriminate.
    pose proof (remove_n_bound _ _ _ _ HI2 Ha HA HB _ _ E) as Hb. unfold max_height in Hb.
    assert (n' = n) by congruence. lia.
  - destruct (skip_list_update_n coins (mm_sl m) (mm_pos m) a s) as [[[sl' p'] n']| | | |] eqn:E; cbn [bind] in H; try discriminate.
    assert (n' = n) as -> by congruence. clear H. unfold skip_list_update_n in E.
    destruct (skip_list_find_n (mm_sl m) a) as [[o nf]| | | |] eqn:Ef; cbn [bind] in E; try discriminate.
    assert (Hnf : (nf <= length l + 32)%nat).
    { assert (exists r, mm_compute_n m a = Ok (r, nf)) as (r' & Hc).
      { assert (Hcc := mm_compute_erase m a).
        rewrite (repr_compute m _ a (ex_intro _ L (conj HI eq_refl)) Ha) in Hcc.
        destruct (erase_ok _ _ _ Hcc) as (k & Hk). rewrite Hk. unfold mm_compute_n in Hk. rewrite Ef in Hk.
        cbn [bind] in Hk. exists (am_compute (map kv L) a). f_equal. f_equal.
        destruct o as [id|]; [|congruence]. destruct (sl_heap (mm_sl m) id); [|discriminate]. cbv zeta in Hk.
        destruct (a <=? _); congruence. }
      apply (compute_bound h m _ l a r' nf (ex_intro _ L (conj HI eq_refl)) HO Ha Hl Hc). }
    assert (Hrl := random_level_bound coins (mm_pos m)).
    destruct (random_level coins (mm_pos m)) as [level pos'] eqn:Er. cbn [fst] in Hrl.
    assert (Hi : forall r k, skip_list_insert_n (mm_sl m) a s level = Ok (r, k) -> (k <= length l + 32)%nat).
    { intros r' k Hk. destruct (insert_n_bound _ _ _ _ _ _ _ _ HI2 Ha Hrl HA HB Hk) as [Hb _]. unfold max_height in Hb. lia. }
    destruct o as [id|].
    + destruct (key_of (mm_sl m) (Nd id)) as [k| | | |]; cbn [bind] in E; try discriminate.
      destruct (k =? a).
      * destruct (set_value _ _ _) as [s'| | | |]; cbn [bind] in E; try discriminate.
        assert (n = S nf) by congruence. lia.
      * destruct (skip_list_insert_n _ _ _ _) as [[s' k']| | | |]; cbn [bind] in E; try discriminate.
        pose proof (Hi _ _ eq_refl). assert (n = S nf + k')%nat by congruence. lia.
    + destruct (skip_list_insert_n _ _ _ _) as [[s' k']| | | |]; cbn [bind] in E; try discriminate.
      pose proof (Hi _ _ eq_refl). assert (n = nf + k')%nat by congruence. lia.
Qed.

(** ** Histories *)

Lemma last_size_in : forall h k v, last_size h k = Some v -> In k (map fst h).
Proof.
  induction h as [|[a s] h IH]; intros k v H; cbn [last_size] in H; [discriminate|]. cbn [map fst In].
  destruct (last_size h k) as [x|] eqn:E; [right; eapply IH; eauto|].
  destruct (N.eqb_spec a k); [auto|discriminate].
Qed.

Lemma mm_run_n_snoc : forall coins h m a s, mm_run_n coins m (h ++ [(a, s)]) =
  (' (m', n) <- mm_run_n coins m h ;; ' (m'', n') <- mm_update_n coins m' a s ;; Ok (m'', n + n')%nat).
Proof.
  intros coins. induction h as [|[b t] h IH]; intros m a s; cbn [app mm_run_n].
  - cbn [bind]. destruct (mm_update_n coins m a s) as [[m' n]| | | |]; cbn [bind]; auto.
    rewrite Nat.add_0_r. reflexivity.
  - destruct (mm_update_n coins m b t) as [[m1 n1]| | | |]; cbn [bind]; auto. rewrite IH.
    destruct (mm_run_n coins m1 h) as [[m2 n2]| | | |]; cbn [bind]; auto.
    destruct (mm_update_n coins m2 a s) as [[m3 n3]| | | |]; cbn [bind]; auto. rewrite Nat.add_assoc. reflexivity.
Qed.

Lemma run_safe : forall coins pos h m n, records_ok h -> mm_run_n coins (mm_new pos) h = Ok (m, n) ->
  exists am, repr m am /\ am_ok h am.
Proof.
  intros coins pos h m n Hr H. assert (E := mm_run_erase coins h (mm_new pos)). rewrite H in E. cbn in E.
  destruct (mm_run_char coins pos h Hr) as [(_ & m' & am & Hm & HR & HA)|(_ & Hm)]; rewrite Hm in E; [|discriminate].
  injection E as <-. eauto.
Qed.

Lemma run_bound : forall coins pos h m n, records_ok h -> mm_run_n coins (mm_new pos) h = Ok (m, n) ->
  (n <= length h * (2 * length h + 65))%nat.
Proof.
  intros coins pos. induction h as [|[a s] h IH] using rev_ind; intros m n Hr H.
  - injection H as <- <-. simpl. lia.
  - rewrite mm_run_n_snoc in H. apply Forall_app in Hr. destruct Hr as [Hr Hx].
    destruct (mm_run_n coins (mm_new pos) h) as [[m1 n1]| | | |] eqn:E1; cbn [bind] in H; try discriminate.
    destruct (mm_update_n coins m1 a s) as [[m2 n2]| | | |] eqn:E2; cbn [bind] in H; try discriminate.
    assert (n = n1 + n2)%nat as -> by congruence. specialize (IH m1 n1 Hr eq_refl).
    destruct (run_safe coins pos h m1 n1 Hr E1) as (am & HR & HO).
    assert (Ha : a <= max64) by (inversion Hx as [|? ? [Ha _] _]; subst; apply le_max64; exact Ha).
    assert (Hb : (n2 <= 2 * length h + 65)%nat).
    { pose proof (update_bound h coins m1 am (map fst h) a s m2 n2 HR HO Ha) as Hb. rewrite map_length in Hb.
      assert (forall k v, live h k v -> k <= a -> In k (map fst h)) as Hl.
      { intros k v [Hk _] _. apply last_size_in with v. exact Hk. }
      specialize (Hb Hl E2). destruct (s =? 0); lia. }
    rewrite app_length. cbn [length]. nia.
Qed.

Lemma lookup_lemma : forall coins pos h m, records_ok h -> mm_run coins (mm_new pos) h = Ok m ->
  forall a l, a < 2 ^ 64 -> (forall k v, live h k v -> k <= a -> In k l) ->
  exists r n, mm_compute_n m a = Ok (r, n) /\ mm_compute m a = Ok r /\ (n <= length l + 32)%nat.
Proof.
  intros coins pos h m Hr Hm a l Ha Hl. apply le_max64 in Ha.
  destruct (mm_run_char coins pos h Hr) as [(_ & m' & am & Hm' & HR & HO)|(_ & Hm')]; rewrite Hm' in Hm; [|discriminate].
  injection Hm as ->. pose proof (repr_compute m am a HR Ha) as Hc.
  pose proof (mm_compute_erase m a) as E. rewrite Hc in E. destruct (erase_ok _ _ _ E) as (n & En).
  exists (am_compute am a), n. split; [exact En|]. split; [exact Hc|].
  exact (compute_bound h m am l a _ n HR HO Ha Hl En).
Qed.

Lemma record_lemma : forall coins pos h m, records_ok h -> mm_run coins (mm_new pos) h = Ok m ->
  forall a s m' l, a < 2 ^ 64 -> (forall k v, live h k v -> k <= a -> In k l) -> mm_update coins m a s = Ok m' ->
  exists n, mm_update_n coins m a s = Ok (m', n) /\
    (n <= if (s =? 0)%N then length l + 33 else 2 * length l + 65)%nat.
Proof.
  intros coins pos h m Hr Hm a s m' l Ha Hl Hu. apply le_max64 in Ha.
  destruct (mm_run_char coins pos h Hr) as [(_ & m1 & am & Hm' & HR & HO)|(_ & Hm')]; rewrite Hm' in Hm; [|discriminate].
  injection Hm as ->. pose proof (mm_update_erase coins m a s) as E. rewrite Hu in E.
  destruct (erase_ok _ _ _ E) as (n & En). exists n. split; [exact En|].
  exact (update_bound h coins m am l a s _ n HR HO Ha Hl En).
Qed.

Lemma run_lemma : forall coins pos h, records_ok h -> sentinel_safe h ->
  exists m n, mm_run_n coins (mm_new pos) h = Ok (m, n) /\ mm_run coins (mm_new pos) h = Ok m /\
    (n <= length h * (2 * length h + 65))%nat.
Proof.
  intros coins pos h Hr Hs.
  destruct (mm_run_char coins pos h Hr) as [(_ & m & am & Hm & _)|(Hn & _)]; [|tauto].
  pose proof (mm_run_erase coins h (mm_new pos)) as E. rewrite Hm in E. destruct (erase_ok _ _ _ E) as (n & En).
  exists m, n. split; [exact En|]. split; [exact Hm|]. exact (run_bound coins pos h m n Hr En).
Qed.

(** ** Without luck the list is a plain list *)

Definition unlucky : nat -> bool := fun _ => false.

Lemma unlucky_level : forall pos, fst (random_level unlucky pos) = 1%nat.
Proof. reflexivity. Qed.

Lemma update_height : forall m am a s r n, repr m am -> a <= max64 -> s <> 0 ->
  mm_update_n unlucky m a s = Ok (r, n) -> sl_height (mm_sl r) = sl_height (mm_sl m).
Proof.
  intros m am a s r n (L & HI & ->) Ha Hs0 H. unfold mm_update_n in H.
  destruct (N.eqb_spec s 0); [lia|].
  pose proof (so_sorted _ _ (inv_shape _ _ HI)) as Hs.
  destruct (lt_split L a Hs) as (A & B & E2 & HA & HB). pose proof HI as HI2. rewrite E2 in HI2.
  destruct (skip_list_update_n unlucky (mm_sl m) (mm_pos m) a s) as [[[sl' p'] n']| | | |] eqn:E; cbn [bind] in H; try discriminate.
  injection H as <- <-. cbn [mm_sl]. unfold skip_list_update_n in E.
  destruct (skip_list_find_n (mm_sl m) a) as [[o nf]| | | |]; cbn [bind] in E; try discriminate.
  assert (Hi : forall r k, skip_list_insert_n (mm_sl m) a s 1 = Ok (r, k) -> sl_height r = sl_height (mm_sl m)).
  { intros r k Hk. apply (insert_n_bound _ _ _ _ _ _ _ _ HI2 Ha) in Hk; auto; [|unfold max_height; lia]. apply Hk. reflexivity. }
  pose proof (unlucky_level (mm_pos m)) as Hl. destruct (random_level unlucky (mm_pos m)) as [lv p2]. cbn [fst] in Hl. subst lv.
  assert (Hins : forall k, (' (s', n'') <- skip_list_insert_n (mm_sl m) a s 1 ;; Ok (s', p2, k + n'')%nat) = Ok (sl', p', n') ->
    sl_height sl' = sl_height (mm_sl m)).
  { intros k Hk. destruct (skip_list_insert_n (mm_sl m) a s 1) as [[s1 k1]| | | |]; cbn [bind] in Hk; try discriminate.
    assert (s1 = sl') as <- by congruence. exact (Hi _ _ eq_refl). }
  destruct o as [id|]; [|exact (Hins _ E)].
  destruct (key_of (mm_sl m) (Nd id)) as [k| | | |]; cbn [bind] in E; try discriminate.
  destruct (k =? a); [|exact (Hins _ E)].
  unfold set_value in E. destruct (sl_heap (mm_sl m) id); cbn [bind] in E; try discriminate.
  injection E as <- _ _. reflexivity.
Qed.

(** n allocations of one byte, at the addresses 1, ..., n *)
Definition ones (n : nat) : history := map (fun k => (N.of_nat k, 1)) (seq 1 n).

Lemma ones_snoc : forall n, ones (S n) = ones n ++ [(N.of_nat (S n), 1)].
Proof. intro n. unfold ones. rewrite seq_S, map_app. reflexivity. Qed.

Lemma ones_ok : forall n, N.of_nat n < 2 ^ 64 - 1 -> records_ok (ones n).
Proof.
  intros n Hn. unfold records_ok, ones. apply Forall_forall. intros x Hx. apply in_map_iff in Hx.
  destruct Hx as (k & <- & Hk). apply in_seq in Hk. cbn [fst snd]. lia.
Qed.

Lemma ones_live : forall n k, (1 <= k <= n)%nat -> live (ones n) (N.of_nat k) 1.
Proof.
  induction n as [|n IH]; intros k Hk; [lia|]. rewrite ones_snoc. unfold live. rewrite last_size_snoc.
  split; [|lia]. destruct (N.eqb_spec (N.of_nat (S n)) (N.of_nat k)); [reflexivity|]. apply IH. lia.
Qed.

Lemma ones_keys : forall n, map fst (ones n) = map N.of_nat (seq 1 n).
Proof. intro n. unfold ones. rewrite map_map. reflexivity. Qed.

Lemma ones_run : forall n, N.of_nat n < 2 ^ 64 - 1 -> exists m k am,
  mm_run_n unlucky (mm_new 0) (ones n) = Ok (m, k) /\ repr m am /\ am_ok (ones n) am /\ sl_height (mm_sl m) = 1%nat.
Proof.
  induction n as [|n IH]; intro Hn.
  - exists (mm_new 0), 0%nat, []. split; [reflexivity|]. split; [apply repr_new|]. split; [apply am_ok_nil|reflexivity].
  - destruct IH as (m & k & am & Hm & HR & HO & Hh); [lia|]. rewrite ones_snoc.
    rewrite mm_run_n_snoc, Hm. cbn [bind].
    assert (Ha : N.of_nat (S n) <= max64) by (unfold max64; lia).
    pose proof (repr_update unlucky m am (N.of_nat (S n)) 1 HR Ha) as HU.
    pose proof (am_ok_step (ones n) am (N.of_nat (S n)) 1 HO Ha) as HS.
    destruct (am_update am (N.of_nat (S n)) 1) as [am'| |u| |] eqn:Eu; try contradiction.
    2:{ unfold am_update in Eu. discriminate. }
    destruct HU as (m' & Hm' & HR'). pose proof (mm_update_erase unlucky m (N.of_nat (S n)) 1) as E. rewrite Hm' in E.
    destruct (erase_ok _ _ _ E) as (j & Ej). rewrite Ej. cbn [bind]. do 3 eexists. split; [reflexivity|].
    split; [exact HR'|]. split; [exact HS|]. rewrite (update_height m am _ 1 m' j HR Ha ltac:(lia) Ej). exact Hh.
Qed.

Lemma linear_lemma : forall n, N.of_nat n < 2 ^ 64 - 1 -> exists m r,
  mm_run unlucky (mm_new 0) (ones n) = Ok m /\ mm_compute_n m (2 ^ 64 - 2) = Ok (r, S n).
Proof.
  intros n Hn. destruct (ones_run n Hn) as (m & k & am & Hm & HR & HO & Hh).
  pose proof (mm_run_erase unlucky (ones n) (mm_new 0)) as Er. rewrite Hm in Er. cbn in Er. symmetry in Er.
  exists m. assert (Ha : 2 ^ 64 - 2 < max64) by reflexivity.
  pose proof (repr_compute m am (2 ^ 64 - 2) HR ltac:(lia)) as Hc.
  pose proof (mm_compute_erase m (2 ^ 64 - 2)) as E. rewrite Hc in E. destruct (erase_ok _ _ _ E) as (j & Ej).
  exists (am_compute am (2 ^ 64 - 2)). split; [exact Er|]. rewrite Ej. do 2 f_equal.
  destruct HR as (L & HI & ->). pose proof HI as [HN HS HP].
  destruct (find_split L (2 ^ 64 - 2) (so_sorted _ _ HS)) as (A & B & EL & HA & HB).
  assert (HlA : length A = n).
  { apply Nat.le_antisymm.
    - replace n with (length (map fst (ones n))) by (rewrite ones_keys, map_length, seq_length; reflexivity).
      apply (live_count (ones n) L A B (map fst (ones n)) (2 ^ 64 - 2) HO EL (so_sorted _ _ HS)).
      + intros c Hin. pose proof (HA c Hin). lia.
      + intros x v [Hx _] _. apply last_size_in with v. exact Hx.
    - replace n with (length (map N.of_nat (seq 1 n))) by (rewrite map_length, seq_length; reflexivity).
      rewrite <- (map_length c_key A). apply NoDup_incl_length.
      + apply FinFun.Injective_map_NoDup; [intros x y; apply Nat2N.inj|apply seq_NoDup].
      + intros x Hx. apply in_map_iff in Hx. destruct Hx as (i & <- & Hi). apply in_seq in Hi.
        assert (Hin : In (N.of_nat i, 1) (map kv L)).
        { apply (ao_live _ _ HO); [unfold max64; lia|]. apply ones_live. lia. }
        apply in_map_iff in Hin. destruct Hin as (c & Ec & Hin). rewrite EL in Hin. apply in_app_iff in Hin.
        unfold kv in Ec. injection Ec as Ek _. rewrite <- Ek. destruct Hin as [Hin|Hin].
        * apply in_map. exact Hin.
        * pose proof (HB c Hin). lia. }
  assert (Hw : walk_n (fuel_of (mm_sl m)) (mm_sl m) 1 (fun x => x <=? 2 ^ 64 - 2) Head = Ok (lastp Head (ids A), S (length A))).
  { apply walk_n_spec with (S2 := B).
    - reflexivity.
    - assert (Hp : path (mm_sl m) 1 Head (ids (at_lvl 1 L))) by (apply HP; unfold max_height; lia).
      rewrite at_lvl_1 in Hp; [rewrite <- EL; exact Hp|]. intros c Hin. apply (so_lvl _ _ HS c Hin).
    - intros c Hin. apply key_of_cell with L; [exact HN|]. rewrite EL. exact Hin.
    - intros c Hin. apply N.leb_le. auto.
    - intros c Hin. apply N.leb_gt. auto.
    - pose proof (nodes_len _ _ HN) as Hlen. rewrite EL, app_length in Hlen. unfold fuel_of. lia. }
  unfold mm_compute_n, skip_list_find_n in Ej. rewrite Hh in Ej. cbn [find_loop_n] in Ej.
  destruct (N.eqb_spec (2 ^ 64 - 2) max64); [lia|]. rewrite Hw in Ej. cbn [bind] in Ej.
  rewrite Nat.add_0_r, HlA in Ej. destruct (lastp Head (ids A)) as [|id]; cbn [bind] in Ej.
  - congruence.
  - destruct (sl_heap (mm_sl m) id); [|discriminate]. cbv zeta in Ej. destruct (_ <=? _); congruence.
Qed.
