(** Invariant of the skip list and its refinement to a list of cells. *)
From Verif Require Import Base BaseProofs SkipList.
From Coq Require Import Sorting.Sorted.

(** A cell of the abstract node list. *)
Record cell := mkCell { c_id : nat; c_key : N; c_val : N; c_lvl : nat }.

Definition ids (l : list cell) : list nat := map c_id l.
Definition ge_lvl (i : nat) (c : cell) : bool := Nat.leb i (c_lvl c).
Definition at_lvl (i : nat) (l : list cell) : list cell := filter (ge_lvl i) l.

Definition before (a b : cell) : Prop :=
  c_key a < c_key b \/ (c_key a = max64 /\ c_key b = max64).

(** Following next[i] from p visits exactly l and then the head. *)
Fixpoint path (sl : skiplist) (i : nat) (p : ptr) (l : list nat) : Prop :=
  match l with
  | [] => next_of sl p i = Ok Head
  | x :: r => next_of sl p i = Ok (Nd x) /\ path sl i (Nd x) r
  end.

Fixpoint seg (sl : skiplist) (i : nat) (p : ptr) (l : list nat) : Prop :=
  match l with
  | [] => True
  | x :: r => next_of sl p i = Ok (Nd x) /\ seg sl i (Nd x) r
  end.

Definition lastp (p : ptr) (l : list nat) : ptr :=
  match rev l with [] => p | x :: _ => Nd x end.

Record nodes_ok (sl : skiplist) (L : list cell) : Prop := {
  no_node : forall c, In c L -> exists n, sl_heap sl (c_id c) = Some n /\
     sn_key n = c_key c /\ sn_value n = c_val c /\ length (sn_next n) = S (c_lvl c);
  no_dead : forall i, ~ In i (ids L) -> sl_heap sl i = None;
  no_fresh : forall c, In c L -> (c_id c < sl_fresh sl)%nat;
  no_nodup : NoDup (ids L);
  no_head : length (sl_head sl) = S max_height
}.

Record shape_ok (height : nat) (L : list cell) : Prop := {
  so_sorted : StronglySorted before L;
  so_max : forall c, In c L -> c_key c <= max64;
  so_lvl : forall c, In c L -> (1 <= c_lvl c <= height)%nat;
  so_height : (1 <= height <= max_height)%nat
}.

Record inv (sl : skiplist) (L : list cell) : Prop := {
  inv_nodes : nodes_ok sl L;
  inv_shape : shape_ok (sl_height sl) L;
  inv_path : forall i, (1 <= i <= max_height)%nat -> path sl i Head (ids (at_lvl i L))
}.

(** ** Pointers and paths *)

Lemma ptr_eqb_eq : forall p q, ptr_eqb p q = true <-> p = q.
Proof.
  intros [|i] [|j]; simpl; split; intro H; try discriminate; try reflexivity.
  - apply Nat.eqb_eq in H. congruence.
  - inversion H. apply Nat.eqb_refl.
Qed.

Lemma ptr_eqb_refl : forall p, ptr_eqb p p = true.
Proof. intro. apply ptr_eqb_eq. reflexivity. Qed.

Lemma lastp_nil : forall p, lastp p [] = p. Proof. reflexivity. Qed.
Lemma lastp_snoc : forall p l x, lastp p (l ++ [x]) = Nd x.
Proof. intros. unfold lastp. rewrite rev_app_distr. reflexivity. Qed.
Lemma lastp_cons : forall p x l, lastp p (x :: l) = lastp (Nd x) l.
Proof.
  intros. unfold lastp. simpl. destruct (rev l) eqn:E; reflexivity.
Qed.
Lemma lastp_app : forall l m p, lastp p (l ++ m) = lastp (lastp p l) m.
Proof.
  induction l as [|x l IH]; intros; simpl; [reflexivity|].
  rewrite !lastp_cons. apply IH.
Qed.
Lemma lastp_in : forall l p, lastp p l = p \/ exists x, In x l /\ lastp p l = Nd x.
Proof.
  intros l p. unfold lastp. destruct (rev l) eqn:E; [left; reflexivity|right].
  exists n. split; [|reflexivity]. apply in_rev. rewrite E. left. reflexivity.
Qed.

Lemma path_app : forall sl i l m p,
  path sl i p (l ++ m) <-> seg sl i p l /\ path sl i (lastp p l) m.
Proof.
  induction l as [|x l IH]; intros m p; simpl.
  - rewrite lastp_nil. tauto.
  - rewrite lastp_cons, IH. tauto.
Qed.

Lemma path_next : forall sl i p l, path sl i p l ->
  next_of sl p i = Ok (match l with [] => Head | x :: _ => Nd x end).
Proof. intros sl i p [|x l] H; simpl in H; tauto. Qed.

(** pointers visited: p and all of l *)
Definition visited (p : ptr) (l : list nat) (q : ptr) : Prop :=
  q = p \/ exists x, In x l /\ q = Nd x.

Lemma path_frame : forall sl sl' i l p,
  path sl i p l ->
  (forall q, visited p l q -> next_of sl' q i = next_of sl q i) ->
  path sl' i p l.
Proof.
  induction l as [|x l IH]; intros p H Hf; simpl in *.
  - rewrite Hf; [exact H | left; reflexivity].
  - destruct H as [H1 H2]. split.
    + rewrite Hf; [exact H1 | left; reflexivity].
    + apply IH; [exact H2|]. intros q [->|(y & Hy & ->)]; apply Hf.
      * right. exists x. simpl; auto.
      * right. exists y. simpl; auto.
Qed.

Lemma seg_frame : forall sl sl' i l p,
  seg sl i p l ->
  (forall q, visited p l q -> q <> lastp p l -> next_of sl' q i = next_of sl q i) ->
  NoDup l -> (forall x, p = Nd x -> ~ In x l) ->
  seg sl' i p l.
Proof.
  induction l as [|x l IH]; intros p H Hf Hnd Hp; simpl in *; [exact I|].
  destruct H as [H1 H2]. inversion Hnd; subst. split.
  - rewrite Hf; [exact H1 | left; reflexivity|].
    rewrite lastp_cons. intro E. destruct (lastp_in l (Nd x)) as [E'|(y & Hy & E')].
    + rewrite E' in E. apply (Hp x); [exact E | left; reflexivity].
    + rewrite E' in E. apply (Hp y); [exact E| right; exact Hy].
  - apply IH; auto.
    + intros q Hq Hne. apply Hf.
      * destruct Hq as [->|(y & Hy & ->)]; right; eexists; split; try reflexivity; simpl; auto.
      * rewrite lastp_cons. exact Hne.
    + intros y E. inversion E; subst. assumption.
Qed.

(** ** Effects of heap operations *)

Lemma list_set_length : forall A (l : list A) i x, length (list_set l i x) = length l.
Proof. induction l; destruct i; simpl; intros; auto. Qed.

Lemma list_set_same : forall A (l : list A) i x, (i < length l)%nat -> nth_error (list_set l i x) i = Some x.
Proof.
  induction l; destruct i; simpl; intros; try lia; auto. apply IHl. lia.
Qed.

Lemma list_set_other : forall A (l : list A) i j x, i <> j -> nth_error (list_set l i x) j = nth_error l j.
Proof.
  induction l; destruct i, j; simpl; intros; try lia; auto.
Qed.

Lemma heap_set_same : forall h i n, heap_set h i n i = n.
Proof. intros. unfold heap_set. rewrite Nat.eqb_refl. reflexivity. Qed.
Lemma heap_set_other : forall h i j n, j <> i -> heap_set h i n j = h j.
Proof. intros. unfold heap_set. apply Nat.eqb_neq in H. rewrite H. reflexivity. Qed.

(** [set_next] succeeds on known nodes, preserves nodes, and changes one link. *)
Lemma set_next_spec : forall sl L p i q,
  nodes_ok sl L ->
  (p = Head /\ (i <= max_height)%nat \/ exists c, In c L /\ p = Nd (c_id c) /\ (i <= c_lvl c)%nat) ->
  exists sl', set_next sl p i q = Ok sl' /\ nodes_ok sl' L /\
    sl_height sl' = sl_height sl /\ sl_fresh sl' = sl_fresh sl /\
    next_of sl' p i = Ok q /\
    (forall p' j, p' <> p \/ j <> i -> next_of sl' p' j = next_of sl p' j).
Proof.
  intros sl L p i q HN Hp. destruct HN as [Hnode Hdead Hfresh Hnd Hhead].
  destruct Hp as [[-> Hi]|(c & Hc & -> & Hi)].
  - unfold set_next. assert (Hl : (i <? length (sl_head sl))%nat = true) by (apply Nat.ltb_lt; lia).
    rewrite Hl. eexists. split; [reflexivity|]. split; [|split; [|split; [|split]]]; try reflexivity.
    + constructor; simpl; auto. rewrite list_set_length. assumption.
    + simpl. unfold read_arr. rewrite list_set_same by lia. reflexivity.
    + intros p' j Hne. destruct p'; simpl; [|reflexivity].
      unfold read_arr. rewrite list_set_other; [reflexivity|]. destruct Hne; congruence.
  - destruct (Hnode c Hc) as (n & Hn & Hk & Hv & Hlen).
    unfold set_next. rewrite Hn.
    assert (Hl : (i <? length (sn_next n))%nat = true) by (apply Nat.ltb_lt; lia).
    rewrite Hl. eexists. split; [reflexivity|]. split; [|split; [|split; [|split]]]; try reflexivity.
    + constructor; simpl; auto.
      * intros d Hd. destruct (Nat.eq_dec (c_id d) (c_id c)) as [E|E].
        -- rewrite E, heap_set_same. exists (mkSnode (sn_key n) (sn_value n) (list_set (sn_next n) i (Some q))).
           destruct (Hnode d Hd) as (n' & Hn' & A & B & C). rewrite E in Hn'.
           rewrite Hn in Hn'. inversion Hn'; subst n'. simpl.
           rewrite list_set_length. auto.
        -- rewrite heap_set_other by exact E. apply Hnode. exact Hd.
      * intros j Hj. rewrite heap_set_other; [apply Hdead; exact Hj|].
        intro E. apply Hj. subst j. apply in_map. exact Hc.
    + simpl. rewrite heap_set_same. simpl. unfold read_arr. rewrite list_set_same by lia. reflexivity.
    + intros p' j Hne. destruct p' as [|id]; simpl; [reflexivity|].
      destruct (Nat.eq_dec id (c_id c)) as [E|E].
      * subst id. rewrite heap_set_same, Hn. simpl. unfold read_arr.
        rewrite list_set_other; [reflexivity|]. destruct Hne; congruence.
      * rewrite heap_set_other by exact E. reflexivity.
Qed.

Lemma key_of_cell : forall sl L c, nodes_ok sl L -> In c L -> key_of sl (Nd (c_id c)) = Ok (c_key c).
Proof.
  intros sl L c H Hc. destruct (no_node _ _ H c Hc) as (n & Hn & Hk & _).
  simpl. rewrite Hn, Hk. reflexivity.
Qed.

(** ** Walking *)

Lemma walk_spec : forall sl i test, test max64 = false ->
  forall S1 S2 cur fuel,
  path sl i cur (ids (S1 ++ S2)) ->
  (forall c, In c (S1 ++ S2) -> key_of sl (Nd (c_id c)) = Ok (c_key c)) ->
  (forall c, In c S1 -> test (c_key c) = true) ->
  (forall c, In c S2 -> test (c_key c) = false) ->
  (length S1 < fuel)%nat ->
  walk fuel sl i test cur = Ok (lastp cur (ids S1)).
Proof.
  intros sl i test Hmax. induction S1 as [|c S1 IH]; intros S2 cur fuel Hp Hk H1 H2 Hf.
  - destruct fuel as [|f]; [simpl in Hf; lia|]. simpl.
    pose proof (path_next _ _ _ _ Hp) as Hn. rewrite Hn. simpl.
    destruct S2 as [|d S2]; simpl.
    + rewrite Hmax. reflexivity.
    + simpl in Hk. pose proof (Hk d (or_introl eq_refl)) as Hkd. simpl in Hkd.
      rewrite Hkd. simpl. rewrite (H2 d (or_introl eq_refl)). reflexivity.
  - destruct fuel as [|f]; [simpl in Hf; lia|]. simpl in Hp. destruct Hp as [Hn Hp].
    cbn [walk]. rewrite Hn. cbn [bind].
    rewrite (Hk c (or_introl eq_refl)). cbn [bind]. rewrite (H1 c (or_introl eq_refl)).
    simpl. rewrite lastp_cons. apply IH with S2; auto.
    + intros d Hd. apply Hk. right. exact Hd.
    + intros d Hd. apply H1. right. exact Hd.
    + simpl in Hf. lia.
Qed.

(** Descending one level: from the last cell of A of level > i to the last of
    level >= i. *)
Lemma descend_suffix : forall (p q : cell -> bool), (forall c, p c = true -> q c = true) ->
  forall A, exists A2,
    (forall c, In c A2 -> In c (filter q A)) /\ (length A2 <= length A)%nat /\
    lastp Head (ids (filter q A)) = lastp (lastp Head (ids (filter p A))) (ids A2) /\
    forall sl i T, path sl i Head (ids (filter q A ++ T)) ->
                   path sl i (lastp Head (ids (filter p A))) (ids (A2 ++ T)).
Proof.
  intros p q Hpq. induction A as [|c A IH] using rev_ind.
  - exists []. conj_split; simpl; auto.
  - destruct IH as (A2 & Hin & Hlen & Hlast & Hpath).
    rewrite !filter_app. simpl. destruct (p c) eqn:Ep.
    + rewrite (Hpq c Ep). exists []. conj_split; simpl; auto; try lia.
      * unfold ids. rewrite !map_app. simpl. rewrite !lastp_snoc. reflexivity.
      * intros sl i T Hp. unfold ids in *. rewrite !map_app in *. simpl in *.
        rewrite <- app_assoc in Hp. apply path_app in Hp. destruct Hp as [_ Hp].
        simpl in Hp. destruct Hp as [_ Hp]. rewrite lastp_snoc. exact Hp.
    + rewrite app_nil_r. destruct (q c) eqn:Eq.
      * exists (A2 ++ [c]). conj_split.
        -- intros d Hd. apply in_app_iff in Hd. apply in_app_iff. destruct Hd; auto.
        -- rewrite !app_length. simpl. lia.
        -- unfold ids in *. rewrite !map_app. simpl. rewrite lastp_snoc, lastp_app.
           rewrite lastp_cons, lastp_nil. reflexivity.
        -- intros sl i T Hp. rewrite <- app_assoc in *. simpl in *. apply Hpath. exact Hp.
      * exists A2. rewrite app_nil_r. conj_split; auto. rewrite app_length. simpl. lia.
Qed.

Definition last_at (i : nat) (A : list cell) : ptr := lastp Head (ids (at_lvl i A)).

Lemma at_lvl_app : forall i A B, at_lvl i (A ++ B) = at_lvl i A ++ at_lvl i B.
Proof. intros. apply filter_app. Qed.

Lemma in_at_lvl : forall i c A, In c (at_lvl i A) <-> In c A /\ (i <= c_lvl c)%nat.
Proof. intros. unfold at_lvl, ge_lvl. rewrite filter_In, Nat.leb_le. reflexivity. Qed.

Lemma at_lvl_mono : forall i c, ge_lvl (S i) c = true -> ge_lvl i c = true.
Proof. unfold ge_lvl. intros i c H. apply Nat.leb_le in H. apply Nat.leb_le. lia. Qed.

Lemma nodes_len : forall sl L, nodes_ok sl L -> (length L <= sl_fresh sl)%nat.
Proof.
  intros sl L H. rewrite <- (map_length c_id). fold (ids L).
  rewrite <- (seq_length (sl_fresh sl) 0). apply NoDup_incl_length; [apply no_nodup in H; exact H|].
  intros x Hx. apply in_seq. unfold ids in Hx. apply in_map_iff in Hx.
  destruct Hx as (c & <- & Hc). pose proof (no_fresh _ _ H c Hc). lia.
Qed.

Lemma walk_descend : forall sl L A B i test,
  nodes_ok sl L ->
  (forall c, In c (A ++ B) -> In c L) -> (length A <= length L)%nat ->
  path sl i Head (ids (at_lvl i (A ++ B))) ->
  test max64 = false ->
  (forall c, In c A -> test (c_key c) = true) ->
  (forall c, In c B -> test (c_key c) = false) ->
  walk (fuel_of sl) sl i test (last_at (S i) A) = Ok (last_at i A).
Proof.
  intros sl L A B i test HN Hsub HlenA Hp Hmax HA HB.
  destruct (descend_suffix (ge_lvl (S i)) (ge_lvl i) (at_lvl_mono i) A)
    as (A2 & Hin & Hlen & Hlast & Hpath).
  unfold last_at, at_lvl. rewrite Hlast.
  rewrite at_lvl_app in Hp.
  apply walk_spec with (S2 := at_lvl i B); auto.
  - intros c Hc. apply key_of_cell with L; [exact HN|]. apply Hsub. apply in_app_iff.
    apply in_app_iff in Hc. destruct Hc as [Hc|Hc].
    + left. apply Hin in Hc. apply filter_In in Hc. tauto.
    + right. apply in_at_lvl in Hc. tauto.
  - intros c Hc. apply HA. apply Hin in Hc. apply filter_In in Hc. tauto.
  - intros c Hc. apply HB. apply in_at_lvl in Hc. tauto.
  - unfold fuel_of. pose proof (nodes_len _ _ HN). lia.
Qed.

Lemma last_at_top : forall h i A, (forall c, In c A -> (c_lvl c <= h)%nat) -> (h < i)%nat -> last_at i A = Head.
Proof.
  intros h i A H Hi. unfold last_at, at_lvl. replace (filter (ge_lvl i) A) with (@nil cell); [reflexivity|].
  symmetry. induction A as [|c A IH]; [reflexivity|]. simpl.
  pose proof (H c (or_introl eq_refl)). unfold ge_lvl at 1.
  destruct (Nat.leb_spec i (c_lvl c)); [lia|]. apply IH. intros; apply H; right; assumption.
Qed.

Lemma at_lvl_nil : forall h i A, (forall c, In c A -> (c_lvl c <= h)%nat) -> (h < i)%nat -> at_lvl i A = [].
Proof.
  intros h i A H Hi. unfold at_lvl.
  induction A as [|c A IH]; [reflexivity|]. simpl.
  pose proof (H c (or_introl eq_refl)). unfold ge_lvl at 1.
  destruct (Nat.leb_spec i (c_lvl c)); [lia|]. apply IH. intros; apply H; right; assumption.
Qed.

Lemma at_lvl_1 : forall A, (forall c, In c A -> (1 <= c_lvl c)%nat) -> at_lvl 1 A = A.
Proof.
  induction A as [|c A IH]; intro H; [reflexivity|]. unfold at_lvl in *. cbn [filter].
  pose proof (H c (or_introl eq_refl)). unfold ge_lvl at 1.
  destruct (Nat.leb_spec 1 (c_lvl c)); [|lia]. f_equal. apply IH. intros; apply H; right; assumption.
Qed.

(** Splitting a sorted list by a downward closed test. *)
Lemma split_sorted : forall (test : N -> bool),
  (forall a b, a <= b -> test b = true -> test a = true) ->
  forall L, StronglySorted before L ->
  exists A B, L = A ++ B /\ (forall c, In c A -> test (c_key c) = true) /\
              (forall c, In c B -> test (c_key c) = false).
Proof.
  intros test Hdc. induction L as [|c L IH]; intro HS.
  - exists [], []. conj_split; intros ? [].
  - inversion HS as [|? ? HS' HF]; subst. destruct (test (c_key c)) eqn:E.
    + destruct (IH HS') as (A & B & -> & HA & HB). exists (c :: A), B. conj_split; auto.
      intros d [<-|Hd]; auto.
    + exists [], (c :: L). conj_split; [intros ? []|].
      intros d [<-|Hd]; [exact E|]. rewrite Forall_forall in HF. specialize (HF d Hd).
      destruct (test (c_key d)) eqn:Ed; [|reflexivity].
      rewrite (Hdc (c_key c) (c_key d)) in E; [discriminate| |exact Ed].
      destruct HF as [HF|[HF1 HF2]]; lia.
Qed.

Lemma ss_app : forall (A B : list cell),
  StronglySorted before (A ++ B) <->
  StronglySorted before A /\ StronglySorted before B /\
  (forall a b, In a A -> In b B -> before a b).
Proof.
  induction A as [|a A IH]; intro B; simpl.
  - split; [intro H; conj_split; auto; [constructor|intros ? ? []] | tauto].
  - split.
    + intro H. inversion H as [|? ? H1 H2]; subst. apply IH in H1. destruct H1 as (H3 & H4 & H5).
      rewrite Forall_app in H2. destruct H2 as [H6 H7].
      conj_split; auto; [constructor; auto|].
      intros x y [<-|Hx] Hy; auto. rewrite Forall_forall in H7. auto.
    + intros (H1 & H2 & H3). inversion H1; subst. constructor.
      * apply IH. conj_split; auto.
      * apply Forall_app. split; auto. apply Forall_forall. auto.
Qed.

(** ** skipListFind *)

Lemma find_loop_spec : forall sl L A B key i,
  inv sl L -> L = A ++ B -> key < max64 ->
  (forall c, In c A -> c_key c <= key) -> (forall c, In c B -> key < c_key c) ->
  (i <= sl_height sl)%nat ->
  find_loop sl key i (last_at (S i) A) = Ok (last_at 1 A).
Proof.
  intros sl L A B key i HI HL Hkey HA HB. destruct HI as [HN HS HP].
  induction i as [|i IH]; intro Hi; [reflexivity|].
  cbn [find_loop].
  rewrite walk_descend with (L := L) (A := A) (B := B); try assumption.
  - cbn [bind]. apply IH. lia.
  - intros c Hc. rewrite HL. exact Hc.
  - rewrite HL, app_length. lia.
  - rewrite <- HL. apply HP. pose proof (so_height _ _ HS). lia.
  - apply N.leb_gt. exact Hkey.
  - intros c Hc. apply N.leb_le. auto.
  - intros c Hc. apply N.leb_gt. auto.
Qed.

Definition last_cell (A : list cell) : option cell :=
  match rev A with [] => None | c :: _ => Some c end.

Lemma last_at_1 : forall A, (forall c, In c A -> (1 <= c_lvl c)%nat) ->
  last_at 1 A = match last_cell A with None => Head | Some c => Nd (c_id c) end.
Proof.
  intros A H. unfold last_at. rewrite at_lvl_1 by exact H. unfold lastp, last_cell, ids.
  rewrite <- map_rev. destruct (rev A); reflexivity.
Qed.

Lemma skip_list_find_spec : forall sl L A B key,
  inv sl L -> L = A ++ B -> key < max64 ->
  (forall c, In c A -> c_key c <= key) -> (forall c, In c B -> key < c_key c) ->
  skip_list_find sl key = Ok (option_map c_id (last_cell A)).
Proof.
  intros sl L A B key HI HL Hkey HA HB. unfold skip_list_find.
  destruct (N.eqb_spec key max64); [lia|].
  pose proof HI as [HN HS HP].
  assert (Hlv : forall c, In c A -> (1 <= c_lvl c <= sl_height sl)%nat).
  { intros c Hc. apply (so_lvl _ _ HS). rewrite HL. apply in_app_iff. auto. }
  assert (Ht : Head = last_at (S (sl_height sl)) A).
  { symmetry. apply last_at_top with (sl_height sl); [|lia]. intros c Hc. apply Hlv in Hc. lia. }
  rewrite Ht at 1. rewrite find_loop_spec with (L := L) (B := B); try assumption; [|lia].
  cbn [bind]. rewrite last_at_1 by (intros c Hc; apply Hlv in Hc; lia).
  destruct (last_cell A); reflexivity.
Qed.

Lemma find_split : forall L key, StronglySorted before L ->
  exists A B, L = A ++ B /\ (forall c, In c A -> c_key c <= key) /\ (forall c, In c B -> key < c_key c).
Proof.
  intros L key H. destruct (split_sorted (fun k => k <=? key)) with (L := L) as (A & B & E & HA & HB); auto.
  - intros a b Hab Hb. apply N.leb_le in Hb. apply N.leb_le. lia.
  - exists A, B. conj_split; auto.
    + intros c Hc. apply N.leb_le. auto.
    + intros c Hc. apply N.leb_gt. auto.
Qed.

Lemma lt_split : forall L key, StronglySorted before L ->
  exists A B, L = A ++ B /\ (forall c, In c A -> c_key c < key) /\ (forall c, In c B -> key <= c_key c).
Proof.
  intros L key H. destruct (split_sorted (fun k => k <? key)) with (L := L) as (A & B & E & HA & HB); auto.
  - intros a b Hab Hb. apply N.ltb_lt in Hb. apply N.ltb_lt. lia.
  - exists A, B. conj_split; auto.
    + intros c Hc. apply N.ltb_lt. auto.
    + intros c Hc. apply N.ltb_ge. auto.
Qed.

(** ** skipListRemove *)

Lemma remove_search_spec : forall sl L A B key i,
  inv sl L -> L = A ++ B -> key <= max64 ->
  (forall c, In c A -> c_key c < key) -> (forall c, In c B -> key <= c_key c) ->
  (i <= sl_height sl)%nat ->
  remove_search sl key i (last_at (S i) A) =
    Ok (last_at 1 A, map (fun j => last_at j A) (seq 1 i)).
Proof.
  intros sl L A B key i HI HL Hkey HA HB. destruct HI as [HN HS HP].
  induction i as [|i IH]; intro Hi; [reflexivity|].
  cbn [remove_search].
  rewrite walk_descend with (L := L) (A := A) (B := B); try assumption.
  - cbn [bind]. rewrite IH by lia. cbn [bind].
    rewrite seq_S, map_app. reflexivity.
  - intros c Hc. rewrite HL. exact Hc.
  - rewrite HL, app_length. lia.
  - rewrite <- HL. apply HP. pose proof (so_height _ _ HS). lia.
  - apply N.ltb_ge. exact Hkey.
  - intros c Hc. apply N.ltb_lt. auto.
  - intros c Hc. apply N.ltb_ge. auto.
Qed.

Lemma last_at_valid : forall i A, (i <= max_height)%nat ->
  last_at i A = Head /\ (i <= max_height)%nat \/
  exists c, In c A /\ last_at i A = Nd (c_id c) /\ (i <= c_lvl c)%nat.
Proof.
  intros i A Hi. unfold last_at. destruct (lastp_in (ids (at_lvl i A)) Head) as [E|(x & Hx & E)].
  - left. auto.
  - right. unfold ids in Hx. apply in_map_iff in Hx. destruct Hx as (c & <- & Hc).
    apply in_at_lvl in Hc. exists c. tauto.
Qed.

Lemma NoDup_app_inv : forall T (l m : list T), NoDup (l ++ m) ->
  NoDup l /\ NoDup m /\ (forall x, In x l -> In x m -> False).
Proof.
  induction l as [|x l IH]; simpl; intros m H.
  - conj_split; auto; constructor.
  - inversion H; subst. apply IH in H3. destruct H3 as (H4 & H5 & H6). conj_split; auto.
    + constructor; auto. intro. apply H2. apply in_app_iff. auto.
    + intros y [<-|Hy] Hm; [apply H2; apply in_app_iff; auto | eauto].
Qed.

Lemma NoDup_at_lvl : forall i L, NoDup (ids L) -> NoDup (ids (at_lvl i L)).
Proof.
  intros i L. induction L as [|c L IH]; simpl; intro H; [constructor|].
  inversion H; subst. unfold at_lvl in *. simpl. destruct (ge_lvl i c); auto.
  simpl. constructor; auto. intro Hc. apply H2. unfold ids in *. apply in_map_iff in Hc.
  destruct Hc as (d & E & Hd). apply filter_In in Hd. rewrite <- E. apply in_map. tauto.
Qed.

Lemma in_ids_at : forall i x L, In x (ids (at_lvl i L)) -> In x (ids L).
Proof.
  unfold ids. intros i x L H. apply in_map_iff in H. destruct H as (c & <- & Hc).
  apply in_map. apply in_at_lvl in Hc. tauto.
Qed.

Lemma ids_app : forall A B, ids (A ++ B) = ids A ++ ids B.
Proof. intros. unfold ids. apply map_app. Qed.

Lemma at_lvl_cons : forall i c L, at_lvl i (c :: L) = (if ge_lvl i c then [c] else []) ++ at_lvl i L.
Proof. intros. unfold at_lvl. simpl. destruct (ge_lvl i c); reflexivity. Qed.

(** Changing next[i] of the last cell of A redirects the path. *)
Lemma path_redirect : forall sl sl' i A T q,
  seg sl i Head (ids A) -> NoDup (ids A) ->
  (forall x, In x T -> ~ In x (ids A)) ->
  (forall p' j, p' <> lastp Head (ids A) \/ j <> i -> next_of sl' p' j = next_of sl p' j) ->
  next_of sl' (lastp Head (ids A)) i = Ok q ->
  match T with
  | [] => q = Head
  | x :: r => q = Nd x /\ path sl i (Nd x) r
  end ->
  path sl' i Head (ids A ++ T).
Proof.
  intros sl sl' i A T q Hseg Hnd Hdis Hf Hq HT. apply path_app. split.
  - apply seg_frame with sl; auto.
    intros x E. discriminate.
  - destruct T as [|x r]; simpl.
    + subst q. exact Hq.
    + destruct HT as [-> HT]. split; [exact Hq|].
      apply path_frame with sl; [exact HT|].
      intros q Hv. apply Hf. left. intro E.
      assert (Hx : exists y, In y (x :: r) /\ q = Nd y).
      { destruct Hv as [->|(y & Hy & ->)]; [exists x|exists y]; simpl; auto. }
      destruct Hx as (y & Hy & ->).
      destruct (lastp_in (ids A) Head) as [E'|(z & Hz & E')]; rewrite E' in E; [discriminate|].
      inversion E; subst. apply (Hdis z); auto.
Qed.

Lemma unlink_loop_spec : forall A b B' n i sl height,
  let L := A ++ b :: B' in
  nodes_ok sl L ->
  (forall c, In c L -> (c_lvl c <= height)%nat) ->
  (1 <= i)%nat -> (i + n = S height)%nat -> (height <= max_height)%nat ->
  (forall j, (1 <= j < i)%nat -> path sl j Head (ids (at_lvl j (A ++ B')))) ->
  (forall j, (i <= j <= max_height)%nat -> path sl j Head (ids (at_lvl j L))) ->
  exists sl', unlink_loop sl i (map (fun j => last_at j A) (seq i n)) (Nd (c_id b)) = Ok sl' /\
    nodes_ok sl' L /\ sl_height sl' = sl_height sl /\ sl_fresh sl' = sl_fresh sl /\
    (forall j, (1 <= j <= max_height)%nat -> path sl' j Head (ids (at_lvl j (A ++ B')))).
Proof.
  intros A b B' n. induction n as [|n IH]; intros i sl height L HN Hlv Hi Hin Hh Hlow Hhigh.
  - exists sl. simpl. conj_split; auto.
    intros j Hj. destruct (Nat.lt_ge_cases j i) as [Hlt|Hge]; [apply Hlow; lia|].
    assert (HE : at_lvl j (A ++ B') = at_lvl j L).
    { rewrite (at_lvl_nil height j L), (at_lvl_nil height j (A ++ B')); auto; try lia.
      intros c Hc. apply Hlv. unfold L. apply in_app_iff in Hc. apply in_app_iff. simpl. tauto. }
    rewrite HE. apply Hhigh. lia.
  - cbn [seq map unlink_loop].
    assert (Hpi : path sl i Head (ids (at_lvl i L))) by (apply Hhigh; lia).
    assert (Hnd : NoDup (ids L)) by (apply no_nodup in HN; exact HN).
    unfold L in Hpi. rewrite at_lvl_app, at_lvl_cons, !ids_app in Hpi.
    apply path_app in Hpi. destruct Hpi as [Hseg Hpi].
    fold (last_at i A) in Hpi.
    assert (HndL : NoDup (ids A) /\ NoDup (c_id b :: ids B') /\ (forall x, In x (ids A) -> In x (c_id b :: ids B') -> False)).
    { apply NoDup_app_inv. unfold L in Hnd. rewrite ids_app in Hnd. exact Hnd. }
    destruct HndL as (HndA & HndB & Hdis).
    unfold ge_lvl in Hpi. destruct (Nat.leb_spec i (c_lvl b)) as [Hlb|Hlb].
    + simpl in Hpi. destruct Hpi as [Hn1 Hp2]. rewrite Hn1. cbn [bind]. rewrite ptr_eqb_refl.
      pose proof (path_next _ _ _ _ Hp2) as Hn2. rewrite Hn2. cbn [bind].
      set (t := match ids (at_lvl i B') with [] => Head | x :: _ => Nd x end).
      destruct (set_next_spec sl L (last_at i A) i t HN) as (sl' & Hset & HN' & Hh' & Hf' & Hnx & Hfr).
      { destruct (last_at_valid i A) as [Hl|(c & Hc & Hl & Hci)]; [lia|left; exact Hl|right].
        exists c. split; [unfold L; apply in_app_iff; auto|]. tauto. }
      rewrite Hset. cbn [bind].
      destruct (IH (S i) sl' height HN' Hlv) as (sl'' & Hu & HN'' & Hh'' & Hf'' & Hp''); try lia.
      * intros j Hj. destruct (Nat.eq_dec j i) as [->|Hne].
        -- rewrite at_lvl_app, ids_app. apply path_redirect with (sl := sl) (q := t); auto.
           ++ apply NoDup_at_lvl. exact HndA.
           ++ intros x Hx Hx'. apply in_ids_at in Hx. apply in_ids_at in Hx'.
              apply (Hdis x); [exact Hx'|right; exact Hx].
           ++ unfold t. destruct (ids (at_lvl i B')) as [|x r]; [reflexivity|].
              simpl in Hp2. split; [reflexivity|tauto].
        -- apply path_frame with sl; [apply Hlow; lia|]. intros q _. apply Hfr. right. exact Hne.
      * intros j Hj. apply path_frame with sl; [apply Hhigh; lia|].
        intros q _. apply Hfr. right. lia.
      * exists sl''. split; [exact Hu|]. conj_split; auto; try congruence.
    + simpl in Hpi. pose proof (path_next _ _ _ _ Hpi) as Hn1. rewrite Hn1. cbn [bind].
      assert (Hneq : ptr_eqb match ids (at_lvl i B') with [] => Head | x :: _ => Nd x end (Nd (c_id b)) = false).
      { destruct (ids (at_lvl i B')) as [|x r] eqn:E; [reflexivity|]. simpl. apply Nat.eqb_neq. intro Ex.
        subst x. assert (In (c_id b) (ids B')) as Hb.
        { apply in_ids_at with i. rewrite E. left. reflexivity. }
        inversion HndB; auto. }
      rewrite Hneq. exists sl. conj_split; auto.
      intros j Hj. destruct (Nat.lt_ge_cases j i) as [Hlt|Hge]; [apply Hlow; lia|].
      specialize (Hhigh j ltac:(lia)). unfold L in Hhigh. rewrite at_lvl_app, at_lvl_cons in Hhigh.
      unfold ge_lvl in Hhigh. destruct (Nat.leb_spec j (c_lvl b)); [lia|].
      rewrite at_lvl_app. exact Hhigh.
Qed.

Lemma unlink_loop_head : forall L n i sl height,
  nodes_ok sl L ->
  (1 <= i)%nat -> (i + n = S height)%nat -> (height <= max_height)%nat ->
  (forall j, (i <= j <= max_height)%nat -> path sl j Head (ids (at_lvl j L))) ->
  exists sl', unlink_loop sl i (map (fun j => last_at j L) (seq i n)) Head = Ok sl'.
Proof.
  intros L n. induction n as [|n IH]; intros i sl height HN Hi Hin Hh Hhigh.
  - exists sl. reflexivity.
  - cbn [seq map unlink_loop].
    assert (Hpi : path sl i Head (ids (at_lvl i L))) by (apply Hhigh; lia).
    pose proof (path_next _ _ _ _ Hpi) as HnH.
    rewrite <- (app_nil_r (ids (at_lvl i L))) in Hpi. apply path_app in Hpi. destruct Hpi as [_ Hpi].
    simpl in Hpi. fold (last_at i L) in Hpi. rewrite Hpi. cbn [bind]. simpl ptr_eqb. cbn [bind].
    rewrite HnH. cbn [bind].
    destruct (set_next_spec sl L (last_at i L) i match ids (at_lvl i L) with [] => Head | x :: _ => Nd x end HN)
      as (sl' & Hset & HN' & Hh' & Hf' & Hnx & Hfr).
    { destruct (last_at_valid i L) as [Hl|(c & Hc & Hl & Hci)]; [lia|left; exact Hl|right].
      exists c. tauto. }
    rewrite Hset. cbn [bind]. apply IH with height; auto; try lia.
    intros j Hj. apply path_frame with sl; [apply Hhigh; lia|].
    intros q _. apply Hfr. right. lia.
Qed.

Lemma free_node_spec : forall sl A b B,
  nodes_ok sl (A ++ b :: B) ->
  exists sl', free_node sl (Nd (c_id b)) = Ok sl' /\ nodes_ok sl' (A ++ B) /\
    sl_height sl' = sl_height sl /\ sl_fresh sl' = sl_fresh sl /\
    (forall p j, p <> Nd (c_id b) -> next_of sl' p j = next_of sl p j).
Proof.
  intros sl A b B [Hnode Hdead Hfresh Hnd Hhead].
  destruct (Hnode b) as (n & Hn & _); [apply in_app_iff; simpl; auto|].
  unfold free_node. rewrite Hn. eexists. split; [reflexivity|].
  rewrite ids_app in Hnd. simpl in Hnd.
  assert (Hnd' := NoDup_remove_1 _ _ _ Hnd). assert (Hnb := NoDup_remove_2 _ _ _ Hnd).
  split; [|split; [|split]]; try reflexivity.
  - constructor; simpl; auto.
    + intros c Hc. assert (c_id c <> c_id b).
      { intro E. apply Hnb. rewrite <- E, <- ids_app. apply in_map. exact Hc. }
      rewrite heap_set_other by assumption. apply Hnode.
      apply in_app_iff in Hc. apply in_app_iff. simpl. tauto.
    + intros i Hi. destruct (Nat.eq_dec i (c_id b)) as [->|Hne]; [apply heap_set_same|].
      rewrite heap_set_other by assumption. apply Hdead. rewrite ids_app in *. simpl.
      intro Hin. apply Hi. apply in_app_iff in Hin. apply in_app_iff. simpl in Hin.
      destruct Hin as [?|[?|?]]; auto. congruence.
    + intros c Hc. apply Hfresh. apply in_app_iff in Hc. apply in_app_iff. simpl. tauto.
    + rewrite ids_app. exact Hnd'.
  - intros [|id] j Hne; simpl; [reflexivity|]. rewrite heap_set_other; [reflexivity|]. congruence.
Qed.

Lemma shrink_loop_spec : forall sl L h, (1 <= h <= max_height)%nat ->
  (forall c, In c L -> (1 <= c_lvl c <= h)%nat) ->
  (forall i, (1 <= i <= max_height)%nat -> path sl i Head (ids (at_lvl i L))) ->
  exists h', shrink_loop sl h = Ok h' /\ (1 <= h' <= max_height)%nat /\
    (forall c, In c L -> (1 <= c_lvl c <= h')%nat).
Proof.
  intros sl L. induction h as [|h IH]; intros Hh Hlv HP; [lia|].
  cbn [shrink_loop]. destruct (Nat.ltb_spec 1 (S h)) as [H1|H1].
  - pose proof (HP (S h) Hh) as Hp. pose proof (path_next _ _ _ _ Hp) as Hn. rewrite Hn. cbn [bind].
    destruct (ids (at_lvl (S h) L)) as [|x r] eqn:E; simpl.
    + apply IH; auto; try lia.
      intros c Hc. pose proof (Hlv c Hc). destruct (Nat.eq_dec (c_lvl c) (S h)) as [E'|]; [|lia].
      assert (In c (at_lvl (S h) L)) as Hin by (apply in_at_lvl; split; [exact Hc|lia]).
      unfold ids in E. apply map_eq_nil in E. rewrite E in Hin. destruct Hin.
    + exists (S h). auto.
  - exists (S h). conj_split; auto; try lia; apply Hlv; assumption.
Qed.

(** Removal of an existing key. *)
Lemma skip_list_remove_found : forall sl A b B,
  inv sl (A ++ b :: B) -> (forall c, In c A -> c_key c < c_key b) ->
  exists sl', skip_list_remove sl (c_key b) = Ok sl' /\ inv sl' (A ++ B) /\ sl_fresh sl' = sl_fresh sl.
Proof.
  intros sl A b B HI HA. pose proof HI as [HN HS HP].
  assert (HbL : In b (A ++ b :: B)) by (apply in_app_iff; simpl; auto).
  assert (HB : forall c, In c (b :: B) -> c_key b <= c_key c).
  { intros c [<-|Hc]; [lia|]. pose proof (so_sorted _ _ HS) as Hs. apply ss_app in Hs.
    destruct Hs as (_ & Hs & _). inversion Hs as [|? ? _ HF]; subst. rewrite Forall_forall in HF.
    destruct (HF c Hc) as [|[]]; lia. }
  unfold skip_list_remove.
  assert (Hlv : forall c, In c (A ++ b :: B) -> (1 <= c_lvl c <= sl_height sl)%nat) by apply (so_lvl _ _ HS).
  assert (Ht : Head = last_at (S (sl_height sl)) A).
  { symmetry. apply last_at_top with (sl_height sl); [|lia]. intros c Hc. apply Hlv. apply in_app_iff; auto. }
  pose proof (so_max _ _ HS b HbL) as Hbmax. pose proof (so_height _ _ HS) as Hh.
  assert (Hrs : remove_search sl (c_key b) (sl_height sl) Head = Ok (last_at 1 A, map (fun j => last_at j A) (seq 1 (sl_height sl)))).
  { rewrite Ht. apply remove_search_spec with (L := A ++ b :: B) (B := b :: B); auto. }
  rewrite Hrs. cbn [bind].
  assert (Hp1 : path sl 1 Head (ids (at_lvl 1 (A ++ b :: B)))) by (apply HP; unfold max_height; lia).
  rewrite at_lvl_app, at_lvl_cons, !ids_app in Hp1.
  unfold ge_lvl in Hp1. destruct (Nat.leb_spec 1 (c_lvl b)) as [Hb1|Hb1]; [|pose proof (Hlv b HbL); lia].
  apply path_app in Hp1. destruct Hp1 as [_ Hp1]. simpl in Hp1. destruct Hp1 as [Hn1 _].
  fold (last_at 1 A) in Hn1. rewrite Hn1. cbn [bind].
  rewrite key_of_cell with (L := A ++ b :: B) by assumption. cbn [bind]. rewrite N.eqb_refl.
  destruct (unlink_loop_spec A b B (sl_height sl) 1 sl (sl_height sl)) as (sl1 & Hu & HN1 & Hh1 & Hf1 & HP1);
    auto; try lia.
  { intros c Hc. apply Hlv. exact Hc. }
  rewrite Hu. cbn [bind].
  destruct (free_node_spec sl1 A b B HN1) as (sl2 & Hfr & HN2 & Hh2 & Hf2 & Hnx2).
  rewrite Hfr. cbn [bind].
  assert (HP2 : forall i, (1 <= i <= max_height)%nat -> path sl2 i Head (ids (at_lvl i (A ++ B)))).
  { intros i Hi. apply path_frame with sl1; [apply HP1; exact Hi|].
    intros q Hq. apply Hnx2. intro E. subst q. destruct Hq as [Hq|(x & Hx & Hq)]; [discriminate|].
    inversion Hq; subst x. apply in_ids_at in Hx.
    pose proof (no_nodup _ _ HN) as Hnd. rewrite ids_app in Hnd. apply NoDup_remove_2 in Hnd.
    apply Hnd. rewrite <- ids_app. exact Hx. }
  assert (Hlv2 : forall c, In c (A ++ B) -> (1 <= c_lvl c <= sl_height sl2)%nat).
  { intros c Hc. rewrite Hh2, Hh1. apply Hlv. apply in_app_iff in Hc. apply in_app_iff. simpl. tauto. }
  destruct (shrink_loop_spec sl2 (A ++ B) (sl_height sl2)) as (h' & Hsh & Hh' & Hlv'); auto.
  { rewrite Hh2, Hh1. exact Hh. }
  rewrite Hsh. cbn [bind]. eexists. split; [reflexivity|]. split; [|simpl; congruence].
  constructor.
  - destruct HN2. constructor; simpl; auto.
  - constructor; simpl; auto.
    + pose proof (so_sorted _ _ HS) as Hs. apply ss_app in Hs. destruct Hs as (H1 & H2 & H3).
      apply ss_app. inversion H2; subst. conj_split; auto.
      intros a d Ha Hd. apply H3; simpl; auto.
    + intros c Hc. apply (so_max _ _ HS). apply in_app_iff in Hc. apply in_app_iff. simpl. tauto.
  - intros i Hi. apply path_frame with sl2; auto.
Qed.

(** Removal of a key that is not present. *)
Lemma skip_list_remove_absent : forall sl A B key,
  inv sl (A ++ B) -> key < max64 -> (forall c, In c A -> c_key c < key) ->
  (forall c, In c B -> key < c_key c) ->
  skip_list_remove sl key = Ok sl.
Proof.
  intros sl A B key HI Hkey HA HB. pose proof HI as [HN HS HP].
  unfold skip_list_remove.
  assert (Hlv : forall c, In c (A ++ B) -> (1 <= c_lvl c <= sl_height sl)%nat) by apply (so_lvl _ _ HS).
  assert (Ht : Head = last_at (S (sl_height sl)) A).
  { symmetry. apply last_at_top with (sl_height sl); [|lia]. intros c Hc. apply Hlv. apply in_app_iff; auto. }
  assert (Hrs : remove_search sl key (sl_height sl) Head = Ok (last_at 1 A, map (fun j => last_at j A) (seq 1 (sl_height sl)))).
  { rewrite Ht. apply remove_search_spec with (L := A ++ B) (B := B); auto; try lia.
    intros c Hc. apply HB in Hc. lia. }
  rewrite Hrs. cbn [bind].
  assert (Hp1 : path sl 1 Head (ids (at_lvl 1 (A ++ B)))) by (apply HP; unfold max_height; lia).
  rewrite at_lvl_app, ids_app in Hp1. apply path_app in Hp1. destruct Hp1 as [_ Hp1].
  fold (last_at 1 A) in Hp1. apply path_next in Hp1. rewrite Hp1. cbn [bind].
  destruct B as [|b B].
  - cbn [at_lvl filter ids map key_of bind]. destruct (N.eqb_spec max64 key); [lia|]. reflexivity.
  - rewrite at_lvl_cons. unfold ge_lvl.
    assert (HbL : In b (A ++ b :: B)) by (apply in_app_iff; simpl; auto).
    destruct (Nat.leb_spec 1 (c_lvl b)) as [Hb1|Hb1]; [|pose proof (Hlv b HbL); lia].
    cbn [app ids map]. rewrite key_of_cell with (L := A ++ b :: B) by assumption. cbn [bind].
    specialize (HB b (or_introl eq_refl)). destruct (N.eqb_spec (c_key b) key); [lia|]. reflexivity.
Qed.

(** Removal of the sentinel key when no cell has it: delete &m_head. *)
Lemma skip_list_remove_sentinel : forall sl L,
  inv sl L -> (forall c, In c L -> c_key c < max64) ->
  skip_list_remove sl max64 = UB UBadFree.
Proof.
  intros sl L HI HA. pose proof HI as [HN HS HP].
  unfold skip_list_remove.
  assert (Hlv : forall c, In c L -> (1 <= c_lvl c <= sl_height sl)%nat) by apply (so_lvl _ _ HS).
  assert (Ht : Head = last_at (S (sl_height sl)) L).
  { symmetry. apply last_at_top with (sl_height sl); [|lia]. intros c Hc. apply Hlv. exact Hc. }
  assert (Hrs : remove_search sl max64 (sl_height sl) Head = Ok (last_at 1 L, map (fun j => last_at j L) (seq 1 (sl_height sl)))).
  { rewrite Ht. apply remove_search_spec with (L := L) (B := []); auto; try lia.
    { symmetry. apply app_nil_r. }
    intros c []. }
  rewrite Hrs. cbn [bind].
  assert (Hp1 : path sl 1 Head (ids (at_lvl 1 L))) by (apply HP; unfold max_height; lia).
  rewrite <- (app_nil_r (ids (at_lvl 1 L))) in Hp1.
  apply path_app in Hp1. destruct Hp1 as [_ Hp1].
  fold (last_at 1 L) in Hp1. apply path_next in Hp1. rewrite Hp1. cbn [bind key_of].
  rewrite N.eqb_refl.
  pose proof (so_height _ _ HS) as Hh.
  destruct (unlink_loop_head L (sl_height sl) 1 sl (sl_height sl)) as (sl1 & Hu); auto; try lia.
  rewrite Hu. reflexivity.
Qed.

(** ** skipListUpdate *)

Lemma insert_loop_spec : forall A n B key, c_key n = key -> key <= max64 ->
  (forall c, In c A -> c_key c < key) -> (forall c, In c B -> key <= c_key c) ->
  forall i sl, let L := A ++ n :: B in
  nodes_ok sl L -> (i <= max_height)%nat ->
  (forall j, (1 <= j <= i)%nat -> path sl j Head (ids (at_lvl j (A ++ B)))) ->
  (forall j, (i < j <= max_height)%nat -> path sl j Head (ids (at_lvl j L))) ->
  exists sl', insert_loop sl key (Nd (c_id n)) (c_lvl n) i (last_at (S i) A) = Ok sl' /\
    nodes_ok sl' L /\ sl_height sl' = sl_height sl /\ sl_fresh sl' = sl_fresh sl /\
    (forall j, (1 <= j <= max_height)%nat -> path sl' j Head (ids (at_lvl j L))).
Proof.
  intros A n B key Hk Hkm HA HB i. induction i as [|i IH]; intros sl L HN Hi Hlow Hhigh.
  - exists sl. simpl. conj_split; auto.
  - cbn [insert_loop].
    assert (Hpi : path sl (S i) Head (ids (at_lvl (S i) (A ++ B)))) by (apply Hlow; lia).
    rewrite walk_descend with (L := L) (A := A) (B := B); auto.
    2:{ intros c Hc. unfold L. apply in_app_iff in Hc. apply in_app_iff. simpl. tauto. }
    2:{ unfold L. rewrite app_length. lia. }
    2:{ apply N.ltb_ge. exact Hkm. }
    2:{ intros c Hc. apply N.ltb_lt. auto. }
    2:{ intros c Hc. apply N.ltb_ge. auto. }
    cbn [bind].
    rewrite at_lvl_app, ids_app in Hpi. apply path_app in Hpi. destruct Hpi as [Hseg Hpi].
    fold (last_at (S i) A) in Hpi.
    assert (Hnd : NoDup (ids L)) by (apply no_nodup in HN; exact HN).
    assert (HndL : NoDup (ids A) /\ NoDup (c_id n :: ids B) /\ (forall x, In x (ids A) -> In x (c_id n :: ids B) -> False)).
    { apply NoDup_app_inv. unfold L in Hnd. rewrite ids_app in Hnd. exact Hnd. }
    destruct HndL as (HndA & HndB & Hdis).
    destruct (Nat.leb_spec (S i) (c_lvl n)) as [Hlb|Hlb].
    + pose proof (path_next _ _ _ _ Hpi) as Hn1. rewrite Hn1. cbn [bind].
      set (q := match ids (at_lvl (S i) B) with [] => Head | x :: _ => Nd x end).
      destruct (set_next_spec sl L (Nd (c_id n)) (S i) q HN) as (sl1 & Hset1 & HN1 & Hh1 & Hf1 & Hnx1 & Hfr1).
      { right. exists n. split; [unfold L; apply in_app_iff; simpl; auto|]. auto. }
      rewrite Hset1. cbn [bind].
      destruct (set_next_spec sl1 L (last_at (S i) A) (S i) (Nd (c_id n)) HN1) as (sl2 & Hset2 & HN2 & Hh2 & Hf2 & Hnx2 & Hfr2).
      { destruct (last_at_valid (S i) A) as [Hl|(c & Hc & Hl & Hci)]; [lia|left; exact Hl|right].
        exists c. split; [unfold L; apply in_app_iff; auto|]. tauto. }
      rewrite Hset2. cbn [bind].
      assert (HnA : forall x, In x (ids (at_lvl (S i) A)) -> x <> c_id n).
      { intros x Hx E. subst x. apply in_ids_at in Hx. apply (Hdis _ Hx). left. reflexivity. }
      assert (Hlast_ne : Nd (c_id n) <> last_at (S i) A).
      { unfold last_at. destruct (lastp_in (ids (at_lvl (S i) A)) Head) as [E|(x & Hx & E)]; rewrite E; [discriminate|].
        intro E'. inversion E'. apply (HnA x); auto. }
      destruct (IH sl2 HN2) as (sl3 & Hl3 & HN3 & Hh3 & Hf3 & HP3); try lia.
      * intros j Hj. apply path_frame with sl; [apply Hlow; lia|].
        intros p _. rewrite Hfr2, Hfr1; [reflexivity| |]; right; lia.
      * intros j Hj. destruct (Nat.eq_dec j (S i)) as [->|Hne].
        -- unfold L. rewrite at_lvl_app, at_lvl_cons, !ids_app.
           unfold ge_lvl at 1. destruct (Nat.leb_spec (S i) (c_lvl n)); [|lia].
           apply path_redirect with (sl := sl1) (q := Nd (c_id n)); auto.
           ++ apply seg_frame with sl; auto.
              ** intros p Hv Hne. apply Hfr1. left. intro E. subst p.
                 destruct Hv as [Hv|(x & Hx & Hv)]; [discriminate|]. inversion Hv. apply (HnA x); auto.
              ** apply NoDup_at_lvl. exact HndA.
              ** intros x E. discriminate.
           ++ apply NoDup_at_lvl. exact HndA.
           ++ intros x Hx Hx'. apply in_ids_at in Hx'.
              apply in_app_iff in Hx. destruct Hx as [[<-|[]]|Hx].
              ** apply (Hdis _ Hx'). left. reflexivity.
              ** apply in_ids_at in Hx. apply (Hdis x Hx'). right. exact Hx.
           ++ cbn [ids map app]. split; [reflexivity|].
              fold (ids (at_lvl (S i) B)).
              assert (Hgoal : forall l, l = ids (at_lvl (S i) B) -> path sl1 (S i) (Nd (c_id n)) l).
              { intros l El. unfold q in Hnx1. rewrite <- El in *. destruct l as [|x r]; simpl.
                - exact Hnx1.
                - split; [exact Hnx1|]. simpl in Hpi. destruct Hpi as [_ Hpr].
                  apply path_frame with sl; [exact Hpr|]. intros p Hv. apply Hfr1. left. intro E. subst p.
                  assert (In (c_id n) (x :: r)) as Hin.
                  { destruct Hv as [Hv|(y & Hy & Hv)]; inversion Hv; subst; simpl; auto. }
                  rewrite El in Hin. apply in_ids_at in Hin. inversion HndB; auto. }
              apply Hgoal. reflexivity.
        -- apply path_frame with sl; [apply Hhigh; lia|].
           intros p _. rewrite Hfr2, Hfr1; [reflexivity| |]; right; lia.
      * exists sl3. split; [exact Hl3|]. conj_split; auto; congruence.
    + cbn [bind]. apply IH; auto; try lia.
      * intros j Hj. apply Hlow. lia.
      * intros j Hj. destruct (Nat.eq_dec j (S i)) as [->|Hne]; [|apply Hhigh; lia].
        unfold L. rewrite at_lvl_app, at_lvl_cons. unfold ge_lvl at 1.
        destruct (Nat.leb_spec (S i) (c_lvl n)); [lia|]. simpl.
        rewrite <- at_lvl_app. apply Hlow. lia.
Qed.

Lemma skip_list_insert_spec : forall sl A B key value level,
  inv sl (A ++ B) -> key <= max64 -> (1 <= level <= max_height)%nat ->
  (forall c, In c A -> c_key c < key) ->
  (forall c, In c B -> key < c_key c \/ key = max64 /\ c_key c = max64) ->
  exists sl' id lvl, skip_list_insert sl key value level = Ok sl' /\
    inv sl' (A ++ mkCell id key value lvl :: B).
Proof.
  intros sl A B key value level HI Hkey Hlevel HA HB. pose proof HI as [HN HS HP].
  unfold skip_list_insert. pose proof (so_height _ _ HS) as Hh.
  set (grow := Nat.ltb (sl_height sl) level).
  set (height := if grow then S (sl_height sl) else sl_height sl).
  set (lv := if grow then height else level).
  assert (Hheight : (1 <= height <= max_height)%nat /\ (sl_height sl <= height)%nat /\ (1 <= lv <= height)%nat).
  { unfold lv, height, grow. destruct (Nat.ltb_spec (sl_height sl) level); lia. }
  destruct Hheight as (Hht & Hge & Hlv1).
  set (n := mkCell (sl_fresh sl) key value lv).
  set (sl1 := mkSL height (sl_head sl) _ (S (sl_fresh sl))).
  assert (Hlv : forall c, In c (A ++ B) -> (1 <= c_lvl c <= sl_height sl)%nat) by apply (so_lvl _ _ HS).
  assert (Ht : Head = last_at (S height) A).
  { symmetry. apply last_at_top with (sl_height sl); [|lia]. intros c Hc. apply Hlv. apply in_app_iff; auto. }
  assert (Hfr : forall c, In c (A ++ B) -> c_id c <> sl_fresh sl).
  { intros c Hc. pose proof (no_fresh _ _ HN c Hc). lia. }
  assert (HN1 : nodes_ok sl1 (A ++ n :: B)).
  { destruct HN as [Hnode Hdead Hfresh Hnd Hhead]. constructor; simpl; auto.
    - intros c Hc. apply in_app_iff in Hc. destruct Hc as [Hc|[<-|Hc]].
      + rewrite heap_set_other by (apply Hfr; apply in_app_iff; auto). apply Hnode. apply in_app_iff; auto.
      + rewrite heap_set_same. eexists. split; [reflexivity|]. simpl. rewrite repeat_length. auto.
      + rewrite heap_set_other by (apply Hfr; apply in_app_iff; auto). apply Hnode. apply in_app_iff; auto.
    - intros i Hi. rewrite heap_set_other.
      + apply Hdead. intro Hin. apply Hi. rewrite ids_app in *. apply in_app_iff in Hin.
        apply in_app_iff. simpl. tauto.
      + intro E. apply Hi. subst i. rewrite ids_app. apply in_app_iff. simpl. auto.
    - intros c Hc. apply in_app_iff in Hc. destruct Hc as [Hc|[<-|Hc]]; simpl; try lia;
      assert (c_id c < sl_fresh sl)%nat by (apply Hfresh; apply in_app_iff; auto); lia.
    - rewrite ids_app in *. simpl. apply NoDup_Add with (a := sl_fresh sl) (l := ids A ++ ids B).
      + apply Add_app.
      + split; [exact Hnd|]. intro Hin. rewrite <- ids_app in Hin. unfold ids in Hin.
        apply in_map_iff in Hin. destruct Hin as (c & E & Hc). apply (Hfr c Hc). exact E. }
  assert (Hnx : forall j p, (p = Head \/ exists c, In c (A ++ B) /\ p = Nd (c_id c)) -> next_of sl1 p j = next_of sl p j).
  { intros j p [->|(c & Hc & ->)]; simpl; [reflexivity|].
    rewrite heap_set_other by (apply Hfr; exact Hc). reflexivity. }
  assert (HPo : forall j, (1 <= j <= max_height)%nat -> path sl1 j Head (ids (at_lvl j (A ++ B)))).
  { intros j Hj. apply path_frame with sl; [apply HP; exact Hj|].
    intros q Hq. apply Hnx. destruct Hq as [->|(x & Hx & ->)]; [auto|right].
    unfold ids in Hx. apply in_map_iff in Hx. destruct Hx as (c & <- & Hc). apply in_at_lvl in Hc.
    exists c. tauto. }
  destruct (insert_loop_spec A n B key) with (i := height) (sl := sl1) as (sl2 & Hl & HN2 & Hh2 & Hf2 & HP2); auto; try lia.
  - intros c Hc. destruct (HB c Hc) as [|[]]; lia.
  - intros j Hj. apply HPo. lia.
  - intros j Hj. rewrite at_lvl_app, at_lvl_cons. unfold ge_lvl at 1. simpl.
    destruct (Nat.leb_spec j lv); [lia|]. simpl. rewrite <- at_lvl_app. apply HPo. lia.
  - rewrite Ht. exists sl2, (sl_fresh sl), lv. split; [exact Hl|].
    fold n. constructor; auto.
    rewrite Hh2. constructor.
    + pose proof (so_sorted _ _ HS) as Hs. apply ss_app in Hs. destruct Hs as (H1 & H2 & H3).
      apply ss_app. conj_split; auto.
      * constructor; auto. apply Forall_forall. intros c Hc. exact (HB c Hc).
      * intros a b Ha [<-|Hb]; [left; simpl; auto | auto].
    + intros c Hc. apply in_app_iff in Hc. destruct Hc as [Hc|[<-|Hc]]; [| exact Hkey |];
      apply (so_max _ _ HS); apply in_app_iff; auto.
    + intros c Hc. simpl. apply in_app_iff in Hc. destruct Hc as [Hc|[<-|Hc]]; simpl; try lia;
      assert (1 <= c_lvl c <= sl_height sl)%nat by (apply Hlv; apply in_app_iff; auto); lia.
    + exact Hht.
Qed.

Lemma set_value_spec : forall sl A b B v,
  inv sl (A ++ b :: B) ->
  exists sl', set_value sl (c_id b) v = Ok sl' /\
    inv sl' (A ++ mkCell (c_id b) (c_key b) v (c_lvl b) :: B).
Proof.
  intros sl A b B v HI. pose proof HI as [HN HS HP].
  destruct HN as [Hnode Hdead Hfresh Hnd Hhead].
  assert (HbL : In b (A ++ b :: B)) by (apply in_app_iff; simpl; auto).
  destruct (Hnode b HbL) as (n & Hn & Hk & Hv & Hlen).
  unfold set_value. rewrite Hn. eexists. split; [reflexivity|].
  set (b' := mkCell (c_id b) (c_key b) v (c_lvl b)).
  assert (Hids : ids (A ++ b' :: B) = ids (A ++ b :: B)) by (rewrite !ids_app; reflexivity).
  assert (Hat : forall i, ids (at_lvl i (A ++ b' :: B)) = ids (at_lvl i (A ++ b :: B))).
  { intro i. rewrite !at_lvl_app, !at_lvl_cons, !ids_app. unfold ge_lvl. simpl.
    destruct (i <=? c_lvl b)%nat; reflexivity. }
  assert (Hother : forall c, In c A \/ In c B -> c_id c <> c_id b).
  { intros c Hc E. rewrite ids_app in Hnd. simpl in Hnd. apply NoDup_remove_2 in Hnd. apply Hnd.
    rewrite <- E, <- ids_app. apply in_map. apply in_app_iff. exact Hc. }
  constructor.
  - constructor; simpl.
    + intros c Hc. apply in_app_iff in Hc. destruct Hc as [Hc|[<-|Hc]].
      * rewrite heap_set_other by (apply Hother; auto). apply Hnode. apply in_app_iff; auto.
      * simpl. rewrite heap_set_same. eexists. split; [reflexivity|]. simpl. auto.
      * rewrite heap_set_other by (apply Hother; auto). apply Hnode. apply in_app_iff; simpl; auto.
    + intros i Hi. rewrite Hids in Hi. rewrite heap_set_other; [apply Hdead; exact Hi|].
      intro E. apply Hi. subst i. apply in_map. exact HbL.
    + intros c Hc. apply in_app_iff in Hc. destruct Hc as [Hc|[<-|Hc]]; simpl; try (apply Hfresh; apply in_app_iff; simpl; auto).
    + rewrite Hids. exact Hnd.
    + exact Hhead.
  - simpl. destruct HS as [Hs Hm Hl Hh]. constructor; auto.
    + apply ss_app in Hs. destruct Hs as (H1 & H2 & H3). apply ss_app. inversion H2; subst. conj_split; auto.
      * constructor; auto.
      * intros a d Ha [<-|Hd]; [apply (H3 a b); simpl; auto | apply H3; simpl; auto].
    + intros c Hc. apply in_app_iff in Hc. destruct Hc as [Hc|[<-|Hc]]; [| apply (Hm b HbL) |];
      apply Hm; apply in_app_iff; simpl; auto.
    + intros c Hc. apply in_app_iff in Hc. destruct Hc as [Hc|[<-|Hc]]; [| apply (Hl b HbL) |];
      apply Hl; apply in_app_iff; simpl; auto.
  - intros i Hi. rewrite Hat. apply path_frame with sl; [apply HP; exact Hi|].
    intros [|id] _; simpl; [reflexivity|].
    destruct (Nat.eq_dec id (c_id b)) as [->|Hne].
    + rewrite heap_set_same, Hn. reflexivity.
    + rewrite heap_set_other by exact Hne. reflexivity.
Qed.

Lemma random_level_loop_bound : forall n level coins pos,
  (level <= fst (random_level_loop n level coins pos) <= level + n)%nat.
Proof.
  induction n; intros; simpl; [lia|]. destruct (coins pos); simpl; [|lia].
  specialize (IHn (S level) coins (S pos)). lia.
Qed.

Lemma random_level_bound : forall coins pos, (1 <= fst (random_level coins pos) <= max_height)%nat.
Proof. intros. unfold random_level. pose proof (random_level_loop_bound (max_height - 1) 1 coins pos). unfold max_height in *. lia. Qed.

(** ** construct / destruct *)

Lemma construct_inv : forall heap fresh, (forall i, heap i = None) -> inv (construct heap fresh) [].
Proof.
  intros heap fresh Hh. constructor.
  - constructor; simpl; auto; try (intros ? []). constructor.
  - constructor; simpl; try (intros ? []); [constructor | unfold max_height; lia].
  - intros i Hi. unfold max_height in Hi. change (next_of (construct heap fresh) Head i = Ok Head).
    unfold next_of, construct, sl_head, read_arr.
    assert (E : nth_error (repeat (Some Head) (S max_height)) i = Some (Some Head)).
    { destruct (nth_error (repeat (Some Head) (S max_height)) i) eqn:E.
      - apply nth_error_In in E. apply repeat_spec in E. congruence.
      - apply nth_error_None in E. rewrite repeat_length in E. unfold max_height in E. lia. }
    rewrite E. reflexivity.
Qed.

Lemma destruct_loop_spec : forall S sl fuel cur,
  nodes_ok sl S -> (length S < fuel)%nat ->
  match S with
  | [] => cur = Head
  | c :: S' => cur = Nd (c_id c) /\ path sl 1 cur (ids S')
  end ->
  exists sl', destruct_loop fuel sl cur = Ok sl' /\ forall i, sl_heap sl' i = None.
Proof.
  induction S as [|c S IH]; intros sl fuel cur HN Hf Hc; (destruct fuel as [|f]; [simpl in Hf; lia|]).
  - subst cur. simpl. exists sl. split; [reflexivity|]. intro i. apply (no_dead _ _ HN). intros [].
  - destruct Hc as [-> Hp]. cbn [destruct_loop ptr_eqb].
    pose proof (path_next _ _ _ _ Hp) as Hn. rewrite Hn. cbn [bind].
    destruct (free_node_spec sl [] c S HN) as (sl' & Hfr & HN' & _ & _ & Hnx). rewrite Hfr. cbn [bind].
    apply IH; [exact HN' | simpl in Hf; lia |].
    destruct S as [|d S]; simpl; [reflexivity|]. split; [reflexivity|].
    simpl in Hp. destruct Hp as [_ Hp]. apply path_frame with sl; [exact Hp|].
    intros q Hv. apply Hnx. intro E. subst q.
    pose proof (no_nodup _ _ HN) as Hnd. simpl in Hnd. inversion Hnd as [|? ? Hnin _]; subst. apply Hnin.
    destruct Hv as [Hv|(x & Hx & Hv)]; inversion Hv; subst; simpl; auto.
Qed.

Lemma destruct_map_spec : forall sl L, inv sl L ->
  exists heap, destruct_map sl = Ok heap /\ forall i, heap i = None.
Proof.
  intros sl L HI. pose proof HI as [HN HS HP]. unfold destruct_map.
  assert (Hp : path sl 1 Head (ids L)).
  { rewrite <- (at_lvl_1 L) by (intros c Hc; apply (so_lvl _ _ HS) in Hc; lia).
    apply HP. unfold max_height. lia. }
  pose proof (path_next _ _ _ _ Hp) as Hn. rewrite Hn. cbn [bind].
  destruct (destruct_loop_spec L sl (fuel_of sl) (match ids L with [] => Head | x :: _ => Nd x end)) as (sl' & Hd & Hnone); auto.
  - unfold fuel_of. pose proof (nodes_len _ _ HN). lia.
  - destruct L as [|c L]; simpl; [reflexivity|]. simpl in Hp. tauto.
  - rewrite Hd. cbn [bind]. eauto.
Qed.
