(** Proofs about the foreign memory of Lisp operations: heap operations, predicates. *)
From Verif Require Import Base Types Predicate CApi Lisp LispProofs LispMem LispMemSpec.
Local Ltac conj_split := repeat match goal with |- _ /\ _ => split end.

Definition good (l : list (N * blk)) : Prop := NoDup (map fst l) /\ ~ In 0 (map fst l).

Lemma sound_good : forall h, sound h -> good (h_live h).
Proof. intros h (H0 & H1 & H2). split; [exact H1|]. intro H. apply H2 in H. lia. Qed.
Lemma good_drop : forall A X B, good (A ++ X ++ B) -> good (A ++ B).
Proof.
  intros A X B [H1 H2]. unfold good. rewrite !map_app in *. split.
  - induction X as [|x X IH]; [exact H1|]. cbn in H1. apply IH; [eapply NoDup_remove_1; exact H1|]. intro H. apply H2. rewrite in_app_iff in *. cbn. tauto.
  - intro H. apply H2. rewrite !in_app_iff in *. tauto.
Qed.
Lemma good_notin : forall A e B, good (A ++ e :: B) -> fst e <> 0 /\ (forall x, In x A -> fst x <> fst e) /\ (forall x, In x B -> fst x <> fst e).
Proof.
  intros A e B [H1 H2]. rewrite map_app in *. cbn in *. apply NoDup_remove_2 in H1. rewrite in_app_iff in *. conj_split.
  - intro H. apply H2. cbn. tauto.
  - intros x Hx E. apply H1. left. rewrite <- E. apply in_map. exact Hx.
  - intros x Hx E. apply H1. right. rewrite <- E. apply in_map. exact Hx.
Qed.
Lemma existsb_mid : forall A (a : N) (b : blk) B, existsb (fun e => fst e =? a) (A ++ (a, b) :: B) = true.
Proof. intros. apply existsb_exists. exists (a, b). split; [rewrite in_app_iff; cbn; tauto|]. apply N.eqb_refl. Qed.
Lemma filter_same : forall (a : N) (l : list (N * blk)), (forall x, In x l -> fst x <> a) -> filter (fun e => negb (fst e =? a)) l = l.
Proof.
  induction l as [|x l IH]; intros H; [reflexivity|]. cbn. destruct (N.eqb_spec (fst x) a) as [E|E]; [exfalso; apply (H x); cbn; auto|].
  cbn. f_equal. apply IH. intros y Hy. apply H. right. exact Hy.
Qed.
Lemma map_same : forall (a : N) (b : blk) (l : list (N * blk)), (forall x, In x l -> fst x <> a) -> map (fun e => if fst e =? a then (a, b) else e) l = l.
Proof.
  induction l as [|x l IH]; intros H; [reflexivity|]. cbn. destruct (N.eqb_spec (fst x) a) as [E|E]; [exfalso; apply (H x); cbn; auto|].
  f_equal. apply IH. intros y Hy. apply H. right. exact Hy.
Qed.
Lemma release_ok : forall nx A a b B, good (A ++ (a, b) :: B) -> release a (mkH nx (A ++ (a, b) :: B)) = (Ok tt, mkH nx (A ++ B)).
Proof.
  intros nx A a b B G. destruct (good_notin _ _ _ G) as (H0 & HA & HB). cbn in *. unfold release. cbn [h_live h_next].
  destruct (N.eqb_spec a 0) as [E|_]; [contradiction|]. rewrite existsb_mid, filter_app. cbn. rewrite N.eqb_refl. cbn. rewrite !filter_same by assumption. reflexivity.
Qed.
Lemma find_mid : forall A (a : N) (b : blk) B, (forall x, In x A -> fst x <> a) -> find (fun e => fst e =? a) (A ++ (a, b) :: B) = Some (a, b).
Proof.
  induction A as [|x A IH]; intros a b B H; cbn; [rewrite N.eqb_refl; reflexivity|].
  destruct (N.eqb_spec (fst x) a) as [E|E]; [exfalso; apply (H x); cbn; auto|]. apply IH. intros y Hy. apply H. right. exact Hy.
Qed.
Lemma contents_ok : forall nx A a b B, good (A ++ (a, b) :: B) -> contents a (mkH nx (A ++ (a, b) :: B)) = (Ok b, mkH nx (A ++ (a, b) :: B)).
Proof. intros nx A a b B G. destruct (good_notin _ _ _ G) as (H0 & HA & HB). unfold contents. cbn [h_live]. rewrite find_mid by assumption. reflexivity. Qed.
Lemma fill_ok : forall nx A a b b' B, good (A ++ (a, b) :: B) -> fill a b' (mkH nx (A ++ (a, b) :: B)) = (Ok tt, mkH nx (A ++ (a, b') :: B)).
Proof.
  intros nx A a b b' B G. destruct (good_notin _ _ _ G) as (H0 & HA & HB). cbn in *. unfold fill. cbn [h_live h_next].
  rewrite existsb_mid, map_app. cbn. rewrite N.eqb_refl, !map_same by assumption. reflexivity.
Qed.

(** Blocks are only added, at the end. *)
Definition grows (h h' : heap) (l : list (N * blk)) : Prop := h_live h' = h_live h ++ l /\ sound h'.
Lemma grows_nil : forall h, sound h -> grows h h [].
Proof. intros h H. split; [rewrite app_nil_r; reflexivity|exact H]. Qed.
Lemma grows_trans : forall h1 h2 h3 l1 l2, grows h1 h2 l1 -> grows h2 h3 l2 -> grows h1 h3 (l1 ++ l2).
Proof. intros h1 h2 h3 l1 l2 [H1 _] [H2 S]. split; [rewrite H2, H1, app_assoc; reflexivity|exact S]. Qed.
Lemma sound_obtain : forall h b, sound h -> sound (mkH (h_next h + 1) (h_live h ++ [(h_next h, b)])).
Proof.
  intros h b (H0 & H1 & H2). unfold sound. cbn [h_next h_live]. rewrite map_app. cbn [map fst]. conj_split.
  - lia.
  - clear H0. assert (HN : ~ In (h_next h) (map fst (h_live h))) by (intro H; apply H2 in H; lia). clear H2. revert H1 HN. generalize (map fst (h_live h)). intros l. induction l as [|x l IH]; intros ND HN.
    + cbn. constructor; [tauto|constructor].
    + inversion ND as [|? ? N1 N2]; subst. cbn. constructor; [rewrite in_app_iff; cbn in *; intuition congruence|]. apply IH; [exact N2|]. intro; apply HN; right; assumption.
  - intros a Ha. rewrite in_app_iff in Ha. cbn in Ha. destruct Ha as [Ha|[<-|[]]]; [apply H2 in Ha; lia|lia].
Qed.
Lemma obtain_grows : forall h b, sound h -> exists h', obtain b h = (Ok (h_next h), h') /\ grows h h' [(h_next h, b)].
Proof. intros h b H. eexists. split; [reflexivity|]. split; [reflexivity|]. apply sound_obtain. exact H. Qed.
(** Changing what is in a block keeps the heap sound. *)
Lemma sound_fill : forall nx A a b b' B, sound (mkH nx (A ++ (a, b) :: B)) -> sound (mkH nx (A ++ (a, b') :: B)).
Proof. intros nx A a b b' B (H0 & H1 & H2). unfold sound in *. cbn [h_live h_next] in *. rewrite map_app in *. cbn in *. auto. Qed.
Lemma sound_drop : forall nx A X B, sound (mkH nx (A ++ X ++ B)) -> sound (mkH nx (A ++ B)).
Proof.
  intros nx A X B H. pose proof (sound_good _ H) as G. cbn in G. apply good_drop in G. destruct H as (H0 & H1 & H2). unfold sound. cbn [h_live h_next] in *.
  conj_split; [exact H0|apply G|]. intros a Ha. apply H2. rewrite !map_app, !in_app_iff in *. tauto.
Qed.

(** ** Predicates *)
Inductive owns : list (N * blk) -> node -> Prop :=
| own_leaf : forall n, is_leaf_kind (nd_kind n) = true -> owns [] n
| own_inner : forall k z a cs l, is_leaf_kind k = false -> owns_list l cs -> owns (l ++ [(a, BNodes cs)]) (mkNode k z a)
with owns_list : list (N * blk) -> list node -> Prop :=
| own_nil : owns_list [] []
| own_cons : forall l1 l2 n ns, owns l1 n -> owns_list l2 ns -> owns_list (l1 ++ l2) (n :: ns).
Scheme owns_m := Minimality for owns Sort Prop
with owns_list_m := Minimality for owns_list Sort Prop.
Combined Scheme owns_both from owns_m, owns_list_m.

Lemma free_owned :
  (forall l n, owns l n -> forall f nx A B, (length l < f)%nat -> good (A ++ l ++ B) ->
     free_node f n (mkH nx (A ++ l ++ B)) = (Ok tt, mkH nx (A ++ B))) /\
  (forall l ns, owns_list l ns -> forall f nx A B, (length l < f)%nat -> good (A ++ l ++ B) ->
     exists us, each (free_node f) ns (mkH nx (A ++ l ++ B)) = (Ok us, mkH nx (A ++ B))).
Proof.
  apply owns_both.
  - intros n Hk f nx A B Hf G. destruct f as [|f]; [cbn in Hf; lia|]. cbn. rewrite Hk. reflexivity.
  - intros k z a cs l Hk _ IH f nx A B Hf G. destruct f as [|f]; [lia|]. rewrite app_length in Hf. cbn in Hf.
    cbn [free_node nd_kind nd_children]. rewrite Hk. unfold lbind at 1.
    assert (E : A ++ (l ++ [(a, BNodes cs)]) ++ B = (A ++ l) ++ (a, BNodes cs) :: B) by (rewrite <- !app_assoc; reflexivity).
    rewrite E in *. rewrite contents_ok by exact G. rewrite <- app_assoc.
    destruct (IH f nx A ((a, BNodes cs) :: B)) as (us & EU); [lia|rewrite <- app_assoc in G; exact G|].
    unfold lbind. rewrite EU. apply release_ok. rewrite <- app_assoc in G. eapply good_drop. exact G.
  - intros f nx A B Hf G. exists []. reflexivity.
  - intros l1 l2 n ns _ IH1 _ IH2 f nx A B Hf G. rewrite app_length in Hf. rewrite <- app_assoc in *. cbn [each]. unfold lbind at 1. rewrite IH1; [|lia|exact G].
    destruct (IH2 f nx A B) as (us & EU); [lia|eapply good_drop; exact G|]. unfold lbind. rewrite EU. eexists. reflexivity.
Qed.

Definition built {X} (P : X -> Prop) (o : outcome X) : Prop := match o with Ok x => P x | Throw ELisp => True | _ => False end.

Definition go_nodes (vn : list N) : list sexp -> lmem (list node) :=
  fix go l := match l with
              | [] => ret (Ok [])
              | x :: r => c <~~ build_node vn x ;; cs <~~ go r ;; ret (Ok (c :: cs))
              end.
(** agreement with Lisp.build: *)
Definition agrees (o : outcome node) (b : outcome cpred) : Prop :=
  (exists n, o = Ok n /\ fits n = true) <-> (exists c, b = Ok c).

Lemma op_kind_inner : forall o k, op_kind o = Ok k -> is_leaf_kind k = false /\ forall z a, fits (mkNode k z a) = true.
Proof. intros o k H. destruct o; cbn in H; inversion H; subst; split; reflexivity. Qed.

Lemma build_node_ok : forall vn e h, sound h ->
  exists o h' l, build_node vn e h = (o, h') /\ grows h h' l /\ built (fun n => owns l n) o /\ agrees o (build vn e).
Proof.
  intros vn e. induction e as [e IH] using sexp_ind2. intros h S. destruct e as [s|z|b|op args].
  - cbn [build_node build]. destruct (sym_position s vn) as [i|].
    + eexists _, h, []. split; [reflexivity|]. split; [apply grows_nil; exact S|]. split; [constructor; reflexivity|]. split; intros _; eexists; repeat split; reflexivity.
    + eexists _, h, []. split; [reflexivity|]. split; [apply grows_nil; exact S|]. split; [exact Logic.I|]. split; intros (x & Hx); [destruct Hx; discriminate|discriminate].
  - cbn [build_node build]. eexists _, h, []. split; [reflexivity|]. split; [apply grows_nil; exact S|]. split; [constructor; destruct (0 <=? z)%Z; reflexivity|].
    unfold agrees. destruct (0 <=? z)%Z; split.
    + intros (n & E & F). injection E as <-. cbn [fits nd_kind nd_num] in F. rewrite F. eexists. reflexivity.
    + intros (c & Hc). destruct (z <? 2 ^ 64)%Z eqn:F; [|discriminate]. eexists. split; [reflexivity|]. exact F.
    + intros (n & E & F). injection E as <-. cbn [fits nd_kind nd_num] in F. rewrite F. eexists. reflexivity.
    + intros (c & Hc). destruct (- 2 ^ 63 <=? z)%Z eqn:F; [|discriminate]. eexists. split; [reflexivity|]. exact F.
  - cbn [build_node build]. eexists _, h, []. split; [reflexivity|]. split; [apply grows_nil; exact S|]. split; [constructor; reflexivity|]. split; intros _; eexists; repeat split; reflexivity.
  - rewrite build_list. cbn [build_node]. fold (go_nodes vn). destruct (op_kind op) as [k|er| | |] eqn:EK; [|destruct op; cbn in EK; inversion EK; subst er|destruct op; discriminate..].
    2:{ eexists _, h, []. split; [reflexivity|]. split; [apply grows_nil; exact S|]. split; [exact Logic.I|]. split; intros (x & Hx); [destruct Hx; discriminate|discriminate]. }
    destruct (op_kind_inner _ _ EK) as (KI & KF). cbn [bind].
    assert (HG : forall h, sound h -> exists o h' l, go_nodes vn args h = (o, h') /\ grows h h' l /\ built (fun ns => owns_list l ns) o /\
      ((exists ns, o = Ok ns /\ forallb fits ns = true) <-> (exists cs, build_args vn args = Ok cs))).
    { clear S h EK KI KF. induction IH as [|x r HX _ IHr]; intros h S.
      - eexists _, h, []. split; [reflexivity|]. split; [apply grows_nil; exact S|]. split; [constructor|]. split; intros _; eexists; repeat split; reflexivity.
      - cbn [go_nodes build_args]. fold (go_nodes vn). fold (build_args vn r). destruct (HX h S) as (o1 & h1 & l1 & E1 & G1 & B1 & A1). unfold agrees in A1.
        destruct o1 as [n|[]| | |]; try contradiction B1.
        2:{ eexists _, h1, l1. unfold lbind. rewrite E1. split; [reflexivity|]. split; [exact G1|]. split; [exact Logic.I|]. split; intros (q & Hq); [destruct Hq; discriminate|].
            destruct (build vn x) eqn:EB; try discriminate. destruct A1 as [_ A1]. destruct A1 as (n & En & _); [eauto|discriminate]. }
        destruct (IHr h1 (proj2 G1)) as (o2 & h2 & l2 & E2 & G2 & B2 & A2). destruct o2 as [ns|[]| | |]; try contradiction B2.
        2:{ eexists _, h2, (l1 ++ l2). unfold lbind. rewrite E1, E2. split; [reflexivity|]. split; [eapply grows_trans; eassumption|]. split; [exact Logic.I|]. split; intros (q & Hq); [destruct Hq; discriminate|].
            destruct (build vn x) eqn:EB; try discriminate. cbn [bind] in Hq. destruct (build_args vn r) eqn:EBr; try discriminate. destruct A2 as [_ A2]. destruct A2 as (q2 & En & _); [eauto|discriminate]. }
        eexists _, h2, (l1 ++ l2). unfold lbind. rewrite E1, E2. split; [reflexivity|]. split; [eapply grows_trans; eassumption|]. split; [constructor; assumption|].
        split; intros (q & Hq).
        + destruct Hq as (Hq & F). injection Hq as <-. cbn in F. apply andb_prop in F. destruct F as (F1 & F2).
          destruct A1 as (A1 & _). destruct A1 as (c & ->); [eauto|]. destruct A2 as (A2 & _). destruct A2 as (cs & ->); [eauto|]. eexists. reflexivity.
        + destruct (build vn x) eqn:EB; try discriminate. cbn [bind] in Hq. destruct (build_args vn r) eqn:EBr; try discriminate.
          destruct A2 as [_ A2]. destruct A2 as (q2 & En & F2); [eauto|]. injection En as <-. destruct A1 as [_ A1]. destruct A1 as (q1 & En & F1); [eauto|]. injection En as <-.
          eexists. split; [reflexivity|]. cbn. rewrite F1, F2. reflexivity. }
    destruct (HG h S) as (o1 & h1 & l1 & E1 & G1 & B1 & A1). destruct o1 as [ns|[]| | |]; try contradiction B1.
    2:{ eexists _, h1, l1. unfold lbind, ret at 1. rewrite E1. split; [reflexivity|]. split; [exact G1|]. split; [exact Logic.I|]. split; intros (q & Hq); [destruct Hq; discriminate|].
        destruct (build_args vn args) eqn:EB; try discriminate. destruct A1 as [_ A1]. destruct A1 as (n & En & _); [eauto|discriminate]. }
    unfold create_nodes. destruct (obtain_grows h1 (BNodes ns) (proj2 G1)) as (h2 & E2 & G2). destruct (forallb fits ns) eqn:F.
    + eexists _, h2, (l1 ++ [(h_next h1, BNodes ns)]). unfold lbind, ret at 1. rewrite E1, E2, F. split; [reflexivity|]. split; [eapply grows_trans; eassumption|]. split; [constructor; assumption|].
      split; intros _; [destruct A1 as [A1 _]; destruct A1 as (cs & ->); [eauto|]|]; eexists; [reflexivity|]. split; [reflexivity|apply KF].
    + eexists _, h2, (l1 ++ [(h_next h1, BNodes ns)]). unfold lbind, ret at 1. rewrite E1, E2, F. split; [reflexivity|]. split; [eapply grows_trans; eassumption|]. split; [exact Logic.I|].
      split; intros (q & Hq); [destruct Hq; discriminate|]. destruct (build_args vn args) eqn:EB; try discriminate. destruct A1 as [_ A1]. destruct A1 as (n & En & F'); [eauto|]. injection En as <-. congruence.
Qed.

(** A pointer to a predicate: NULL, or a block with everything below it. *)
Inductive powns : list (N * blk) -> N -> Prop :=
| pown_null : powns [] 0
| pown_some : forall a n l, owns l n -> powns ((a, BPred (Some n)) :: l) a.
Definition can_build (vn : list N) (e : option sexp) : Prop := forall x, e = Some x -> exists c, build vn x = Ok c.

Lemma build_pred_ok : forall vn e h, sound h ->
  exists o h' l, build_pred vn e h = (o, h') /\ grows h h' l /\ built (fun a => powns l a /\ can_build vn e) o /\ (can_build vn e -> exists a, o = Ok a).
Proof.
  intros vn [e|] h S.
  2:{ eexists _, h, []. split; [reflexivity|]. split; [apply grows_nil; exact S|]. split; [split; [constructor|intros x Hx; discriminate]|eauto]. }
  unfold build_pred. destruct (obtain_grows h (BPred None) S) as (h1 & E1 & G1). destruct (build_node_ok vn e h1 (proj2 G1)) as (o & h2 & l & E2 & G2 & B2 & A2).
  unfold agrees in A2. destruct o as [n|[]| | |]; try contradiction B2.
  2:{ eexists _, h2, (_ ++ l). unfold lbind. rewrite E1, E2. split; [reflexivity|]. split; [eapply grows_trans; eassumption|]. split; [exact Logic.I|].
      intro H. destruct A2 as [_ A2]. destruct A2 as (q & Hq & _); [apply H; reflexivity|discriminate]. }
  pose proof (grows_trans _ _ _ _ _ G1 G2) as (G3 & S3). cbn in G3.
  destruct (fits n) eqn:F.
  - destruct h2 as [nx live]. cbn in G3. subst live. unfold lbind. rewrite E1, E2, F. rewrite fill_ok by (apply (sound_good _ S3)).
    eexists _, _, ((h_next h, BPred (Some n)) :: l). split; [reflexivity|]. split; [split; [reflexivity|eapply sound_fill; exact S3]|]. split; [|eauto].
    split; [constructor; exact B2|]. intros x Hx. injection Hx as <-. apply A2. eauto.
  - eexists _, h2, (_ ++ l). unfold lbind. rewrite E1, E2, F. split; [reflexivity|]. split; [eapply grows_trans; eassumption|]. split; [exact Logic.I|].
    intro H. destruct A2 as [_ A2]. destruct A2 as (q & Hq & F'); [apply H; reflexivity|]. injection Hq as <-. congruence.
Qed.

Lemma free_pred_ok : forall l a nx A B, powns l a -> good (A ++ l ++ B) -> free_pred a (mkH nx (A ++ l ++ B)) = (Ok tt, mkH nx (A ++ B)).
Proof.
  intros l a nx A B H G. destruct H as [|a n l H]; [reflexivity|]. unfold free_pred. cbn [app] in *.
  destruct (good_notin _ _ _ G) as (H0 & _). cbn in H0. destruct (N.eqb_spec a 0) as [E|_]; [contradiction|]. unfold lbind at 1. rewrite contents_ok by exact G.
  unfold lbind. change (A ++ (a, BPred (Some n)) :: l ++ B) with (A ++ [(a, BPred (Some n))] ++ l ++ B) in *. rewrite app_assoc in *.
  rewrite (proj1 free_owned l n H); [|cbn [h_live]; rewrite !app_length; lia|exact G]. rewrite <- app_assoc in *. cbn [app] in *.
  apply release_ok. change (A ++ [(a, BPred (Some n))] ++ l ++ B) with (A ++ (a, BPred (Some n)) :: l ++ B) in G.
  replace (A ++ (a, BPred (Some n)) :: l ++ B) with ((A ++ [(a, BPred (Some n))]) ++ l ++ B) in G by (rewrite <- app_assoc; reflexivity).
  apply good_drop in G. rewrite <- app_assoc in G. exact G.
Qed.

Inductive powns_list : list (N * blk) -> list N -> Prop :=
| pl_nil : powns_list [] []
| pl_cons : forall l1 l2 a r, powns l1 a -> powns_list l2 r -> powns_list (l1 ++ l2) (a :: r).
Lemma build_preds_ok : forall vn es h, sound h ->
  exists o h' l, each (build_pred vn) es h = (o, h') /\ grows h h' l /\ built (fun r => powns_list l r /\ Forall (can_build vn) es) o /\ (Forall (can_build vn) es -> exists a, o = Ok a).
Proof.
  intros vn es. induction es as [|e es IH]; intros h S.
  - eexists _, h, []. split; [reflexivity|]. split; [apply grows_nil; exact S|]. split; [split; constructor|eauto].
  - destruct (build_pred_ok vn e h S) as (o1 & h1 & l1 & E1 & G1 & B1 & C1). destruct o1 as [a|[]| | |]; try contradiction B1.
    2:{ eexists _, h1, l1. cbn [each]. unfold lbind. rewrite E1. split; [reflexivity|]. split; [exact G1|]. split; [exact Logic.I|]. intros H. inversion H; subst. destruct C1 as (q & Hq); [assumption|discriminate]. }
    destruct (IH h1 (proj2 G1)) as (o2 & h2 & l2 & E2 & G2 & B2 & C2). destruct o2 as [r|[]| | |]; try contradiction B2.
    2:{ eexists _, h2, (l1 ++ l2). cbn [each]. unfold lbind. rewrite E1, E2. split; [reflexivity|]. split; [eapply grows_trans; eassumption|]. split; [exact Logic.I|]. intros H. inversion H; subst. destruct C2 as (q & Hq); [assumption|discriminate]. }
    eexists _, h2, (l1 ++ l2). cbn [each]. unfold lbind. rewrite E1, E2. split; [reflexivity|]. split; [eapply grows_trans; eassumption|]. destruct B1, B2. split; [split; constructor; assumption|eauto].
Qed.
Lemma free_preds_ok : forall l r, powns_list l r -> forall nx A B, good (A ++ l ++ B) -> exists us, each free_pred r (mkH nx (A ++ l ++ B)) = (Ok us, mkH nx (A ++ B)).
Proof.
  intros l r H. induction H as [|l1 l2 a r H1 _ IH]; intros nx A B G; [eexists; reflexivity|]. rewrite <- app_assoc in *. cbn [each]. unfold lbind at 1.
  rewrite free_pred_ok by assumption. destruct (IH nx A B) as (us & EU); [eapply good_drop; exact G|]. unfold lbind. rewrite EU. eexists. reflexivity.
Qed.
