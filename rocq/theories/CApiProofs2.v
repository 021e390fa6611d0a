(** Proofs about the conversion and release of predicates. *)
From Verif Require Import BaseProofs Types Predicate PredProofs Query CHeap CHeapProofs CApi CApiSpec CApiProofs.

Section CInd.
Variable P : cpred -> Prop.
Hypothesis H : forall k n vi u s f cs, (forall l, cs = Some l -> Forall P l) -> P (CPred k n vi u s f cs).
Fixpoint cpred_ind2 (c : cpred) : P c.
Proof.
  destruct c as [k n vi u s f cs]. apply H. intros l E.
  destruct cs as [l'|]; [|discriminate]. injection E as <-.
  exact ((fix go (l : list cpred) : Forall P l := match l with [] => Forall_nil P | c :: r => Forall_cons c (cpred_ind2 c) (go r) end) l').
Defined.
End CInd.

Definition go_children (n : N) := (fix go (l : list cpred) (i : N) : outcome (list pred) :=
               if n <=? i then Ok []
               else if two32 <=? i then Diverge
               else match l with
                    | [] => UB UOob
                    | c :: r =>
                        p <- create_predicate c ;;
                        ps <- go r (i + 1) ;;
                        Ok (if is_null_pred p then ps else p :: ps)
                    end).

Lemma create_eq : forall k n vi u s f cs, create_predicate (CPred k n vi u s f cs) =
  (ps <- match cs with None => Ok [] | Some l => go_children n l 0 end ;; Ok (Pred k (pred_data k n vi u s f) ps)).
Proof. reflexivity. Qed.

Lemma counts_match_some : forall k n vi u s f l, counts_match (CPred k n vi u s f (Some l)) ->
  lenN l = n /\ n < 2 ^ 32 /\ Forall counts_match l.
Proof.
  intros k n vi u s f l (H1 & H2 & H3). conj_split; auto. clear - H3. induction l as [|c l IH]; [constructor|]. destruct H3. constructor; auto.
Qed.

Lemma describes_cases : forall k n vi u s f cs ps, children_of cs n ps ->
  describes (CPred k n vi u s f cs) (Pred k (pred_data k n vi u s f) ps).
Proof.
  intros k n vi u s f cs ps H. destruct k; cbn [pred_data]; try (constructor; assumption);
    (apply d_op; [cbn; intuition discriminate|assumption]).
Qed.

Lemma create_kind : forall c p, create_predicate c = Ok p -> is_null_pred p = true <-> kind_of c = NULL_PREDICATE.
Proof.
  intros [k n vi u s f cs] p H. rewrite create_eq in H. apply bind_ok in H. destruct H as (ps & _ & H). inversion H; subst. cbn.
  destruct k; split; intro X; congruence.
Qed.

Lemma create_describes : forall c, counts_match c -> exists p, create_predicate c = Ok p /\ describes c p.
Proof.
  induction c as [k n vi u s f cs IH] using cpred_ind2. intro HM.
  assert (HG : exists ps, match cs with None => Ok [] | Some l => go_children n l 0 end = Ok ps /\ children_of cs n ps).
  { destruct cs as [l|]; [|exists []; split; [reflexivity|constructor]].
    apply counts_match_some in HM. destruct HM as (H1 & H2 & H3). specialize (IH l eq_refl).
    assert (G : forall m i, Forall (fun c => exists p, create_predicate c = Ok p /\ describes c p) m -> i + lenN m = n ->
      exists ps, go_children n m i = Ok ps /\ describes_list m ps).
    { induction m as [|c m IHm]; intros i HF E.
      - exists []. split; [|constructor]. cbn. change (lenN (@nil cpred)) with 0 in E. destruct (N.leb_spec n i); [reflexivity|lia].
      - inversion HF as [|? ? (p & Ep & Dp) HF']; subst. rewrite lenN_cons in *.
        destruct (IHm (i + 1) HF' ltac:(lia)) as (ps & Eps & Dps).
        cbn [go_children]. fold (go_children (lenN l)). destruct (N.leb_spec (lenN l) i); [lia|].
        destruct (N.leb_spec two32 i) as [X|_]; [change (2 ^ 32) with two32 in H2; lia|].
        rewrite Ep. cbn [bind]. rewrite Eps. cbn [bind]. pose proof (create_kind c p Ep) as HK.
        destruct (is_null_pred p).
        + exists ps. split; [reflexivity|]. apply dl_null with p; auto. apply HK. reflexivity.
        + exists (p :: ps). split; [reflexivity|]. apply dl_cons; auto. intro X. apply HK in X. discriminate. }
    destruct (G l 0) as (ps & E & D).
    - apply Forall_forall. intros c Hc. rewrite Forall_forall in IH, H3. apply IH; auto.
    - lia.
    - exists ps. split; [exact E|]. constructor; assumption. }
  destruct HG as (ps & E & D). exists (Pred k (pred_data k n vi u s f) ps). split.
  - rewrite create_eq, E. reflexivity.
  - apply describes_cases. exact D.
Qed.

Scheme describes_mut := Minimality for describes Sort Prop
with children_of_mut := Minimality for children_of Sort Prop
with describes_list_mut := Minimality for describes_list Sort Prop.
Combined Scheme describes_ind3 from describes_mut, children_of_mut, describes_list_mut.

Lemma describes_det : (forall c p, describes c p -> forall p', describes c p' -> p' = p) /\
  (forall cs n ps, children_of cs n ps -> forall ps', children_of cs n ps' -> ps' = ps) /\
  (forall l ps, describes_list l ps -> forall ps', describes_list l ps' -> ps' = ps).
Proof.
  apply describes_ind3.
  - intros n vi u s f cs ps _ IH p' H. inversion H; subst; [f_equal; auto|exfalso; cbn in *; tauto].
  - intros n vi u s f cs ps _ IH p' H. inversion H; subst; [f_equal; auto|exfalso; cbn in *; tauto].
  - intros n vi u s f cs ps _ IH p' H. inversion H; subst; [f_equal; auto|exfalso; cbn in *; tauto].
  - intros n vi u s f cs ps _ IH p' H. inversion H; subst; [f_equal; auto|exfalso; cbn in *; tauto].
  - intros k n vi u s f cs ps HK _ IH p' H. inversion H; subst; try (exfalso; apply HK; cbn; tauto). f_equal. auto.
  - intros n ps' H. inversion H. reflexivity.
  - intros l n ps E _ IH ps' H. inversion H; subst. auto.
  - intros ps' H. inversion H. reflexivity.
  - intros c l ps p HK _ _ _ IH ps' H. inversion H; subst; [auto|contradiction].
  - intros c l p ps HK _ IHp _ IH ps' H. inversion H; subst; [contradiction|]. f_equal; auto.
Qed.

Lemma create_iff : forall c p, counts_match c -> create_predicate c = Ok p <-> describes c p.
Proof.
  intros c p HM. destruct (create_describes c HM) as (q & E & D). split; intro H.
  - rewrite E in H. inversion H; subst. assumption.
  - rewrite E. f_equal. symmetry. eapply (proj1 describes_det); eassumption.
Qed.

(** Predicates built by a client. *)
Lemma plain_children : forall k d cs, plain_pred (Pred k d cs) ->
  (~ In k [VAR_REFERENCE; UNSIGNED_VALUE; SIGNED_VALUE; FLOAT_VALUE] -> d = lenN cs) /\ lenN cs < 2 ^ 32 /\
  Forall (fun c => is_null_pred c = false /\ plain_pred c) cs.
Proof.
  intros k d cs (H1 & H2 & H3). conj_split; auto. clear - H3. induction cs as [|c cs IH]; [constructor|].
  destruct H3 as [H H3]. constructor; auto. destruct c as [[] d' cs']; cbn [is_null_pred]; auto. contradiction.
Qed.

Lemma client_ok : forall p, plain_pred p -> create_predicate (client p) = Ok p.
Proof.
  induction p as [k d cs IH] using pred_ind2. intro HP. apply plain_children in HP. destruct HP as (H1 & H2 & H3).
  assert (HG : match (match cs with [] => None | _ => Some (map client cs) end) with None => Ok [] | Some l => go_children (lenN cs) l 0 end = Ok cs).
  { assert (G : forall m i, Forall (fun c => is_null_pred c = false /\ create_predicate (client c) = Ok c) m -> i + lenN m = lenN cs ->
      go_children (lenN cs) (map client m) i = Ok m).
    { induction m as [|c m IHm]; intros i HF E.
      - cbn. change (lenN (@nil pred)) with 0 in E. destruct (N.leb_spec (lenN cs) i); [reflexivity|lia].
      - inversion HF as [|? ? (N1 & Ep) HF']; subst. rewrite lenN_cons in E. cbn [map go_children]. fold (go_children (lenN cs)).
        destruct (N.leb_spec (lenN cs) i); [lia|]. destruct (N.leb_spec two32 i) as [X|_]; [change (2 ^ 32) with two32 in H2; lia|].
        rewrite Ep. cbn [bind]. rewrite IHm by (auto; lia). cbn [bind]. rewrite N1. reflexivity. }
    destruct cs as [|c0 cs0] eqn:Ecs; [reflexivity|]. rewrite <- Ecs in *. apply (G cs 0); [|lia].
    apply Forall_forall. intros c Hc. rewrite Forall_forall in IH, H3. destruct (H3 c Hc). split; auto. }
  cbn [client]. rewrite create_eq, HG. cbn [bind]. do 2 f_equal.
  destruct k; cbn [pred_data]; try reflexivity; symmetry; apply H1; cbn; intuition discriminate.
Qed.

(** Leaving out NULL_PREDICATE operands of AND does not change the meaning. *)
Section Nulls.
Variable O : fops.
Variable vars : list var.

Definition alike (p q : pred) : Prop :=
  exists k d cs cs', p = Pred k d cs /\ q = Pred k d cs' /\
    evaluate O vars p = evaluate O vars q /\ satisfied O vars p = satisfied O vars q.

Lemma alike_eval : forall k d ps qs, Forall2 alike ps qs -> evaluate O vars (Pred k d ps) = evaluate O vars (Pred k d qs).
Proof.
  intros k d ps qs H. destruct H as [|a b ps qs (k1 & d1 & c1 & c1' & -> & -> & E1 & S1) H].
  - reflexivity.
  - destruct H as [|a b ps qs (k2 & d2 & c2 & c2' & -> & -> & E2 & S2) H].
    + destruct k; try reflexivity; destruct k1; reflexivity.
    + destruct H as [|a b ps qs (k3 & d3 & c3 & c3' & -> & -> & E3 & S3) H].
      * change (evaluate O vars (Pred k d [Pred k1 d1 c1; Pred k2 d2 c2])) with
          (match k with
           | UNSIGNED_VALUE => Ok (PInt (Z.of_N d))
           | SIGNED_VALUE => Ok (PInt (s64 d))
           | FLOAT_VALUE => Ok (PFloat (f_of_double O d))
           | ADD => x <- evaluate O vars (Pred k1 d1 c1) ;; y <- evaluate O vars (Pred k2 d2 c2) ;; Ok (p_add O x y)
           | SUBTRACT => x <- evaluate O vars (Pred k1 d1 c1) ;; y <- evaluate O vars (Pred k2 d2 c2) ;; Ok (p_sub O x y)
           | MULTIPLY => x <- evaluate O vars (Pred k1 d1 c1) ;; y <- evaluate O vars (Pred k2 d2 c2) ;; Ok (p_mul O x y)
           | DIVIDE => x <- evaluate O vars (Pred k1 d1 c1) ;; y <- evaluate O vars (Pred k2 d2 c2) ;; Ok (p_div O x y)
           | VAR_SIZE => match [Pred k1 d1 c1; Pred k2 d2 c2] with [Pred VAR_REFERENCE i _] => v <- var_at vars i ;; Ok (size_value O v) | _ => Abort end
           | VAR_VALUE => match [Pred k1 d1 c1; Pred k2 d2 c2] with [Pred VAR_REFERENCE i _] => v <- var_at vars i ;; value_value O v | _ => Abort end
           | _ => Abort
           end).
        rewrite E1, E2. destruct k; try reflexivity; destruct k1; reflexivity.
      * destruct k; try reflexivity; destruct k1; reflexivity.
Qed.

Definition all_sat := fix all (l : list pred) : outcome bool :=
  match l with [] => Ok true | c :: r => b <- satisfied O vars c ;; if b then all r else Ok false end.
Definition any_sat := fix any (l : list pred) : outcome bool :=
  match l with [] => Ok false | c :: r => b <- satisfied O vars c ;; if b then Ok true else any r end.

Lemma alike_sat : forall k d ps qs, Forall2 alike ps qs -> satisfied O vars (Pred k d ps) = satisfied O vars (Pred k d qs).
Proof.
  intros k d ps qs H.
  assert (HA : all_sat ps = all_sat qs).
  { induction H as [|a b ps qs (k1 & d1 & c1 & c1' & -> & -> & E1 & S1) H IH]; [reflexivity|].
    cbn [all_sat]. fold all_sat. rewrite S1. destruct (satisfied O vars (Pred k1 d1 c1')) as [[]| | | |]; cbn [bind]; auto. }
  assert (HO : any_sat ps = any_sat qs).
  { clear HA. induction H as [|a b ps qs (k1 & d1 & c1 & c1' & -> & -> & E1 & S1) H IH]; [reflexivity|].
    cbn [any_sat]. fold any_sat. rewrite S1. destruct (satisfied O vars (Pred k1 d1 c1')) as [[]| | | |]; cbn [bind]; auto. }
  destruct k; try reflexivity; try exact HA; try exact HO.
  all: destruct H as [|a b ps qs (k1 & d1 & c1 & c1' & -> & -> & E1 & S1) H]; [reflexivity|].
  all: destruct H as [|a b ps qs (k2 & d2 & c2 & c2' & -> & -> & E2 & S2) H]; [try reflexivity|].
  all: try (destruct H as [|a b ps qs (k3 & d3 & c3 & c3' & -> & -> & E3 & S3) H]; [|try reflexivity]).
  all: try (destruct k1; reflexivity).
  all: try (destruct k1; try reflexivity; destruct k2; reflexivity).
  - change (bind (satisfied O vars (Pred k1 d1 c1)) (fun b => Ok (negb b)) = bind (satisfied O vars (Pred k1 d1 c1')) (fun b => Ok (negb b))). rewrite S1. reflexivity.
  - change (bind (evaluate O vars (Pred k1 d1 c1)) (fun x => bind (evaluate O vars (Pred k2 d2 c2)) (fun y => Ok (p_gt O x y))) = bind (evaluate O vars (Pred k1 d1 c1')) (fun x => bind (evaluate O vars (Pred k2 d2 c2')) (fun y => Ok (p_gt O x y)))). rewrite E1, E2. reflexivity.
  - change (bind (evaluate O vars (Pred k1 d1 c1)) (fun x => bind (evaluate O vars (Pred k2 d2 c2)) (fun y => Ok (p_ge O x y))) = bind (evaluate O vars (Pred k1 d1 c1')) (fun x => bind (evaluate O vars (Pred k2 d2 c2')) (fun y => Ok (p_ge O x y)))). rewrite E1, E2. reflexivity.
  - change (bind (evaluate O vars (Pred k1 d1 c1)) (fun x => bind (evaluate O vars (Pred k2 d2 c2)) (fun y => Ok (p_lt O x y))) = bind (evaluate O vars (Pred k1 d1 c1')) (fun x => bind (evaluate O vars (Pred k2 d2 c2')) (fun y => Ok (p_lt O x y)))). rewrite E1, E2. reflexivity.
  - change (bind (evaluate O vars (Pred k1 d1 c1)) (fun x => bind (evaluate O vars (Pred k2 d2 c2)) (fun y => Ok (p_le O x y))) = bind (evaluate O vars (Pred k1 d1 c1')) (fun x => bind (evaluate O vars (Pred k2 d2 c2')) (fun y => Ok (p_le O x y)))). rewrite E1, E2. reflexivity.
  - change (bind (evaluate O vars (Pred k1 d1 c1)) (fun x => bind (evaluate O vars (Pred k2 d2 c2)) (fun y => Ok (p_eq O x y))) = bind (evaluate O vars (Pred k1 d1 c1')) (fun x => bind (evaluate O vars (Pred k2 d2 c2')) (fun y => Ok (p_eq O x y)))). rewrite E1, E2. reflexivity.
Qed.

Lemma nulls_children : forall k n vi u s f l, nulls_ok (CPred k n vi u s f (Some l)) ->
  Forall (fun c => (kind_of c = NULL_PREDICATE -> k = AND) /\ nulls_ok c) l.
Proof. intros k n vi u s f l H. cbn in H. induction l as [|c l IH]; [constructor|]. destruct H as (H1 & H2 & H3). constructor; auto. Qed.

Lemma describes_shape : forall k n vi u s f cs p, describes (CPred k n vi u s f cs) p ->
  exists ps, p = Pred k (pred_data k n vi u s f) ps /\ children_of cs n ps.
Proof.
  intros k n vi u s f cs p H. inversion H; subst; cbn [pred_data]; eauto.
  exists ps. split; [|assumption]. f_equal. destruct k; cbn [pred_data]; try reflexivity; exfalso; match goal with X : ~ _ |- _ => apply X; cbn; tauto end.
Qed.

Lemma verbatim_alike : forall c p, describes c p -> nulls_ok c -> alike p (verbatim c).
Proof.
  induction c as [k n vi u s f cs IH] using cpred_ind2. intros p HD HN.
  destruct (describes_shape _ _ _ _ _ _ _ _ HD) as (ps & -> & HC). unfold alike. eexists _, _, _, _. split; [reflexivity|]. split; [reflexivity|].
  destruct HC as [n|l n ps HL HDL].
  { split; reflexivity. }
  apply nulls_children in HN. specialize (IH l eq_refl). cbn [verbatim].
  assert (HF : k <> AND -> Forall2 alike ps (map verbatim l)).
  { intro Hk. clear HL HD. induction HDL as [|c l ps p K D DL IHl|c l p ps K D DL IHl].
    - constructor.
    - inversion HN as [|? ? [N1 N2] N3]; subst. apply N1 in K. contradiction.
    - inversion HN as [|? ? [N1 N2] N3]; subst. inversion IH as [|? ? I1 I2]; subst. cbn [map]. constructor; auto. }
  assert (HA : all_sat ps = all_sat (map verbatim l)).
  { clear HL HD HF. induction HDL as [|c l ps p K D DL IHl|c l p ps K D DL IHl].
    - reflexivity.
    - inversion HN as [|? ? [N1 N2] N3]; subst. inversion IH as [|? ? I1 I2]; subst. cbn [map all_sat]. fold all_sat.
      destruct c as [k' n' vi' u' s' f' cs']. cbn in K. subst k'. cbn [verbatim]. cbn [satisfied bind]. auto.
    - inversion HN as [|? ? [N1 N2] N3]; subst. inversion IH as [|? ? I1 I2]; subst. cbn [map all_sat]. fold all_sat.
      destruct (I1 p D N2) as (k1 & d1 & c1 & c1' & E0 & E0' & E1 & E2). rewrite E2.
      destruct (satisfied O vars (verbatim c)) as [[]| | | |]; cbn [bind]; auto. }
  assert (KD : k = AND \/ k <> AND) by (destruct k; auto; right; discriminate).
  destruct KD as [->|Hk].
  - split; [reflexivity|exact HA].
  - split; [apply alike_eval|apply alike_sat]; auto.
Qed.

Lemma nulls_meaning : forall c p, create_predicate c = Ok p -> counts_match c -> nulls_ok c ->
  satisfied O vars p = satisfied O vars (verbatim c).
Proof.
  intros c p E HM HN. apply create_iff in E; [|assumption]. destruct (verbatim_alike c p E HN) as (k & d & cs & cs' & _ & _ & _ & H). exact H.
Qed.
End Nulls.

(** ** Releasing a predicate *)
Lemma NoDup_app_inv : forall (l m : list N), NoDup (l ++ m) -> NoDup l /\ NoDup m /\ forall x, In x l -> ~ In x m.
Proof.
  induction l as [|y l IH]; intros m H; [split; [constructor|split; [assumption|intros x []]]|].
  inversion H as [|? ? H1 H2]; subst. destruct (IH m H2) as (A & B & C). split; [|split; [assumption|]].
  - constructor; [intro X; apply H1; apply in_or_app; auto|assumption].
  - intros x [<-|Hx]; [intro X; apply H1; apply in_or_app; auto|auto].
Qed.
Definition trees_at (h : heap cpnode) (addr : N) := fix all (l : list ctree) (j : N) : Prop :=
  match l with [] => True | c :: r => in_memory h addr j c /\ all r (j + 1) end.

Section TInd.
Variable P : ctree -> Prop.
Hypothesis H : forall k a cs, Forall P cs -> P (CT k a cs).
Fixpoint ctree_ind2 (t : ctree) : P t.
Proof.
  destruct t as [k a cs]. apply H.
  exact ((fix go (l : list ctree) : Forall P l := match l with [] => Forall_nil P | c :: r => Forall_cons c (ctree_ind2 c) (go r) end) cs).
Defined.
End TInd.

Lemma load_ext : forall (h h' : heap cpnode) a i, h_find h' a = h_find h a -> load h' a i = load h a i.
Proof. intros h h' a i E. unfold load. rewrite E. reflexivity. Qed.

Lemma in_memory_ext : forall t h h' a i, in_memory h a i t -> h_find h' a = h_find h a ->
  (forall x, In x (blocks t) -> h_find h' x = h_find h x) -> in_memory h' a i t.
Proof.
  induction t as [k addr cs IH] using ctree_ind2. intros h h' a i (H1 & H2 & H3 & H4 & H5) Ea HB.
  cbn [blocks] in HB. cbn [in_memory]. rewrite (load_ext h h' a i Ea). split; [assumption|]. split; [assumption|]. split; [assumption|].
  destruct (is_leaf_kind k) eqn:EK.
  { rewrite (H2 eq_refl). split; [discriminate|exact I]. }
  destruct (N.eqb_spec addr 0) as [->|Hn].
  { rewrite (H3 eq_refl). split; [intros _ X; contradiction|exact I]. }
  cbn [app] in HB. assert (Eaddr : h_find h' addr = h_find h addr) by (apply HB; left; reflexivity).
  split; [intros _ _; rewrite Eaddr; auto|].
  assert (HB' : forall x, In x (flat_map blocks cs) -> h_find h' x = h_find h x) by (intros x Hx; apply HB; right; exact Hx).
  clear - IH H5 Eaddr HB'. revert H5 HB'. generalize 0. induction IH as [|c cs Hc _ IHcs]; intros j H5 HB'; [exact I|].
  destruct H5 as [H5 H6]. split.
  - apply (Hc h); auto. intros x Hx. apply HB'. cbn [flat_map]. apply in_or_app. left. exact Hx.
  - apply IHcs; auto. intros x Hx. apply HB'. cbn [flat_map]. apply in_or_app. right. exact Hx.
Qed.

Definition max_depth := fix go (l : list ctree) : nat := match l with [] => O | c :: r => Nat.max (depth c) (go r) end.

Definition free_loop (fuel : nat) (addr : N) := fix loop (m : nat) (j : N) (h : heap cpnode) : outcome (heap cpnode) :=
  match m with
  | O => Ok h
  | S m' => h1 <- free_helper fuel h addr j ;; loop m' (j + 1) h1
  end.

Lemma free_helper_ok : forall t fuel h a i, (depth t <= fuel)%nat -> in_memory h a i t -> NoDup (blocks t) -> ~ In a (blocks t) ->
  (forall x, In x (blocks t) -> x <> 0 /\ h_find h x <> None) ->
  exists h', free_helper fuel h a i = Ok h' /\ forall x, h_find h' x = if in_dec N.eq_dec x (blocks t) then None else h_find h x.
Proof.
  induction t as [k addr cs IH] using ctree_ind2. intros fuel h a i Hd HM HN Ha HL.
  destruct fuel as [|fuel]; [cbn in Hd; lia|]. cbn [depth] in Hd. change ((S (max_depth cs) <= S fuel)%nat) in Hd. apply le_S_n in Hd.
  destruct HM as (H1 & H2 & H3 & H4 & H5). cbn [free_helper]. rewrite H1. cbn [bind cn_kind cn_children cn_n].
  cbn [blocks] in *. destruct (is_leaf_kind k) eqn:EK.
  { exists h. split; [reflexivity|]. reflexivity. }
  fold (free_loop fuel addr).
  assert (G : forall cs, Forall (fun t => forall fuel h a i, (depth t <= fuel)%nat -> in_memory h a i t -> NoDup (blocks t) -> ~ In a (blocks t) ->
      (forall x, In x (blocks t) -> x <> 0 /\ h_find h x <> None) ->
      exists h', free_helper fuel h a i = Ok h' /\ forall x, h_find h' x = if in_dec N.eq_dec x (blocks t) then None else h_find h x) cs ->
    forall j h, (max_depth cs <= fuel)%nat -> trees_at h addr cs j -> NoDup (flat_map blocks cs) -> ~ In addr (flat_map blocks cs) ->
      (forall x, In x (flat_map blocks cs) -> x <> 0 /\ h_find h x <> None) ->
      exists h', free_loop fuel addr (length cs) j h = Ok h' /\ forall x, h_find h' x = if in_dec N.eq_dec x (flat_map blocks cs) then None else h_find h x).
  { clear. induction 1 as [|c cs Hc _ IHcs]; intros j h Hd HT HN Ha HL.
    - exists h. split; reflexivity.
    - cbn [flat_map] in *. destruct HT as [HT1 HT2]. cbn [max_depth] in Hd. fold max_depth in Hd.
      apply NoDup_app_inv in HN. destruct HN as (HN1 & HN2 & HN3).
      destruct (Hc fuel h addr j) as (h1 & E1 & F1); auto.
      { lia. }
      { intro X. apply Ha. apply in_or_app. auto. }
      { intros x Hx. apply HL. apply in_or_app. auto. }
      destruct (IHcs (j + 1) h1) as (h2 & E2 & F2); auto.
      { lia. }
      { clear - HT2 F1 Ha HN3. revert HT2 Ha HN3. generalize (j + 1). induction cs as [|t cs IH]; intros j' HT2 Ha HN3; [exact I|].
        destruct HT2 as [A B]. cbn [flat_map] in *. split.
        - apply in_memory_ext with h; auto.
          + rewrite F1. destruct (in_dec N.eq_dec addr (blocks c)) as [X|_]; [exfalso; apply Ha; apply in_or_app; left; exact X|reflexivity].
          + intros x Hx. rewrite F1. destruct (in_dec N.eq_dec x (blocks c)) as [X|_]; [|reflexivity]. exfalso. apply (HN3 x X). apply in_or_app. auto.
        - apply IH; auto.
          + intro X. apply Ha. apply in_app_or in X. apply in_or_app. destruct X as [X|X]; auto. right. apply in_or_app. auto.
          + intros x Hx X. apply (HN3 x Hx). apply in_or_app. auto. }
      { intro X. apply Ha. apply in_or_app. auto. }
      { intros x Hx. split; [apply HL; apply in_or_app; auto|]. rewrite F1. destruct (in_dec N.eq_dec x (blocks c)) as [X|_]; [exfalso; apply (HN3 x X Hx)|].
        apply HL. apply in_or_app. auto. }
      exists h2. split; [cbn [length free_loop]; rewrite E1; exact E2|].
      intro x. rewrite F2, F1. destruct (in_dec N.eq_dec x (flat_map blocks cs)) as [X|X]; destruct (in_dec N.eq_dec x (blocks c)) as [Y|Y];
        destruct (in_dec N.eq_dec x (blocks c ++ flat_map blocks cs)) as [Z|Z]; auto; exfalso; try (apply Z; apply in_or_app; auto; fail).
      apply in_app_or in Z. tauto. }
  assert (HNc : NoDup (flat_map blocks cs) /\ (addr <> 0 -> ~ In addr (flat_map blocks cs))).
  { destruct (N.eqb_spec addr 0); cbn [app] in HN; [split; [assumption|contradiction]|]. inversion HN; subst. auto. }
  destruct HNc as [HNc Hac].
  destruct (N.eqb_spec addr 0) as [->|Hn].
  - rewrite (H3 eq_refl) in *. cbn. exists h. split; reflexivity.
  - destruct (G cs IH 0 h) as (h1 & E1 & F1); auto.
    { intros x Hx. apply HL. cbn [app]. right. exact Hx. }
    unfold lenN. rewrite Nat2N.id, E1. cbn [bind].
    destruct (free_ok _ h1 addr Hn) as (h2 & E2 & F2).
    { rewrite F1. destruct (in_dec N.eq_dec addr (flat_map blocks cs)); [exfalso; apply Hac; assumption|apply H4; auto]. }
    exists h2. split; [exact E2|]. intro x. rewrite F2, F1. cbn [app].
    destruct (N.eqb_spec x addr) as [->|Hx].
    + destruct (in_dec N.eq_dec addr (addr :: flat_map blocks cs)) as [_|X]; [reflexivity|exfalso; apply X; left; reflexivity].
    + destruct (in_dec N.eq_dec x (flat_map blocks cs)) as [X|X]; destruct (in_dec N.eq_dec x (addr :: flat_map blocks cs)) as [Y|Y]; auto.
      * exfalso. apply Y. right. exact X.
      * exfalso. destruct Y as [Y|Y]; [congruence|contradiction].
Qed.

Lemma free_c_predicate_ok : forall t fuel h a, (depth t <= fuel)%nat -> in_memory h a 0 t -> NoDup (a :: blocks t) ->
  (forall x, In x (blocks t) -> x <> 0 /\ h_find h x <> None) ->
  exists h', free_c_predicate fuel h a = Ok h' /\ forall x, h_find h' x = if in_dec N.eq_dec x (a :: blocks t) then None else h_find h x.
Proof.
  intros t fuel h a Hd HM HN HL. inversion HN as [|? ? Ha HN']; subst.
  destruct (free_helper_ok t fuel h a 0 Hd HM HN' Ha HL) as (h1 & E1 & F1).
  assert (Hl : a <> 0 /\ h_find h a <> None).
  { destruct t as [k addr cs]. destruct HM as (X & _). apply load_inv in X. destruct X as (X & b & Y & _). split; [assumption|congruence]. }
  destruct Hl as [Hz Hl]. destruct (free_ok _ h1 a Hz) as (h2 & E2 & F2).
  { rewrite F1. destruct (in_dec N.eq_dec a (blocks t)); [contradiction|assumption]. }
  exists h2. split.
  - unfold free_c_predicate. apply N.eqb_neq in Hz. rewrite Hz, E1. exact E2.
  - intro x. rewrite F2, F1. destruct (N.eqb_spec x a) as [->|Hx].
    + destruct (in_dec N.eq_dec a (a :: blocks t)) as [_|X]; [reflexivity|exfalso; apply X; left; reflexivity].
    + destruct (in_dec N.eq_dec x (blocks t)) as [X|X]; destruct (in_dec N.eq_dec x (a :: blocks t)) as [Y|Y]; auto.
      * exfalso. apply Y. right. exact X.
      * exfalso. destruct Y as [Y|Y]; [congruence|contradiction].
Qed.
