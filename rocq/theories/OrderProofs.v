From Verif Require Import BaseProofs Types Compare Predicate PredSpec PredProofs Query QueryProofs2 Order OrderSpec.

(** ** Equality *)
Lemma list_eqb_refl : forall A (D : A -> Prop) eq, (forall x, D x -> eq x x = true) -> forall l, Forall D l -> list_eqb eq l l = true.
Proof. intros A D eq H l HF. induction HF; cbn; [reflexivity|]. rewrite H, IHHF by assumption. reflexivity. Qed.
Lemma list_eqb_equiv : forall A (D : A -> Prop) eq, equivalence D eq -> equivalence (Forall D) (list_eqb eq).
Proof.
  intros A D eq (R & S & T). split; [|split].
  - apply list_eqb_refl. exact R.
  - intros x y. revert y. induction x as [|a x IH]; intros [|b y] Hx Hy H; cbn in *; try discriminate; auto.
    inversion Hx; inversion Hy; subst. apply andb_true_iff in H. apply andb_true_iff. split; [apply S|apply IH]; tauto.
  - intros x. induction x as [|a x IH]; intros [|b y] [|c z] Hx Hy Hz H1 H2; cbn in *; try discriminate; auto.
    inversion Hx; inversion Hy; inversion Hz; subst. apply andb_true_iff in H1, H2. apply andb_true_iff. split; [apply (T a b c)|apply (IH y z)]; tauto.
Qed.
Lemma list_eqb_dist : forall A (D : A -> Prop) eq, distinguishes D eq -> distinguishes (Forall D) (list_eqb eq).
Proof.
  intros A D eq HD x. induction x as [|a x IH]; intros [|b y] Hx Hy H; cbn in *; try discriminate; auto.
  inversion Hx; inversion Hy; subst. apply andb_true_iff in H. f_equal; [apply HD|apply IH]; tauto.
Qed.
Lemma list_eqb_hash : forall A (D : A -> Prop) eq hc f, hash_agrees D eq f -> hash_agrees (Forall D) (list_eqb eq) (hash_range hc f).
Proof.
  intros A D eq hc f HD x y Hx Hy H. unfold hash_range. generalize 0. revert y Hy H. induction x as [|a x IH]; intros [|b y] Hy H s; cbn in *; try discriminate; auto.
  inversion Hx; inversion Hy; subst. apply andb_true_iff in H. rewrite (HD a b) by tauto. apply IH; tauto.
Qed.

Definition anyD {A} (x : A) : Prop := True.
Lemma Forall_any : forall A (l : list A), Forall anyD l.
Proof. intros A l. apply Forall_forall. intros. exact I. Qed.

Lemma type_eqb_iff : forall a b, type_eqb a b = true <-> a = b.
Proof.
  intros [n f s] [n' f' s']. unfold type_eqb. cbn. split; intro H.
  - apply andb_true_iff in H. destruct H as [H H3]. apply andb_true_iff in H. destruct H as [H1 H2].
    apply N.eqb_eq in H1, H3. apply fmt_eqb_eq in H2. congruence.
  - inversion H; subst. rewrite !N.eqb_refl. destruct f'; reflexivity.
Qed.
Lemma bufsz_eqb_iff : forall a b, bufsz_eqb a b = true <-> a = b.
Proof.
  intros [n s] [n' s']. unfold bufsz_eqb. cbn. rewrite andb_true_iff, !N.eqb_eq. split; intro H; [destruct H; congruence|inversion H; auto].
Qed.
Lemma iff_equiv : forall A (eq : A -> A -> bool), (forall a b, eq a b = true <-> a = b) -> forall D, equivalence D eq.
Proof.
  intros A eq H D. split; [|split].
  - intros. apply H. reflexivity.
  - intros x y _ _ E. apply H in E. apply H. congruence.
  - intros x y z _ _ _ E1 E2. apply H in E1, E2. apply H. congruence.
Qed.
Lemma iff_hash : forall A (eq : A -> A -> bool), (forall a b, eq a b = true <-> a = b) -> forall D h, hash_agrees D eq h.
Proof. intros A eq H D h x y _ _ E. apply H in E. congruence. Qed.
Lemma iff_dist : forall A (eq : A -> A -> bool), (forall a b, eq a b = true <-> a = b) -> forall D, distinguishes D eq.
Proof. intros A eq H D x y _ _ E. apply H. exact E. Qed.

Lemma list_eqb_iff : forall A (eq : A -> A -> bool), (forall a b, eq a b = true <-> a = b) -> forall a b, list_eqb eq a b = true <-> a = b.
Proof.
  intros A eq H a. induction a as [|x a IH]; intros [|y b]; cbn; split; intro E; try discriminate; auto.
  - apply andb_true_iff in E. destruct E as [E1 E2]. apply H in E1. apply IH in E2. congruence.
  - inversion E; subst. apply andb_true_iff. split; [apply H|apply IH]; reflexivity.
Qed.

(** Variables *)
Lemma var_eqb_parts : forall a b, var_eqb a b = true <->
  v_name a = v_name b /\ v_type a = v_type b /\ v_fmt a = v_fmt b /\ v_size a = v_size b /\ v_bsz a = v_bsz b /\ v_has a = v_has b /\
  val_eqb (v_size a) (v_val a) (v_val b) = true.
Proof.
  intros a b. unfold var_eqb. rewrite !andb_true_iff, !N.eqb_eq, fmt_eqb_eq. tauto.
Qed.
Lemma val_eqb_equiv : forall n, equivalence (fun v => v <> VIndet) (val_eqb n).
Proof.
  intro n. split; [|split].
  - intros [u|b|] H; cbn; [apply N.eqb_refl|apply bytes_eqb_eq; reflexivity|congruence].
  - intros [u|b|] [w|c|] _ _ H; cbn in *; try discriminate; [rewrite N.eqb_sym; exact H|].
    apply bytes_eqb_eq in H. apply bytes_eqb_eq. congruence.
  - intros [u|b|] [w|c|] [x|d|] _ _ _ H1 H2; cbn in *; try discriminate.
    + apply N.eqb_eq in H1, H2. apply N.eqb_eq. congruence.
    + apply bytes_eqb_eq in H1, H2. apply bytes_eqb_eq. congruence.
Qed.
Lemma has_value_def : forall v, has_value v -> v_val v <> VIndet.
Proof. intros v H. unfold has_value in H. destruct (v_fmt v); destruct H as [x E]; rewrite E; discriminate. Qed.
Lemma var_eqb_equiv : equivalence has_value var_eqb.
Proof.
  destruct (val_eqb_equiv 0) as (_ & _ & _). split; [|split].
  - intros x H. apply has_value_def in H. apply var_eqb_parts. conj_split; auto. destruct (val_eqb_equiv (v_size x)) as (R & _). auto.
  - intros x y Hx Hy H. apply has_value_def in Hx, Hy. apply var_eqb_parts in H. apply var_eqb_parts. destruct H as (A & B & C & D & E & F & G).
    conj_split; auto. rewrite <- D. destruct (val_eqb_equiv (v_size x)) as (_ & S & _). auto.
  - intros x y z Hx Hy Hz H H'. apply has_value_def in Hx, Hy, Hz. apply var_eqb_parts in H, H'. apply var_eqb_parts.
    destruct H as (A & B & C & D & E & F & G). destruct H' as (A' & B' & C' & D' & E' & F' & G'). rewrite <- D in G'.
    conj_split; try congruence. destruct (val_eqb_equiv (v_size x)) as (_ & _ & T). eapply T; [| | |eassumption|eassumption]; assumption.
Qed.
Lemma var_hash : forall hc, hash_agrees has_value var_eqb (hash_var hc).
Proof.
  intros hc x y Hx Hy H. apply var_eqb_parts in H. destruct H as (A & B & C & D & E & F & G).
  unfold hash_var. rewrite A, B, D, E, F, C. f_equal. f_equal. f_equal. f_equal. f_equal. f_equal.
  unfold has_value in *. rewrite C in Hx. rewrite D in G.
  destruct (v_fmt y); destruct Hx as [u Eu]; destruct Hy as [w Ew]; rewrite Eu, Ew in *; cbn in G;
    try (apply N.eqb_eq in G; rewrite G; reflexivity). apply bytes_eqb_eq in G. rewrite G. reflexivity.
Qed.
Lemma var_dist : distinguishes var_ok var_eqb.
Proof. intros x y Hx Hy H. apply (var_eqb_ok x y); assumption. Qed.

(** Point data *)
Lemma data_eqb_parts : forall A B (p : point A) (q : point B), data_eqb p q = true <->
  p_sizes p = p_sizes q /\ list_eqb var_eqb (p_vars p) (p_vars q) = true /\ p_aux p = p_aux q.
Proof.
  intros A B p q. unfold data_eqb. rewrite !andb_true_iff.
  rewrite (list_eqb_iff _ bufsz_eqb bufsz_eqb_iff), (list_eqb_iff _ N.eqb N.eqb_eq). tauto.
Qed.
Lemma data_equiv : forall A, equivalence (fun p : point A => Forall has_value (p_vars p)) data_eqb.
Proof.
  intro A. destruct (list_eqb_equiv _ _ _ var_eqb_equiv) as (R & S & T). split; [|split].
  - intros x H. apply data_eqb_parts. auto.
  - intros x y Hx Hy H. apply data_eqb_parts in H. apply data_eqb_parts. destruct H as (H1 & H2 & H3). auto.
  - intros x y z Hx Hy Hz H H'. apply data_eqb_parts in H, H'. apply data_eqb_parts. destruct H as (H1 & H2 & H3), H' as (H1' & H2' & H3').
    split; [|split]; try congruence. eapply T; [| | |eassumption|eassumption]; assumption.
Qed.
(** The address of a shared variable depends on the variable only up to ==. *)
Lemma data_hash : forall A hc adr, hash_agrees has_value var_eqb adr ->
  hash_agrees (fun p : point A => Forall has_value (p_vars p)) data_eqb (hash_data hc adr).
Proof.
  intros A hc adr Hat x y Hx Hy H. apply data_eqb_parts in H. destruct H as (H1 & H2 & H3). unfold hash_data. rewrite H1, H3.
  rewrite (list_eqb_hash _ _ _ hc adr Hat _ _ Hx Hy H2). reflexivity.
Qed.

(** Points *)
Lemma point_equiv : equivalence (fun p : point N => Forall has_value (p_vars p)) point_eqb.
Proof.
  destruct (data_equiv N) as (R & _ & _). split; [|split].
  - intros x H. unfold point_eqb. rewrite !N.eqb_refl, R by assumption. reflexivity.
  - intros x y Hx Hy H. unfold point_eqb in *. rewrite R in * by assumption. rewrite andb_true_r in *. apply andb_true_iff in H.
    rewrite (N.eqb_sym (p_counter y)), (N.eqb_sym (p_stmt y)). apply andb_true_iff. exact H.
  - intros x y z Hx Hy Hz H H'. unfold point_eqb in *. rewrite R in * by assumption. rewrite andb_true_r in *. apply andb_true_iff in H, H'.
    rewrite !N.eqb_eq in *. apply andb_true_iff. rewrite !N.eqb_eq. destruct H, H'. split; congruence.
Qed.

Lemma bytes_eqb_iff : forall a b, bytes_eqb a b = true <-> a = b.
Proof. intros. apply bytes_eqb_eq. Qed.
Lemma trace_equiv : equivalence (fun t : trace N => Forall (fun p => Forall has_value (p_vars p)) (tr_points t)) trace_eqb.
Proof.
  destruct (list_eqb_equiv _ _ _ point_equiv) as (R & S & T).
  destruct (iff_equiv _ _ (list_eqb_iff _ _ bytes_eqb_iff) anyD) as (R1 & S1 & T1).
  destruct (iff_equiv _ _ (list_eqb_iff _ _ type_eqb_iff) anyD) as (R2 & S2 & T2).
  split; [|split]; unfold trace_eqb.
  - intros x H. rewrite R, R1, R2 by (assumption || exact I). reflexivity.
  - intros x y Hx Hy H. rewrite !andb_true_iff in *. destruct H as [[H1 H2] H3].
    split; [split|]; [apply S|apply S1|apply S2]; (assumption || exact I).
  - intros x y z Hx Hy Hz H H'. rewrite !andb_true_iff in *. destruct H as [[H1 H2] H3], H' as [[H1' H2'] H3'].
    split; [split|]; [eapply (T (tr_points x) (tr_points y))|eapply (T1 (tr_names x) (tr_names y))|eapply (T2 (tr_types x) (tr_types y))]; (assumption || exact I).
Qed.

(** Predicates *)
Lemma pred_hash : forall hc kc D, hash_agrees D pred_eqb (hash_pred hc kc).
Proof. intros. apply iff_hash. apply pred_eqb_eq. Qed.

(** ** Order *)
Definition ord {A} (D : A -> Prop) (lt : A -> A -> bool) (E : A -> A -> Prop) : Prop :=
  (forall x, D x -> lt x x = false) /\
  (forall x y z, D x -> D y -> D z -> lt x y = true -> lt y z = true -> lt x z = true) /\
  (forall x y, D x -> D y -> lt x y = false -> lt y x = false -> E x y).

Lemma ord_N : ord anyD N.ltb eq.
Proof.
  split; [|split].
  - intros. apply N.ltb_irrefl.
  - intros x y z _ _ _ H1 H2. lia.
  - intros x y _ _ H1 H2. lia.
Qed.

Lemma ord_asym : forall A (D : A -> Prop) lt E, ord D lt E -> forall x y, D x -> D y -> lt x y = true -> lt y x = false.
Proof.
  intros A D lt E (I & T & _) x y Hx Hy H. destruct (lt y x) eqn:E'; [|reflexivity]. rewrite <- (I x Hx). symmetry. apply (T x y x); assumption.
Qed.

Lemma ord_tie : forall A B (D : A -> Prop) (DB : B -> Prop) ltB (f : A -> B) R E,
  (forall x, D x -> DB (f x)) -> ord DB ltB eq -> ord D R E ->
  ord D (fun x y => tie_lt ltB (f x) (f y) (R x y)) (fun x y => f x = f y /\ E x y).
Proof.
  intros A B D DB ltB f R E HD HB HR. pose proof (ord_asym _ _ _ _ HB) as AS. destruct HB as (IB & TB & EB), HR as (IR & TR & ER). unfold tie_lt. split; [|split].
  - intros x Hx. rewrite IB, IR by auto. reflexivity.
  - intros x y z Hx Hy Hz H1 H2.
    destruct (ltB (f x) (f y)) eqn:E1; cbn in H1.
    + destruct (ltB (f y) (f z)) eqn:E2; cbn in H2; [rewrite (TB _ (f y) _) by auto; reflexivity|].
      destruct (ltB (f z) (f y)) eqn:E3; cbn in H2; [discriminate|]. rewrite <- (EB (f y) (f z)) by auto. rewrite E1. reflexivity.
    + destruct (ltB (f y) (f x)) eqn:E1'; cbn in H1; [discriminate|]. assert (Exy : f x = f y) by (apply EB; auto). rewrite Exy in *.
      destruct (ltB (f y) (f z)) eqn:E2; cbn in *; [reflexivity|].
      destruct (ltB (f z) (f y)) eqn:E3; cbn in *; [discriminate|]. apply (TR x y z); assumption.
  - intros x y Hx Hy H1 H2.
    destruct (ltB (f x) (f y)) eqn:E1; cbn in *; [discriminate|]. destruct (ltB (f y) (f x)) eqn:E2; cbn in *; [discriminate|].
    split; [apply EB; auto|apply ER; auto].
Qed.

Lemma ord_list : forall A (D : A -> Prop) lt, ord D lt eq -> ord (Forall D) (list_lt lt) eq.
Proof.
  intros A D lt H. pose proof (ord_asym _ _ _ _ H) as AS. destruct H as (I & T & E). split; [|split].
  - intros x H. induction H; cbn; [reflexivity|]. rewrite I by assumption. assumption.
  - intros x. induction x as [|a x IH]; intros [|b y] [|c z] Hx Hy Hz H1 H2; cbn in *; try discriminate; auto.
    inversion Hx; inversion Hy; inversion Hz; subst.
    destruct (lt a b) eqn:E1.
    + destruct (lt b c) eqn:E2; [rewrite (T a b c) by assumption; reflexivity|]. destruct (lt c b) eqn:E3; [discriminate|].
      rewrite <- (E b c) by assumption. rewrite E1. reflexivity.
    + destruct (lt b a) eqn:E1'; [discriminate|]. assert (a = b) by (apply E; assumption). subst b.
      destruct (lt a c) eqn:E2; [reflexivity|]. destruct (lt c a) eqn:E3; [discriminate|]. apply (IH y z); assumption.
  - intros x. induction x as [|a x IH]; intros [|b y] Hx Hy H1 H2; cbn in *; try discriminate; auto.
    inversion Hx; inversion Hy; subst. destruct (lt a b) eqn:E1; [discriminate|]. destruct (lt b a) eqn:E2; [discriminate|].
    f_equal; [apply E; assumption|apply IH; assumption].
Qed.

Lemma ord_weaken : forall A (D D' : A -> Prop) lt (E E' : A -> A -> Prop), ord D lt E -> (forall x, D' x -> D x) ->
  (forall x y, D' x -> D' y -> E x y -> E' x y) -> ord D' lt E'.
Proof. intros A D D' lt E E' (I & T & H) HD HE. split; [|split]; [auto|intros x y z ? ? ?; apply T; auto|auto]. Qed.

Lemma ord_by : forall A B (D : A -> Prop) (DB : B -> Prop) lt (f : A -> B), ord DB lt eq -> (forall x, D x -> DB (f x)) ->
  ord D (fun x y => lt (f x) (f y)) (fun x y => f x = f y).
Proof. intros A B D DB lt f (I & T & H) HD. split; [|split]; [auto|intros x y z ? ? ?; apply T; auto|auto]. Qed.

Lemma fmt_code_inj : forall a b, fmt_code a = fmt_code b -> a = b.
Proof. intros [] [] H; try reflexivity; discriminate. Qed.

Ltac ordN := first [exact ord_N | intros; exact I].
Lemma type_ord : ord anyD type_lt eq.
Proof.
  eapply ord_weaken.
  - apply (ord_tie _ _ anyD anyD N.ltb t_name); [ordN|ordN|].
    apply (ord_tie _ _ anyD anyD N.ltb (fun x => fmt_code (t_fmt x))); [ordN|ordN|]. apply (ord_by _ _ anyD anyD N.ltb t_size); ordN.
  - auto.
  - intros [n f s] [n' f' s'] _ _ (H1 & H2 & H3). cbn in *. apply fmt_code_inj in H2. congruence.
Qed.
Lemma bufsz_ord : ord anyD bufsz_lt eq.
Proof.
  eapply ord_weaken.
  - apply (ord_tie _ _ anyD anyD N.ltb b_addr); [ordN|ordN|]. apply (ord_by _ _ anyD anyD N.ltb b_size); ordN.
  - auto.
  - intros [n s] [n' s'] _ _ (H1 & H2). cbn in *. congruence.
Qed.
Lemma char_ord : ord anyD char_lt eq.
Proof.
  split; [|split].
  - intros. unfold char_lt. lia.
  - unfold char_lt. intros. lia.
  - unfold char_lt. intros x y _ _ H1 H2. apply N_of_byte_inj. pose proof (N_of_byte_lt x). pose proof (N_of_byte_lt y).
    change two8 with 256 in *. destruct (N_of_byte x <? 128) eqn:E1, (N_of_byte y <? 128) eqn:E2; lia.
Qed.

Definition var_rest_eq (a b : var) : Prop :=
  v_name a = v_name b /\ v_type a = v_type b /\ fmt_code (v_fmt a) = fmt_code (v_fmt b) /\ v_size a = v_size b /\ v_bsz a = v_bsz b /\ v_has a = v_has b.
Lemma rest_ord : ord anyD var_lt_rest var_rest_eq.
Proof.
  apply (ord_tie _ _ anyD anyD N.ltb v_name); [ordN|ordN|]. apply (ord_tie _ _ anyD anyD N.ltb v_type); [ordN|ordN|].
  apply (ord_tie _ _ anyD anyD N.ltb (fun x => fmt_code (v_fmt x))); [ordN|ordN|]. apply (ord_tie _ _ anyD anyD N.ltb v_size); [ordN|ordN|].
  apply (ord_tie _ _ anyD anyD N.ltb v_bsz); [ordN|ordN|]. apply (ord_by _ _ anyD anyD N.ltb v_has); ordN.
Qed.

Lemma var_ltb_ord : ord no_blob var_ltb eq.
Proof.
  eapply ord_weaken.
  - apply (ord_tie _ _ anyD anyD N.ltb bits); [ordN|ordN|exact rest_ord].
  - intros; exact I.
  - intros a b (_ & u & Ea) (_ & w & Eb) (H1 & H2 & H3 & H4 & H5 & H6 & H7). unfold bits in H1. rewrite Ea, Eb in H1. apply fmt_code_inj in H4.
    destruct a, b; cbn in *; subst; reflexivity.
Qed.
Lemma var_lt_no_blob : forall adr a b, no_blob a -> no_blob b -> var_lt adr a b = Ok (var_ltb a b).
Proof.
  intros adr a b (Fa & u & Ea) (Fb & w & Eb). unfold var_lt, var_ltb, bits. rewrite Ea, Eb.
  destruct (v_fmt a); try congruence; destruct (v_fmt b); try congruence; reflexivity.
Qed.
Definition blob_bytes (v : var) : list byte := match v_val v with VBlob b => b | _ => [] end.
Lemma blob_ord : forall n, ord (blob_of n) (fun a b => tie_lt (list_lt char_lt) (blob_bytes a) (blob_bytes b) (var_lt_rest a b)) eq.
Proof.
  intro n. eapply ord_weaken.
  - apply (ord_tie _ _ anyD (Forall anyD) (list_lt char_lt) blob_bytes); [intros; apply Forall_any| |exact rest_ord].
    apply ord_list. apply char_ord.
  - intros; exact I.
  - intros a b (Fa & Sa & x & Ea & _) (Fb & Sb & y & Eb & _) (H1 & H2 & H3 & H4 & H5 & H6 & H7). unfold blob_bytes in H1. rewrite Ea, Eb in H1. apply fmt_code_inj in H4.
    destruct a, b; cbn in *; subst; reflexivity.
Qed.
Lemma var_lt_blob : forall adr n a b, blob_of n a -> blob_of n b ->
  var_lt adr a b = Ok (tie_lt (list_lt char_lt) (blob_bytes a) (blob_bytes b) (var_lt_rest a b)).
Proof.
  intros adr n a b (Fa & Sa & x & Ea & La) (Fb & Sb & y & Eb & Lb). unfold var_lt, blob_bytes. rewrite Fa, Fb, Ea, Eb, Sa.
  replace ((lenN x <? n) || (lenN y <? n)) with false by lia. rewrite !takeN_all by lia. reflexivity.
Qed.

Lemma strict_of : forall A (D : A -> Prop) (lt : A -> A -> outcome bool) ltb, ord D ltb eq -> (forall x y, D x -> D y -> lt x y = Ok (ltb x y)) -> strict_order D lt.
Proof.
  intros A D lt ltb (I & T & E) H. split; [|split; [|split]].
  - intros. eexists. apply H; assumption.
  - intros x Hx. rewrite H, I by assumption. reflexivity.
  - intros x y z Hx Hy Hz H1 H2. rewrite H in * by assumption. inversion H1. inversion H2. f_equal. transitivity true; [apply (T x y z); assumption|congruence].
  - intros x y Hx Hy H1 H2. rewrite H in * by assumption. inversion H1. inversion H2. apply E; auto.
Qed.

Lemma point_ord : ord no_blobs point_lt eq.
Proof.
  eapply ord_weaken.
  - apply (ord_tie _ _ no_blobs anyD N.ltb p_counter); [ordN|ordN|]. apply (ord_tie _ _ no_blobs anyD N.ltb p_stmt); [ordN|ordN|].
    apply (ord_tie _ _ no_blobs (Forall anyD) (list_lt bufsz_lt) p_sizes); [intros; apply Forall_any|apply ord_list; exact bufsz_ord|].
    apply (ord_tie _ _ no_blobs (Forall no_blob) (list_lt var_ltb) p_vars); [intros x H; exact H|apply ord_list; exact var_ltb_ord|].
    apply (ord_tie _ _ no_blobs (Forall anyD) (list_lt N.ltb) p_aux (fun _ _ => false) (fun _ _ => True)); [intros; apply Forall_any|apply ord_list; exact ord_N|].
    split; [|split]; auto.
  - auto.
  - intros [a b c d e] [a' b' c' d' e'] _ _ (H1 & H2 & H3 & H4 & H5 & _). cbn in *. congruence.
Qed.
