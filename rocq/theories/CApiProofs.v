(** Proofs about arrays of points. *)
From Verif Require Import BaseProofs Types Query CHeap CHeapProofs CApi CApiSpec.

Lemma store_words_cells : forall us h a i, store_words h a i us = store_cells _ h a i (map CellWord us).
Proof. induction us as [|u us IH]; intros; [reflexivity|]. cbn [store_words map store_cells]. destruct (store h a i (CellWord u)); cbn [bind]; auto. Qed.

Lemma store_vars_cells : forall types vs h a j, Forall (fun v => v_type v < lenN types) vs ->
  exists cs, Forall2 (exported_var types) vs cs /\ store_vars types h a j vs = store_cells _ h a j (map CellVar cs).
Proof.
  intros types vs h a j H. revert h j. induction H as [|v vs Hv H IH]; intros h j; [exists []; split; [constructor|reflexivity]|].
  destruct (nthN_lt _ types (v_type v) Hv) as (t & Et).
  assert (IHc : exists cs, Forall2 (exported_var types) vs cs /\ forall h j, store_vars types h a j vs = store_cells _ h a j (map CellVar cs)).
  { clear - H. induction H as [|v vs Hv H IH]; [exists []; split; [constructor|reflexivity]|].
    destruct IH as (cs & HF & E). destruct (nthN_lt _ types (v_type v) Hv) as (t & Et).
    exists (mkCV (v_val v) (v_fmt v) (v_name v) (t_name t) (v_size v) (v_bsz v) (v_has v) :: cs). split.
    - constructor; [|assumption]. unfold exported_var. cbn. conj_split. exists t. split; [assumption|reflexivity].
    - intros h j. cbn [store_vars map store_cells]. rewrite Et. destruct (store h a j _); cbn [bind]; auto. }
  destruct IHc as (cs & HF & E).
  exists (mkCV (v_val v) (v_fmt v) (v_name v) (t_name t) (v_size v) (v_bsz v) (v_has v) :: cs). split.
  - constructor; [|assumption]. unfold exported_var. cbn. conj_split. exists t. split; [assumption|reflexivity].
  - cbn [store_vars map store_cells]. rewrite Et. destruct (store h a j _); cbn [bind]; auto.
Qed.

Lemma Forall2_lenN : forall A B (R : A -> B -> Prop) l m, Forall2 R l m -> lenN l = lenN m.
Proof. intros A B R l m H. unfold lenN. f_equal. induction H; cbn; congruence. Qed.

Lemma Forall2_length : forall A B (R : A -> B -> Prop) l m, Forall2 R l m -> length l = length m.
Proof. intros A B R l m H. induction H; cbn; congruence. Qed.

Definition owned (cs : list cpoint) : list N := flat_map (fun c => [cp_vars c; cp_aux c]) cs.

(** The blocks of one point. *)
Definition built (h : heap pcell) (types : list tdesc) (p : point N) (c : cpoint) : Prop :=
  cp_stmt c = p_stmt p /\ cp_nvars c = lenN (p_vars p) mod two32 /\ cp_naux c = lenN (p_aux p) mod two32 /\
  cp_vars c <> 0 /\ cp_aux c <> 0 /\
  (exists vs, Forall2 (exported_var types) (p_vars p) vs /\ h_find h (cp_vars c) = Some (map Some (map CellVar vs))) /\
  h_find h (cp_aux c) = Some (map Some (map CellWord (p_aux p))).

Lemma built_ext : forall h h' types p c, built h types p c ->
  h_find h' (cp_vars c) = h_find h (cp_vars c) -> h_find h' (cp_aux c) = h_find h (cp_aux c) -> built h' types p c.
Proof.
  intros h h' types p c (H1 & H2 & H3 & H4 & H5 & (vs & H6 & H7) & H8) E1 E2. unfold built. conj_split; auto; [|congruence].
  exists vs. split; congruence.
Qed.

Lemma store_points_ok : forall al types a, allocates al -> a <> 0 ->
  forall ps h pre i, i = lenN pre -> h_find h a = Some (pre ++ repeat None (length ps)) ->
  Forall (fun p => Forall (fun v => v_type v < lenN types) (p_vars p)) ps ->
  Forall (fun p => al_ok al (40 * lenN (p_vars p)) = true /\ al_ok al (8 * lenN (p_aux p)) = true) ps ->
  exists h' cs, store_points al types h a i ps = Ok h' /\
    h_find h' a = Some (pre ++ map Some (map CellPoint cs)) /\
    Forall2 (built h' types) ps cs /\
    NoDup (owned cs) /\ (forall x, In x (owned cs) -> h_find h x = None) /\
    (forall x, x <> a -> ~ In x (owned cs) -> h_find h' x = h_find h x).
Proof.
  intros al types a Hal Ha. induction ps as [|p ps IH]; intros h pre i -> E HT HR.
  - exists h, []. split; [reflexivity|]. split; [exact E|]. split; [constructor|]. split; [constructor|]. split; [intros x []|reflexivity].
  - inversion HT as [|? ? HT1 HT2]; subst. inversion HR as [|? ? HR1 HR2]; subst. destruct HR1 as [HRv HRx].
    assert (Hov : al_ok al (lenN (p_vars p) * sizeof_var) = true) by (unfold sizeof_var; rewrite N.mul_comm; exact HRv).
    assert (Hox : al_ok al (lenN (p_aux p) * 8) = true) by (rewrite N.mul_comm; exact HRx).
    destruct (malloc_ok _ al h (lenN (p_vars p) * sizeof_var) sizeof_var Hal Hov) as (va & h1 & E1 & Nv & Fv & H1).
    destruct (malloc_ok _ al h1 (lenN (p_aux p) * 8) 8 Hal Hox) as (xa & h2 & E2 & Nx & Fx & H2).
    replace (N.to_nat (lenN (p_vars p) * sizeof_var / sizeof_var)) with (length (p_vars p)) in H1.
    2:{ unfold sizeof_var, lenN. rewrite N.div_mul by discriminate. lia. }
    replace (N.to_nat (lenN (p_aux p) * 8 / 8)) with (length (p_aux p)) in H2.
    2:{ unfold lenN. rewrite N.div_mul by discriminate. lia. }
    assert (va <> a) by (intros ->; congruence).
    assert (Fx' : xa <> va /\ h_find h xa = None).
    { rewrite H1 in Fx. destruct (N.eqb_spec xa va); [discriminate|auto]. }
    destruct Fx' as [Nxv Fx']. assert (xa <> a) by (intros ->; congruence).
    set (c := mkCP (p_stmt p) va (lenN (p_vars p) mod two32) xa (lenN (p_aux p) mod two32)).
    destruct (store_ok _ h2 a pre None (repeat None (length ps)) (CellPoint c) Ha) as (h3 & E3 & H3).
    { rewrite H2, H1. destruct (N.eqb_spec a xa); [congruence|]. destruct (N.eqb_spec a va); [congruence|]. exact E. }
    destruct (store_cells_ok _ (map CellWord (p_aux p)) h3 xa [] 0 Nx eq_refl) as (h4 & E4 & H4).
    { rewrite H3, H2, N.eqb_refl. destruct (N.eqb_spec xa a); [congruence|]. rewrite map_length. reflexivity. }
    destruct (store_vars_cells types (p_vars p) h4 va 0 HT1) as (cs & HF & Ecs).
    destruct (store_cells_ok _ (map CellVar cs) h4 va [] 0 Nv eq_refl) as (h5 & E5 & H5).
    { rewrite H4, H3, H2, H1, N.eqb_refl. destruct (N.eqb_spec va xa); [congruence|]. destruct (N.eqb_spec va a); [congruence|].
      rewrite map_length. apply Forall2_length in HF. rewrite HF. reflexivity. }
    destruct (IH h5 (pre ++ [Some (CellPoint c)]) (lenN pre + 1)) as (h6 & cs' & E6 & H6a & H6b & H6c & H6d & H6e); auto.
    { rewrite lenN_app. reflexivity. }
    { rewrite H5, H4, H3, N.eqb_refl. destruct (N.eqb_spec a xa); [congruence|]. destruct (N.eqb_spec a va); [congruence|].
      rewrite <- app_assoc. reflexivity. }
    assert (Hv5 : h_find h5 va = Some (map Some (map CellVar cs))) by (rewrite H5, N.eqb_refl; reflexivity).
    assert (Hx5 : h_find h5 xa = Some (map Some (map CellWord (p_aux p)))).
    { rewrite H5. destruct (N.eqb_spec xa va); [congruence|]. rewrite H4, N.eqb_refl. reflexivity. }
    assert (Iv : ~ In va (owned cs')) by (intro X; apply H6d in X; congruence).
    assert (Ix : ~ In xa (owned cs')) by (intro X; apply H6d in X; congruence).
    assert (Hold : forall x, x <> a -> x <> va -> x <> xa -> h_find h5 x = h_find h x).
    { intros x A B C. rewrite H5, H4, H3, H2, H1. apply N.eqb_neq in A, B, C. rewrite A, B, C. reflexivity. }
    exists h6, (c :: cs'). split; [|split; [|split; [|split; [|split]]]].
    + cbn [store_points]. unfold calloc. rewrite E1, E2. fold c. rewrite E3. cbn [bind]. rewrite store_words_cells, E4. cbn [bind]. rewrite Ecs, E5. exact E6.
    + rewrite H6a, <- app_assoc. reflexivity.
    + constructor; [|exact H6b]. apply built_ext with h5; [|apply H6e; assumption|apply H6e; assumption].
      unfold built, c. cbn [cp_stmt cp_nvars cp_naux cp_vars cp_aux]. conj_split; auto. exists cs. split; assumption.
    + change (owned (c :: cs')) with (va :: xa :: owned cs'). constructor.
      * intros [X|X]; [congruence|contradiction].
      * constructor; assumption.
    + intros x Hx. change (owned (c :: cs')) with (va :: xa :: owned cs') in Hx. destruct Hx as [<-|[<-|Hx]]; auto.
      destruct (N.eq_dec x va) as [->|]; [assumption|]. destruct (N.eq_dec x xa) as [->|]; [assumption|].
      destruct (N.eq_dec x a) as [->|].
      * apply H6d in Hx. rewrite H5, H4, H3, N.eqb_refl in Hx. destruct (N.eqb_spec a va); [congruence|]. destruct (N.eqb_spec a xa); [congruence|]. discriminate.
      * rewrite <- Hold by assumption. apply H6d. assumption.
    + intros x Hx Hn. change (owned (c :: cs')) with (va :: xa :: owned cs') in Hn.
      rewrite H6e; [apply Hold| |]; auto; intro X; apply Hn; cbn; auto.
Qed.

(** Releasing the blocks of the points. *)
Lemma free_fields_ok : forall a cs h pre i n, a <> 0 -> i = lenN pre -> n = length cs ->
  h_find h a = Some (pre ++ map Some (map CellPoint cs)) ->
  NoDup (owned cs) -> ~ In a (owned cs) -> (forall x, In x (owned cs) -> x <> 0 /\ h_find h x <> None) ->
  exists h', free_point_fields h a i n = Ok h' /\
    forall x, h_find h' x = if in_dec N.eq_dec x (owned cs) then None else h_find h x.
Proof.
  intros a. induction cs as [|c cs IH]; intros h pre i n Ha -> -> E HN HA HO.
  - exists h. split; [reflexivity|]. reflexivity.
  - change (owned (c :: cs)) with (cp_vars c :: cp_aux c :: owned cs) in *.
    inversion HN as [|? ? N1 HN1]; subst. inversion HN1 as [|? ? N2 HN2]; subst.
    assert (EL : load h a (lenN pre) = Ok (CellPoint c)).
    { eapply load_ok; [assumption|exact E|]. rewrite nthN_app2 by lia. rewrite N.sub_diag. reflexivity. }
    destruct (free_ok _ h (cp_vars c)) as (h1 & E1 & H1); try (apply HO; left; reflexivity).
    destruct (free_ok _ h1 (cp_aux c)) as (h2 & E2 & H2); [apply HO; right; left; reflexivity| |].
    { rewrite H1. destruct (N.eqb_spec (cp_aux c) (cp_vars c)) as [X|_]; [exfalso; apply N1; left; assumption|apply HO; right; left; reflexivity]. }
    destruct (IH h2 (pre ++ [Some (CellPoint c)]) (lenN pre + 1) (length cs)) as (h3 & E3 & H3); auto.
    { rewrite lenN_app. reflexivity. }
    { rewrite H2, H1. destruct (N.eqb_spec a (cp_aux c)) as [X|_]; [exfalso; apply HA; right; left; auto|].
      destruct (N.eqb_spec a (cp_vars c)) as [X|_]; [exfalso; apply HA; left; auto|]. rewrite E, <- app_assoc. reflexivity. }
    { intro X. apply HA. right. right. assumption. }
    { intros x Hx. split; [apply HO; right; right; assumption|]. rewrite H2, H1.
      destruct (N.eqb_spec x (cp_aux c)) as [->|_]; [contradiction|].
      destruct (N.eqb_spec x (cp_vars c)) as [->|_]; [exfalso; apply N1; right; assumption|]. apply HO. right. right. assumption. }
    exists h3. split.
    + cbn [length free_point_fields]. rewrite EL. cbn [bind]. rewrite E1. cbn [bind]. rewrite E2. exact E3.
    + intro x. rewrite H3, H2, H1.
      destruct (in_dec N.eq_dec x (owned cs)) as [I|I];
        destruct (in_dec N.eq_dec x (cp_vars c :: cp_aux c :: owned cs)) as [J|J]; auto.
      * exfalso. apply J. right. right. assumption.
      * destruct J as [<-|[<-|J]]; [|rewrite N.eqb_refl; reflexivity|contradiction]. rewrite N.eqb_refl. destruct (_ =? _); reflexivity.
      * destruct (N.eqb_spec x (cp_aux c)) as [->|_]; [exfalso; apply J; right; left; reflexivity|].
        destruct (N.eqb_spec x (cp_vars c)) as [->|_]; [exfalso; apply J; left; reflexivity|]. reflexivity.
Qed.

Lemma Forall2_nth : forall A B (R : A -> B -> Prop) l m, Forall2 R l m -> forall i y, nthN m i = Some y -> exists x, nthN l i = Some x /\ R x y.
Proof.
  induction 1 as [|x y l m HR H IH]; intros i z E; [discriminate|]. cbn [nthN] in *. destruct (i =? 0); [|apply IH; assumption].
  inversion E; subst. eauto.
Qed.

Theorem points_to_array_ok : forall al types h ps, allocates al ->
  type_indices_ok types ps -> counts_ok ps -> room al ps ->
  exists a h' l, points_to_array al types h ps = Ok (a, h') /\
    Forall2 (exported types) ps l /\ sees h' a (lenN ps) l /\
    (forall x b, h_find h x = Some b -> h_find h' x = Some b) /\
    exists h'', free_trace_points h' a (lenN ps) = Ok h'' /\ forall x, h_find h'' x = h_find h x.
Proof.
  intros al types h ps Hal HT HC (HR1 & HR2 & HR3). destruct ps as [|p0 ps0].
  { exists 0, h, []. split; [reflexivity|]. split; [constructor|]. split; [split; [reflexivity|intros i p X; discriminate]|].
    split; [auto|]. exists h. split; reflexivity. }
  remember (p0 :: ps0) as ps eqn:Eps. assert (Hne : 0 < lenN ps) by (subst; rewrite lenN_cons; lia). clear Eps p0 ps0.
  unfold points_to_array. change two64 with (2 ^ 64). unfold sizeof_var, sizeof_point. rewrite (N.mul_comm (lenN ps)), N.mod_small by assumption.
  destruct (N.ltb_spec 0 (40 * lenN ps)); [|lia].
  destruct (malloc_ok _ al h (40 * lenN ps) 40 Hal HR2) as (a & h1 & E1 & Na & Fa & H1). rewrite E1.
  replace (N.to_nat (40 * lenN ps / 40)) with (length ps) in H1.
  2:{ unfold lenN. rewrite N.mul_comm, N.div_mul by discriminate. lia. }
  destruct (store_points_ok al types a Hal Na ps h1 [] 0 eq_refl) as (h2 & cs & E2 & H2a & H2b & H2c & H2d & H2e); auto.
  { rewrite H1, N.eqb_refl. reflexivity. }
  rewrite E2. cbn [bind]. cbn [app] in H2a.
  assert (Hao : ~ In a (owned cs)). { intro X. apply H2d in X. rewrite H1, N.eqb_refl in X. discriminate. }
  assert (Hof : forall x, In x (owned cs) -> h_find h x = None).
  { intros x Hx. assert (x <> a) by (intros ->; contradiction). apply H2d in Hx. rewrite H1 in Hx. destruct (N.eqb_spec x a); [contradiction|assumption]. }
  assert (HL : exists l, Forall2 (fun p q => exported types p q) ps l /\ Forall2 (fun c q => sees_point h2 c q) cs l).
  { clear - H2b HC. induction H2b as [|p c ps cs HB _ IH]; [exists []; split; constructor|].
    inversion HC as [|? ? [HC1 HC2] HC3]; subst. destruct (IH HC3) as (l & HL1 & HL2).
    destruct HB as (B1 & B2 & B3 & B4 & B5 & (vs & B6 & B7) & B8).
    exists (mkIP (p_stmt p) vs (p_aux p) :: l). split; constructor; auto.
    - unfold exported. cbn. conj_split; auto.
    - unfold sees_point. cbn [ip_stmt ip_vars ip_aux]. change two32 with (2 ^ 32) in *. rewrite N.mod_small in B2, B3 by assumption.
      apply Forall2_lenN in B6. rewrite <- B6. conj_split; auto.
      + intros j v Hj. eapply load_ok; [assumption|exact B7|]. rewrite map_map, nthN_map, Hj. reflexivity.
      + intros j v Hj. eapply load_ok; [assumption|exact B8|]. rewrite map_map, nthN_map, Hj. reflexivity. }
  destruct HL as (l & HL1 & HL2). exists a, h2, l. split; [reflexivity|]. split; [exact HL1|]. split; [|split].
  - split; [symmetry; eapply Forall2_lenN; exact HL1|]. intros i p Hi.
    destruct (Forall2_nth _ _ _ _ _ HL2 i p Hi) as (c & Hc & HS). exists c. split; [|exact HS].
    eapply load_ok; [assumption|exact H2a|]. rewrite map_map, nthN_map, Hc. reflexivity.
  - intros x b Hb. rewrite H2e; [|intros ->; congruence|intro X; apply Hof in X; congruence].
    rewrite H1. destruct (N.eqb_spec x a); [congruence|assumption].
  - assert (HOL : forall x, In x (owned cs) -> x <> 0 /\ h_find h2 x <> None).
    { clear - H2b. induction H2b as [|p c ps cs HB _ IH]; [intros x []|]. intros x Hx. change (owned (c :: cs)) with (cp_vars c :: cp_aux c :: owned cs) in Hx.
      destruct HB as (B1 & B2 & B3 & B4 & B5 & (vs & B6 & B7) & B8).
      destruct Hx as [<-|[<-|Hx]]; [split; [assumption|congruence]|split; [assumption|congruence]|auto]. }
    assert (HLen : length cs = length ps) by (symmetry; eapply Forall2_length; exact H2b).
    destruct (free_fields_ok a cs h2 [] 0 (N.to_nat (lenN ps))) as (h3 & E3 & H3); auto.
    { unfold lenN. rewrite Nat2N.id. congruence. }
    destruct (free_ok _ h3 a) as (h4 & E4 & H4); auto.
    { rewrite H3. destruct (in_dec N.eq_dec a (owned cs)); [contradiction|]. rewrite H2a. discriminate. }
    exists h4. split; [unfold free_trace_points; rewrite E3; exact E4|].
    intro x. rewrite H4, H3. destruct (N.eqb_spec x a) as [->|Hx]; [symmetry; exact Fa|].
    destruct (in_dec N.eq_dec x (owned cs)) as [I|I]; [symmetry; apply Hof; exact I|].
    rewrite H2e by assumption. rewrite H1. destruct (N.eqb_spec x a); [contradiction|reflexivity].
Qed.
