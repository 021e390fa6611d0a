(** The tables of the instrumenter: proofs. *)
From Coq Require Import Strings.String Permutation Sorted.
From Verif Require Import BaseProofs Types Compare PrintPred FormatSpec Instr InstrRun InstrSpec InstrText.

(** ** Hash tables whose test is equality on the keys that occur *)
Section Hash.
Context {K V : Type} (eqv : K -> K -> bool) (dom : K -> Prop).
Hypothesis AG : forall a b, dom a -> dom b -> (eqv a b = true <-> a = b).

Lemma gethash_some : forall k (h : list (K * V)) v, Forall dom (map fst h) -> dom k ->
  gethash eqv k h = Some v -> In (k, v) h.
Proof.
  induction h as [|[k' v'] h IH]; cbn; intros v F D E; [discriminate|]. inversion F; subst.
  destruct (eqv k' k) eqn:Q; [|auto]. apply AG in Q; auto. injection E as ->. subst. auto.
Qed.
Lemma gethash_none : forall k (h : list (K * V)), Forall dom (map fst h) -> dom k ->
  gethash eqv k h = None -> ~ In k (map fst h).
Proof.
  induction h as [|[k' v'] h IH]; cbn; intros F D E; [tauto|]. inversion F; subst.
  destruct (eqv k' k) eqn:Q; [discriminate|]. intros [->|I]; [|eapply IH; eauto].
  assert (X : eqv k k = true) by (apply AG; auto). congruence.
Qed.
Lemma gethash_in : forall k v (h : list (K * V)), Forall dom (map fst h) -> NoDup (map fst h) -> In (k, v) h ->
  gethash eqv k h = Some v.
Proof.
  induction h as [|[k' v'] h IH]; cbn; intros F ND I; [tauto|]. inversion F; subst. inversion ND; subst.
  destruct I as [I|I].
  - injection I as -> ->. assert (X : eqv k k = true) by (apply AG; auto). now rewrite X.
  - destruct (eqv k' k) eqn:Q; [|auto].
    assert (DK : dom k). { rewrite Forall_forall in H2. apply H2. apply in_map_iff. exists (k, v). auto. }
    apply AG in Q; auto. subst. exfalso. apply H3. apply in_map_iff. exists (k, v). auto.
Qed.
Lemma puthash_new : forall k v (h : list (K * V)), gethash eqv k h = None -> puthash eqv k v h = h ++ [(k, v)].
Proof.
  clear AG. induction h as [|[k' v'] h IH]; cbn; intros E; auto. destruct (eqv k' k); [discriminate|]. f_equal. auto.
Qed.
End Hash.

(** ** Sorting *)
Section Sort.
Context {A : Type} (key : A -> N).
Lemma insert_perm : forall x l, Permutation (x :: l) (insert_by key x l).
Proof.
  induction l as [|y l IH]; cbn; auto. destruct (key x <=? key y); auto.
  rewrite perm_swap. constructor. auto.
Qed.
Lemma sort_perm : forall l, Permutation l (sort_by key l).
Proof. induction l; cbn; auto. rewrite <- insert_perm. auto. Qed.
Definition le_key (a b : A) : Prop := key a <= key b.
Lemma insert_sorted : forall x l, StronglySorted le_key l -> StronglySorted le_key (insert_by key x l).
Proof.
  induction l as [|y l IH]; cbn; intros S; [repeat constructor|]. inversion S as [|? ? S' F]; subst.
  destruct (N.leb_spec (key x) (key y)) as [L|L].
  - constructor; auto. constructor; auto. rewrite Forall_forall in *. unfold le_key in *. intros z I. specialize (F z I). lia.
  - constructor; auto. rewrite Forall_forall in *. intros z I.
    apply (Permutation_in _ (Permutation_sym (insert_perm x l))) in I. destruct I as [<-|I]; [unfold le_key; lia|auto].
Qed.
Lemma sort_sorted : forall l, StronglySorted le_key (sort_by key l).
Proof. induction l; cbn; [constructor|]. now apply insert_sorted. Qed.

Lemma sorted_unique : forall l m, Permutation l m -> StronglySorted le_key l ->
  StronglySorted (fun a b => key a < key b) m -> l = m.
Proof.
  induction l as [|x l IH]; intros m P S T.
  - apply Permutation_nil in P. auto.
  - destruct m as [|y m]; [apply Permutation_sym in P; apply Permutation_nil in P; discriminate|].
    inversion S as [|? ? S' F]; subst. inversion T as [|? ? T' G]; subst. rewrite Forall_forall in *.
    assert (E : x = y).
    { assert (I : In y (x :: l)) by (eapply Permutation_in; [apply Permutation_sym; eauto|left; auto]).
      assert (J : In x (y :: m)) by (eapply Permutation_in; eauto; left; auto).
      destruct I as [|I]; auto. destruct J as [|J]; auto.
      apply F in I. apply G in J. unfold le_key in I. lia. }
    subst y. f_equal. apply IH; auto. eapply Permutation_cons_inv; eauto.
Qed.
End Sort.

Lemma sort_table : forall A (key : A -> N) l m, Permutation l m ->
  StronglySorted (fun a b => key a < key b) m -> sort_by key l = m.
Proof.
  intros A key l m P S. apply (sorted_unique key); auto.
  - rewrite <- sort_perm. auto.
  - apply sort_sorted.
Qed.

(** ** Tables numbered by insertion *)
Definition numbered {A} (key : A -> option N) (l : list A) : Prop :=
  forall i x, nthN l i = Some x -> key x = Some i.

Lemma numbered_snoc : forall A (key : A -> option N) l x,
  numbered key l -> key x = Some (lenN l) -> numbered key (l ++ [x]).
Proof.
  intros A key l x N E i y H. destruct (N.ltb_spec i (lenN l)) as [L|L].
  - rewrite nthN_app1 in H by auto. auto.
  - rewrite nthN_app2 in H by auto. cbn in H. destruct (N.eqb_spec (i - lenN l) 0) as [Z|]; [|discriminate H].
    injection H as <-. rewrite E. f_equal. lia.
Qed.

Lemma numbered_sorted : forall A (key : A -> option N) l, numbered key l ->
  StronglySorted (fun a b => match key a with Some i => i | None => 0 end < match key b with Some i => i | None => 0 end) l.
Proof.
  intros A key l. 
  assert (G : forall l k, (forall i x, nthN l i = Some x -> key x = Some (k + i)) ->
    StronglySorted (fun a b => match key a with Some i => i | None => 0 end < match key b with Some i => i | None => 0 end) l).
  { clear l. induction l as [|x l IH]; intros k N; [constructor|]. constructor.
    - apply (IH (N.succ k)). intros i y H. specialize (N (N.succ i) y). cbn in N.
      destruct (N.eqb_spec (N.succ i) 0); [lia|]. rewrite N.pred_succ in N. rewrite (N H). f_equal. lia.
    - apply Forall_forall. intros y I. rewrite (N 0 x eq_refl).
      apply In_nth_error in I. destruct I as (n & I).
      specialize (N (N.succ (N.of_nat n)) y). cbn in N. destruct (N.eqb_spec (N.succ (N.of_nat n)) 0); [lia|].
      rewrite N.pred_succ in N. rewrite nthN_nth_error, Nnat.Nat2N.id in N. rewrite (N I). lia. }
  intros N. apply (G l 0). intros i x H. rewrite (N _ _ H). f_equal. 
Qed.

(** ** The state of the instrumenter *)
Section Inv.
Variable test : name -> name -> bool.
Variable texts : name -> Prop.
Hypothesis AG : forall a b, texts a -> texts b -> (test a b = true <-> a = b).
Variable kf : name -> skind.

Lemma sflag_eqb_eq : forall a b, sflag_eqb a b = true <-> a = b.
Proof.
  intros [| | |[x|]] [| | |[y|]]; cbn; split; intros H; try congruence; try discriminate.
  - apply N.eqb_eq in H. congruence.
  - injection H as ->. apply N.eqb_refl.
Qed.

Definition kdom (k : tkey) : Prop := texts (snd k).
Lemma AGK : forall a b, kdom a -> kdom b -> (key_test test a b = true <-> a = b).
Proof.
  intros [f a] [g b] Ha Hb. unfold key_test. cbn in *. rewrite andb_true_iff, sflag_eqb_eq, AG by auto.
  split; [intros [-> ->]; auto|intros H; injection H as -> ->; auto].
Qed.

(** Format and size of the types with a given key. *)
Definition key_fmt (k : tkey) (f : fmt) (s : N) : Prop :=
  exists t ps, type_ok kf t /\ compiles ps t /\ type_text t = snd k /\ string_flag t ps = fst k /\
    type_format_and_size t ps = Some (f, s).

Lemma string_flag_nil : forall t ps, type_ok kf t -> compiles ps t ->
  (string_flag t ps = FNil <-> match kind_fn t with Some k => as_string ps k | None => false end = false).
Proof.
  intros t ps OK C. unfold string_flag. destruct ps.
  - cbn [negb]. rewrite (c_string_p_fn _ _ OK), (cpp_string_p_fn _ _ OK) by (apply C; auto).
    destruct (kind_fn t) as [[]|]; cbn; split; intros; auto; try discriminate;
      destruct (array_type_p t); discriminate.
  - cbn. destruct (kind_fn t); split; auto.
Qed.

Lemma key_fmt_unique : forall k f s f' s', key_fmt k f s -> key_fmt k f' s' -> f = f' /\ s = s'.
Proof.
  intros k f s f' s' (t & ps & O & C & T & F & E) (t' & ps' & O' & C' & T' & F' & E').
  assert (K : kind_fn t = kind_fn t') by (eapply kind_determined; eauto; congruence).
  rewrite (fmt_kind _ _ _ O C) in E. rewrite (fmt_kind _ _ _ O' C') in E'. rewrite <- K in E'.
  destruct (kind_fn t) as [kd|] eqn:KD; [|discriminate].
  assert (X : as_string ps kd = as_string ps' kd).
  { pose proof (string_flag_nil t ps O C) as H. pose proof (string_flag_nil t' ps' O' C') as H'.
    rewrite KD in H. rewrite <- K in H'. rewrite F in H. rewrite F' in H'.
    destruct (as_string ps kd); destruct (as_string ps' kd); auto.
    - assert (true = false) by (apply H; apply H'; auto). auto.
    - assert (true = false) by (apply H'; apply H; auto). auto. }
  unfold fmt_of_kind in *. rewrite <- X in E'. destruct (as_string ps kd); [|destruct kd as [[]| | | | |]]; try discriminate; split; congruence.
Qed.

Record sinv (st : istate) : Prop := {
  si_ndom : Forall texts (map fst (i_names st));
  si_nnd : NoDup (map fst (i_names st));
  si_num : numbered (fun p => Some (snd p)) (i_names st);
  si_tdom : Forall kdom (map fst (i_types st));
  si_tnd : NoDup (map fst (i_types st));
  si_tum : numbered (fun p => Some (snd p)) (i_types st);
  si_keys : map fst (i_descs st) = map fst (i_types st);
  si_desc : Forall (fun p => nthN (map fst (i_names st)) (t_name (snd p)) = Some (snd (fst p)) /\
                    key_fmt (fst p) (t_fmt (snd p)) (t_size (snd p))) (i_descs st)
}.

(** Tables only grow. *)
Definition ext (a b : istate) : Prop :=
  (exists x, i_names b = i_names a ++ x) /\ (exists x, i_types b = i_types a ++ x) /\
  (exists x, i_descs b = i_descs a ++ x).

Lemma ext_refl : forall a, ext a a.
Proof. intros. repeat split; exists []; now rewrite app_nil_r. Qed.
Lemma ext_trans : forall a b c, ext a b -> ext b c -> ext a c.
Proof.
  intros a b c ((x1 & E1) & (x2 & E2) & (x3 & E3)) ((y1 & F1) & (y2 & F2) & (y3 & F3)).
  split; [|split]; eexists; [rewrite F1, E1|rewrite F2, E2|rewrite F3, E3]; rewrite <- app_assoc; reflexivity.
Qed.

Lemma sinv0 : sinv istate0.
Proof. constructor; cbn; try constructor; intros i x H; discriminate. Qed.

Lemma nthN_ext : forall A (l m : list A) i x, nthN l i = Some x -> nthN (l ++ m) i = Some x.
Proof. intros. rewrite nthN_app1; auto. eapply nthN_Some_lt; eauto. Qed.

Definition names_of (st : istate) : list name := map fst (i_names st).
Definition types_of (st : istate) : list tdesc := map snd (i_descs st).

Lemma get_name_index_spec : forall n st i st', sinv st -> texts n -> get_name_index test n st = (i, st') ->
  sinv st' /\ ext st st' /\ nthN (names_of st') i = Some n /\ i_types st' = i_types st /\ i_descs st' = i_descs st /\
  (forall m, In m (names_of st') <-> In m (names_of st) \/ m = n).
Proof.
  intros n st i st' I T E. unfold get_name_index in E. destruct (gethash test n (i_names st)) as [j|] eqn:G.
  - injection E as -> ->. apply (gethash_some _ _ AG) in G; auto using si_ndom.
    assert (X : nthN (names_of st') i = Some n).
    { apply In_nth_error in G. destruct G as (k & G).
      assert (H : nthN (i_names st') (N.of_nat k) = Some (n, i)) by (rewrite nthN_nth_error, Nnat.Nat2N.id; auto).
      pose proof (si_num _ I _ _ H) as Q. cbn in Q. injection Q as Q. rewrite Q. unfold names_of. rewrite nthN_map, H. reflexivity. }
    split; [exact I|]. split; [apply ext_refl|]. split; [exact X|]. split; [reflexivity|]. split; [reflexivity|].
    intros m. split; [auto|]. intros [| ->]; auto. eapply nthN_In; eauto.
  - pose proof G as NI. apply (gethash_none _ _ AG) in NI; auto using si_ndom.
    rewrite (puthash_new _ _ _ _ G) in E. injection E as <- <-. unfold names_of. cbn [i_names i_types i_descs].
    split; [|split; [|split; [|split; [|split]]]]; auto.
    + constructor; cbn [i_names i_types i_descs]; try solve [destruct I; auto].
      * rewrite map_app. apply Forall_app. split; [apply I|]. repeat constructor; auto.
      * rewrite map_app. cbn.
        apply Permutation_NoDup with (n :: map fst (i_names st)); [apply Permutation_cons_append|].
        constructor; auto. apply I.
      * apply numbered_snoc; [apply I|reflexivity].
      * eapply Forall_impl; [|apply (si_desc _ I)]. intros p [H1 H2]. split; auto. rewrite map_app. apply nthN_ext. auto.
    + split; [eexists; reflexivity|]. split; exists []; cbn; now rewrite app_nil_r.
    + rewrite map_app. rewrite nthN_app2 by (rewrite lenN_map; lia). rewrite lenN_map, N.sub_diag. reflexivity.
    + intros m. rewrite map_app, in_app_iff. cbn. intuition.
Qed.

Lemma in_numbered : forall A (key : A -> option N) l x, numbered key l -> In x l -> exists i, key x = Some i /\ nthN l i = Some x.
Proof.
  intros A key l x NM I. apply In_nth_error in I. destruct I as (k & I).
  assert (H : nthN l (N.of_nat k) = Some x) by (rewrite nthN_nth_error, Nnat.Nat2N.id; auto). eauto.
Qed.

Lemma nthN_nth_eq : forall A B (l : list A) (m : list B) i x, length l = length m -> nthN l i = Some x -> exists y, nthN m i = Some y.
Proof.
  intros A B l m i x L H. apply nthN_lt. apply nthN_Some_lt in H. unfold lenN in *. now rewrite <- L.
Qed.

Lemma get_type_index_spec : forall t f size ps st i st', sinv st -> type_ok kf t -> compiles ps t -> texts (type_text t) ->
  type_format_and_size t ps = Some (f, size) ->
  get_type_index test t f size ps st = (i, st') ->
  sinv st' /\ ext st st' /\
  (exists d, nthN (types_of st') i = Some d /\ t_fmt d = f /\ t_size d = size /\
     nthN (names_of st') (t_name d) = Some (type_text t)) /\
  (forall m, In m (names_of st') <-> In m (names_of st) \/ m = type_text t).
Proof.
  intros t f size ps st i st' I OK C T FS E. unfold get_type_index in E. rewrite (type_trace_string_text _ _ OK) in E.
  set (k := (string_flag t ps, type_text t)) in *.
  assert (KF : key_fmt k f size) by (exists t, ps; auto).
  assert (KD : kdom k) by exact T.
  destruct (gethash (key_test test) k (i_types st)) as [j|] eqn:G.
  - injection E as -> ->. apply (gethash_some _ _ AGK) in G; auto using si_tdom.
    destruct (in_numbered _ _ _ _ (si_tum _ I) G) as (q & Q1 & Q2). injection Q1 as <-.
    assert (L : length (i_types st') = length (i_descs st')).
    { rewrite <- (map_length fst (i_types st')), <- (map_length fst (i_descs st')), (si_keys _ I). reflexivity. }
    destruct (nthN_nth_eq _ _ _ (i_descs st') _ _ L Q2) as ([k' d] & D).
    assert (EK : k' = k).
    { assert (X : nthN (map fst (i_descs st')) i = Some k') by (rewrite nthN_map, D; auto).
      rewrite (si_keys _ I), nthN_map, Q2 in X. injection X as ->. auto. }
    subst k'. pose proof (si_desc _ I) as F. rewrite Forall_forall in F. specialize (F _ (nthN_In _ _ _ _ D)). destruct F as [F1 F2].
    cbn [fst snd] in F1, F2. destruct (key_fmt_unique _ _ _ _ _ KF F2) as [EF ES].
    assert (W : exists d0, nthN (types_of st') i = Some d0 /\ t_fmt d0 = f /\ t_size d0 = size /\ nthN (names_of st') (t_name d0) = Some (type_text t)).
    { exists d. unfold types_of. rewrite nthN_map, D. auto. }
    split; auto. split; [apply ext_refl|]. split; auto.
    intros m. split; auto. intros [| ->]; auto. eapply nthN_In. apply F1.
  - unfold type_description_struct in E. destruct (get_name_index test (type_text t) st) as [ni st1] eqn:GN.
    destruct (get_name_index_spec _ _ _ _ I T GN) as (I1 & X1 & NN & TE & DE & NI).
    cbn [i_names i_types i_descs] in E. rewrite TE, DE in E.
    assert (GD : gethash (key_test test) k (i_descs st) = None).
    { destruct (gethash (key_test test) k (i_descs st)) as [d|] eqn:GD; auto.
      apply (gethash_some _ _ AGK) in GD; auto; [|rewrite (si_keys _ I); apply I].
      apply (gethash_none _ _ AGK) in G; auto using si_tdom. exfalso. apply G. rewrite <- (si_keys _ I). apply in_map_iff. eexists; split; eauto. auto. }
    rewrite (puthash_new _ _ _ _ G), (puthash_new _ _ _ _ GD) in E. injection E as <- <-.
    pose proof G as NI'. apply (gethash_none _ _ AGK) in NI'; auto using si_tdom.
    unfold names_of, types_of in *. cbn [i_names i_types i_descs] in *.
    assert (L : lenN (i_types st) = lenN (i_descs st)).
    { rewrite <- (lenN_map _ _ fst (i_types st)), <- (lenN_map _ _ fst (i_descs st)), (si_keys _ I). reflexivity. }
    split; [|split; [|split]]; auto.
    + constructor; cbn [i_names i_types i_descs]; try solve [destruct I1; auto].
      * rewrite map_app. apply Forall_app. split; [apply I|]. repeat constructor; auto.
      * rewrite map_app. apply Permutation_NoDup with (k :: map fst (i_types st)); [apply Permutation_cons_append|].
        constructor; auto. apply I.
      * apply numbered_snoc; [apply I|reflexivity].
      * rewrite !map_app, (si_keys _ I). reflexivity.
      * apply Forall_app. split.
        -- rewrite <- DE. apply I1.
        -- constructor; [|constructor]. cbn [fst snd t_name t_fmt t_size]. split; auto.
    + destruct X1 as (Y & _ & _). split; [exact Y|]. split; eexists; reflexivity.
    + exists (mkT ni f size). split; [|auto]. rewrite map_app, nthN_app2 by (rewrite lenN_map; lia).
      rewrite lenN_map, L, N.sub_diag. reflexivity.
Qed.

(** ** Emitted arrays *)
Lemma emit_names_eq : forall st alist, sinv st -> Permutation alist (i_names st) -> emit_names alist = names_of st.
Proof.
  intros st alist I P. unfold emit_names, names_of. f_equal. apply sort_table; auto.
  apply (numbered_sorted _ _ _ (si_num _ I)).
Qed.
Lemma emit_types_eq : forall st alist, sinv st -> Permutation alist (i_descs st) ->
  emit_types test (i_types st) alist = types_of st.
Proof.
  intros st alist I P. unfold emit_types, types_of. f_equal. apply sort_table; auto.
  apply (numbered_sorted _ (fun p => gethash (key_test test) (fst p) (i_types st))).
  intros i [k d] H. cbn [fst].
  assert (L : length (i_descs st) = length (i_types st)).
  { rewrite <- (map_length fst (i_types st)), <- (map_length fst (i_descs st)), (si_keys _ I). reflexivity. }
  destruct (nthN_nth_eq _ _ _ (i_types st) _ _ L H) as ([k' j] & D).
  assert (EK : k' = k).
  { assert (X : nthN (map fst (i_descs st)) i = Some k) by (rewrite nthN_map, H; auto).
    rewrite (si_keys _ I), nthN_map, D in X. injection X as ->. auto. }
  subst k'. pose proof (si_tum _ I _ _ D) as Q. cbn in Q. injection Q as ->.
  apply (gethash_in _ _ AGK); auto using si_tdom, si_tnd. eapply nthN_In; eauto.
Qed.

End Inv.
