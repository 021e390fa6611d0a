(** Which variables are logged: proofs. *)
From Coq Require Import Strings.String Lia.
From Verif Require Import BaseProofs Types Compare PrintPred Instr InstrText CRead Vars VarsSpec.

(** ** Paths *)
Lemma path_eqb_eq : forall p q, path_eqb p q = true <-> p = q.
Proof.
  induction p as [|i p IH]; destruct q as [|j q]; cbn; split; intros H; try congruence; try discriminate.
  - apply andb_true_iff in H. destruct H as [H1 H2]. apply Nat.eqb_eq in H1. apply IH in H2. congruence.
  - injection H as -> ->. rewrite Nat.eqb_refl. apply IH. reflexivity.
Qed.

Lemma at_app : forall p a q, at_path a (p ++ q) = match at_path a p with Some b => at_path b q | None => None end.
Proof.
  induction p as [|i p IH]; intros a q; [reflexivity|]. cbn. destruct a as [c l]. destruct (nth_error l i); auto.
Qed.

Lemma at_prefix : forall a p q b, at_path a (p ++ q) = Some b -> exists c, at_path a p = Some c /\ at_path c q = Some b.
Proof. intros a p q b H. rewrite at_app in H. destruct (at_path a p); [eauto|discriminate]. Qed.

Lemma app_neq : forall (A : Type) (l : list A) x r, l ++ x :: r <> l.
Proof. intros A l x r E. apply (f_equal (@length A)) in E. rewrite app_length in E. cbn in E. lia. Qed.

(** ** The chain of parents *)
Lemma chain_in : forall p here a b, at_path a p = Some b -> forall h c,
  In (h, c) (chain_up here a p) <-> exists q r d, p = q ++ r /\ h = here ++ q /\ at_path a q = Some d /\ cls d = c.
Proof.
  induction p as [|i p IH]; intros here a b AT h c.
  - cbn. split.
    + intros [E|[]]. injection E as <- <-. exists [], [], a. rewrite (app_nil_r here). repeat split; auto.
    + intros (q & r & d & E & -> & A & C). symmetry in E. apply app_eq_nil in E. destruct E as [-> ->].
      cbn in A. injection A as <-. rewrite (app_nil_r here). left. congruence.
  - destruct a as [k l]. cbn [chain_up]. cbn in AT. destruct (nth_error l i) as [a'|] eqn:N; [|discriminate].
    rewrite in_app_iff, (IH _ _ _ AT). split.
    + intros [(q & r & d & -> & -> & A & C)|[E|[]]].
      * exists (i :: q), r, d. cbn. rewrite N, <- app_assoc. auto.
      * injection E as <- <-. exists [], (i :: p), (Ast k l). rewrite (app_nil_r here). repeat split; auto.
    + intros ([|j q] & r & d & E & -> & A & C).
      * cbn in A. injection A as <-. cbn in C. subst. rewrite (app_nil_r here). right. left. reflexivity.
      * cbn in E. injection E as <- E. cbn in A. rewrite N in A. left. exists q, r, d. rewrite <- app_assoc. auto.
Qed.

Lemma chain_app : forall p here a b q, at_path a p = Some b -> exists up,
  chain_up here a (p ++ q) = chain_up (here ++ p) b q ++ up.
Proof.
  induction p as [|i p IH]; intros here a b q AT.
  - cbn in AT. injection AT as <-. exists []. now rewrite !app_nil_r.
  - destruct a as [k l]. cbn in AT |- *. destruct (nth_error l i) as [a'|]; [|discriminate].
    destruct (IH (here ++ [i]) _ _ q AT) as (up & ->). rewrite <- app_assoc. cbn. eexists. rewrite <- app_assoc. reflexivity.
Qed.

Lemma chain_here : forall p here a b, at_path a p = Some b -> exists t, chain_up here a p = (here ++ p, cls b) :: t.
Proof.
  induction p as [|i p IH]; intros here a b AT.
  - cbn in AT. injection AT as <-. cbn. rewrite app_nil_r. eauto.
  - destruct a as [k l]. cbn in AT |- *. destruct (nth_error l i) as [a'|]; [|discriminate].
    destruct (IH (here ++ [i]) _ _ AT) as (t & ->). rewrite <- app_assoc. cbn. eauto.
Qed.

Lemma take_until_app : forall A (f : A -> bool) l x r, (forall y, In y l -> f y = false) -> f x = true ->
  take_until f (l ++ x :: r) = l.
Proof.
  induction l as [|y l IH]; intros x r H F; cbn; [now rewrite F|]. rewrite H by (left; auto). rewrite IH; auto.
  intros; apply H; right; auto.
Qed.

Lemma chain_tail : forall i p here a b, at_path a (i :: p) = Some b -> exists a' k l,
  a = Ast k l /\ nth_error l i = Some a' /\ at_path a' p = Some b /\
  chain_up here a (i :: p) = chain_up (here ++ [i]) a' p ++ [(here, k)].
Proof.
  intros i p here [k l] b AT. cbn in AT |- *. destruct (nth_error l i) as [a'|] eqn:N; [|discriminate]. exists a', k, l. auto.
Qed.

(** Parents of a declaration up to its scope, without the outermost one. *)
Lemma parents_lemma : forall self root scope rel d, at_path root (scope ++ rel) = Some d -> rel <> [] ->
  let l := removelast (take_until (fun x => path_eqb scope (fst x)) (parent_asts self root (scope ++ rel))) in
  forall c,
  cls d <> c ->
  ((exists h, In (h, c) l) <-> under root scope (scope ++ rel) c).
Proof.
  intros self root scope rel d AT NE l c NC.
  destruct (at_prefix _ _ _ _ AT) as (s & AS & AR). destruct rel as [|i rel]; [congruence|].
  destruct (chain_tail i rel scope s d AR) as (b & k & ch & -> & NT & AB & CH).
  destruct (chain_app scope [] root _ (i :: rel) AS) as (up & CU). cbn [app] in CU. rewrite CH in CU.
  assert (OUT : forall y, In y (chain_up (scope ++ [i]) b rel) -> path_eqb scope (fst y) = false).
  { intros [h c'] I. apply (chain_in _ _ _ _ AB) in I. destruct I as (q & r & d' & _ & -> & _). cbn.
    destruct (path_eqb scope ((scope ++ [i]) ++ q)) eqn:E; auto. apply path_eqb_eq in E. rewrite <- app_assoc in E.
    symmetry in E. now apply app_neq in E. }
  assert (SELF : path_eqb scope scope = true) by (apply path_eqb_eq; reflexivity).
  assert (U : under root scope (scope ++ i :: rel) c <->
    exists j rel' q r b', rel = j :: rel' /\ rel' = q ++ r /\ r <> [] /\ at_path b (j :: q) = Some b' /\ cls b' = c).
  { split.
    - intros (i' & q & r & b' & NQ & NR & E & A & C). apply app_inv_head in E. injection E as <- E.
      destruct q as [|j q]; [congruence|]. exists j, (q ++ r), q, r, b'. repeat split; auto.
      rewrite at_app, AS in A. cbn in A. rewrite NT in A. exact A.
    - intros (j & rel' & q & r & b' & E1 & E2 & NR & A & C). exists i, (j :: q), r, b'. split; [discriminate|]. split; auto.
      split; [subst rel rel'; reflexivity|]. split; auto. rewrite at_app, AS. cbn. rewrite NT. exact A. }
  rewrite U. clear U.
  destruct rel as [|j rel].
  - (* declared right in the scope *)
    assert (L : l = []).
    { subst l. unfold parent_asts. destruct self; rewrite CU; cbn [chain_up app tl].
      - cbn [take_until fst]. assert (E : path_eqb scope (scope ++ [i]) = false) by (apply (OUT (scope ++ [i], cls b)); left; reflexivity).
        rewrite E. cbn [take_until fst]. rewrite SELF. reflexivity.
      - cbn [take_until fst]. rewrite SELF. reflexivity. }
    rewrite L. split; [intros (h & [])|]. intros (j & rel' & q & r & b' & E & _). discriminate.
  - destruct (chain_tail j rel (scope ++ [i]) b d AB) as (b2 & k2 & ch2 & -> & NT2 & AB2 & CH2).
    destruct (chain_here rel ((scope ++ [i]) ++ [j]) b2 d AB2) as (t & HD).
    assert (L : l = if self then chain_up ((scope ++ [i]) ++ [j]) b2 rel else t).
    { subst l. unfold parent_asts. rewrite CU, CH2. rewrite CH2 in OUT. destruct self.
      - rewrite <- app_assoc. cbn [app]. rewrite take_until_app; auto. apply removelast_last.
      - rewrite HD. cbn [app tl]. rewrite <- app_assoc. cbn [app]. rewrite take_until_app; auto.
        + apply removelast_last.
        + intros y I. apply OUT. rewrite HD. right. exact I. }
    assert (IN : (exists h, In (h, c) l) <-> exists h, In (h, c) (chain_up ((scope ++ [i]) ++ [j]) b2 rel)).
    { rewrite L, HD. destruct self; [reflexivity|]. split; intros (h & I); exists h.
      - right. exact I.
      - destruct I as [E|I]; auto. injection E as <- E. congruence. }
    rewrite IN. split.
    + intros (h & I). apply (chain_in _ _ _ _ AB2) in I. destruct I as (q & r & d' & E & -> & A & C).
      exists j, rel, q, r, d'. repeat split; auto.
      * intros ->. rewrite app_nil_r in E. subst q. congruence.
      * cbn. rewrite NT2. exact A.
    + intros (j' & rel' & q & r & d' & E & E2 & NR & A & C). injection E as <- <-. cbn in A. rewrite NT2 in A.
      exists (((scope ++ [i]) ++ [j]) ++ q). apply (chain_in _ _ _ _ AB2). exists q, r, d'. auto.
Qed.

Lemma existsb_snd : forall (f : acls -> bool) c (l : list (path * acls)), (forall x, f x = true <-> x = c) ->
  existsb (fun x => f (snd x)) l = true <-> exists h, In (h, c) l.
Proof.
  intros f c l F. rewrite existsb_exists. split.
  - intros ([h x] & I & E). apply F in E. cbn in E. subst. eauto.
  - intros (h & I). exists (h, c). split; auto. apply F. reflexivity.
Qed.

Lemma fpp_lemma : forall self root scope rel, rel <> [] -> declares root (scope ++ rel) ->
  (function_pointer_parameter_p self root scope (scope ++ rel) = true <->
   under root scope (scope ++ rel) AFunctionDeclarator /\ under root scope (scope ++ rel) AParameterList).
Proof.
  intros self root scope rel NE (d & AT & K). unfold function_pointer_parameter_p. rewrite andb_true_iff.
  rewrite (existsb_snd function_declarator_p AFunctionDeclarator), (existsb_snd parameter_list_p AParameterList).
  - rewrite (parents_lemma self root scope rel d AT NE AFunctionDeclarator), (parents_lemma self root scope rel d AT NE AParameterList).
    + reflexivity.
    + destruct K as [(l & K)|K]; rewrite K; discriminate.
    + destruct K as [(l & K)|K]; rewrite K; discriminate.
  - intros []; cbn; split; congruence.
  - intros []; cbn; split; congruence.
Qed.

(** ** Names *)
Lemma re_first_letter : forall b, re_first b = letter b.
Proof. destruct b; reflexivity. Qed.
Lemma re_rest_word : forall b, re_rest b = word_byte b.
Proof. destruct b; reflexivity. Qed.

Lemma rest_lemma : forall l, ~ In x0a l -> rest_matches l = forallb word_byte l.
Proof.
  induction l as [|b l IH]; intros H; [reflexivity|].
  assert (E : rest_matches (b :: l) = re_rest b && rest_matches l).
  { cbn [rest_matches]. destruct b; try reflexivity. exfalso. apply H. left. reflexivity. }
  rewrite E, re_rest_word, IH; [reflexivity|]. intros I. apply H. right. exact I.
Qed.

Lemma identifier_lemma : forall x, ~ In x0a x -> (valid_identifier_p x = true <-> identifier x).
Proof.
  intros [|b r] H; cbn; [split; [discriminate|intros []]|].
  rewrite andb_true_iff, re_first_letter, rest_lemma; [reflexivity|]. intros I. apply H. right. exact I.
Qed.

Lemma starts_lemma : forall p x, starts_with p x = true <-> exists r, x = p ++ r.
Proof.
  induction p as [|a p IH]; intros x.
  - cbn. split; eauto.
  - destruct x as [|b x]; cbn.
    + split; [discriminate|]. intros (r & E). discriminate.
    + rewrite andb_true_iff, IH, N.eqb_eq. split.
      * intros (E & r & ->). exists r. f_equal. apply N_of_byte_inj. auto.
      * intros (r & E). injection E as -> ->. eauto.
Qed.

Lemma var_p_lemma : forall self root e, scoped e -> ~ In x0a (e_name e) ->
  (var_instrument_p self (e_name e) (e_decl e) (e_scope e) root = true <-> chosen root e).
Proof.
  intros self root [x decl scope] (rel & NE & E) OL. cbn [e_name e_decl e_scope] in *. subst decl. unfold chosen, var_instrument_p. cbn [e_name e_decl e_scope].
  assert (D : declares root (scope ++ rel) <-> exists d, at_path root (scope ++ rel) = Some d /\ variable_declaration_p (cls d) = true /\ enumerator_p (cls d) = false).
  { unfold declares. split; intros (d & A & K); exists d; split; auto.
    - destruct K as [(l & ->)| ->]; auto.
    - destruct (cls d); destruct K; try discriminate; eauto. }
  assert (AT : attribute_p x = false <-> forall r, x <> text "__attribute" ++ r).
  { unfold attribute_p. rewrite <- not_true_iff_false, starts_lemma. split.
    - intros H r ->. apply H. eauto.
    - intros H (r & ->). now apply (H r). }
  destruct (at_path root (scope ++ rel)) as [d|] eqn:A.
  - rewrite !andb_true_iff, !negb_true_iff. split.
    + intros (((((_ & V) & VD) & EN) & AP) & FP).
      assert (DC : declares root (scope ++ rel)) by (apply D; exists d; auto).
      split; [split; [now apply identifier_lemma|now apply AT]|]. split; auto.
      rewrite <- (fpp_lemma self) by auto. rewrite FP. discriminate.
    + intros ((I & AA) & DC & U). pose proof (proj1 D DC) as (d' & E & VD & EN). injection E as <-.
      repeat split; auto.
      * destruct x; [destruct I|reflexivity].
      * now apply identifier_lemma.
      * now apply AT.
      * destruct (function_pointer_parameter_p self root scope (scope ++ rel)) eqn:FP; auto. apply fpp_lemma in FP; auto. contradiction.
  - split; [discriminate|]. intros (_ & (d & E & _) & _). congruence.
Qed.

(** ** Types *)
Lemma find_declarator_lemma : forall x l i, find_declarator x l = Some i <-> nth_error l i = Some x /\ ~ In x (firstn i l).
Proof.
  induction l as [|y l IH]; intros i; cbn.
  - split; [discriminate|]. intros [E _]. destruct i; discriminate.
  - destruct (bytes_eqb y x) eqn:E.
    + apply beq in E. subst y. split.
      * intros H. injection H as <-. cbn. auto.
      * intros [N NI]. destruct i as [|i]; auto. cbn in NI. exfalso. apply NI. auto.
    + apply beq_false in E. destruct (find_declarator x l) as [j|] eqn:F.
      * split.
        -- intros H. injection H as <-. apply IH in F || (pose proof (proj1 (IH j) eq_refl)); cbn. intuition.
        -- intros [N NI]. destruct i as [|i]; [cbn in N; congruence|]. cbn in N, NI.
           assert (H : Some j = Some i) by (apply IH; intuition). congruence.
      * split; [discriminate|]. intros [N NI]. destruct i as [|i]; [cbn in N; congruence|]. cbn in N, NI.
        assert (H : None = Some i) by (apply IH; intuition). discriminate.
Qed.

Lemma type_lemma : forall canon root e t,
  get_canonicalized_type canon root (e_decl e) (e_name e) = Some t <-> has_type canon root e t.
Proof.
  intros canon root e t. unfold get_canonicalized_type. split.
  - destruct (at_path root (e_decl e)) as [[k ch]|] eqn:A; [|discriminate]. destruct k as [l| | | | |];
      try (intros H; injection H as <-; eapply ht_other; [exact A|discriminate]).
    destruct (find_declarator (e_name e) l) as [i|] eqn:F; [|discriminate]. intros H. injection H as <-.
    apply find_declarator_lemma in F. destruct F. eapply ht_declarator; eauto.
  - intros [l ch i A N NI|[k ch] A K]; rewrite A.
    + assert (F : find_declarator (e_name e) l = Some i) by (apply find_declarator_lemma; auto). rewrite F. reflexivity.
    + destruct k; auto. exfalso. exact (K names eq_refl).
Qed.

Lemma chosen_vars_lemma : forall self canon root l, Forall scoped l -> Forall (fun e => ~ In x0a (e_name e)) l ->
  forall r, chosen_vars canon root l r <-> names_and_types self canon root l = r.
Proof.
  intros self canon root l F. induction F as [|e l S F IH]; intros O r.
  - cbn. split; [intros H; now inversion H|]. intros <-. apply cv_nil.
  - inversion O as [|? ? O1 O2]; subst. specialize (IH O2). unfold names_and_types in *. cbn [map concat].
    pose proof (var_p_lemma self root e S O1) as V. pose proof (type_lemma canon root e) as T.
    destruct (var_instrument_p self (e_name e) (e_decl e) (e_scope e) root).
    + destruct (get_canonicalized_type canon root (e_decl e) (e_name e)) as [t|].
      * cbn [app]. split.
        -- intros H. inversion H as [|e' l' t' r' C HT CV|e' l' r' C CV]; subst.
           ++ apply T in HT. injection HT as ->. apply IH in CV. congruence.
           ++ exfalso. destruct C as [C|C]; [apply C; now apply V|]. apply (C t). now apply T.
        -- intros <-. apply cv_take; [now apply V|now apply T|]. now apply IH.
      * cbn [app]. split.
        -- intros H. inversion H as [|e' l' t' r' C HT CV|e' l' r' C CV]; subst; [apply T in HT; discriminate|]. now apply IH.
        -- intros H. apply cv_skip; [|now apply IH]. right. intros t HT. apply T in HT. discriminate.
    + cbn [app]. split.
      * intros H. inversion H as [|e' l' t' r' C HT CV|e' l' r' C CV]; subst; [|now apply IH]. apply V in C. discriminate.
      * intros H. apply cv_skip; [|now apply IH]. left. intros C. apply V in C. discriminate.
Qed.

Lemma chosen_names : forall canon root l r, chosen_vars canon root l r -> Forall (fun x => plain_name (fst x)) r.
Proof. intros canon root l r H. induction H as [|e l t r C HT H IH|]; auto. constructor; auto. exact (proj1 C). Qed.

(** ** Parameters *)
Lemma param_tree : forall d p, param_at d p -> exists b, at_path (tree_of d) p = Some b /\ cls b = AParameter.
Proof.
  intros d p H. induction H as [d ps i L|d ps i q p N H IH|d ps p H IH|d p H IH|d p H IH|d p H IH|d p H IH]; cbn; auto.
  - rewrite nth_error_map. destruct (nth_error ps i) as [q|] eqn:N; [cbn; eauto|]. apply nth_error_None in N. lia.
  - rewrite nth_error_map, N. exact IH.
Qed.

(** A parameter that is not in the parameter list of the outermost declarator
    has a function declarator and a parameter list below it. *)
Lemma param_deep : forall d p, param_at d p ->
  (exists d0 ps i, d = Func d0 ps /\ p = [1%nat; i] /\ (i < length ps)%nat) \/
  forall c, c = AFunctionDeclarator \/ c = AParameterList ->
    exists q r b, q <> [] /\ r <> [] /\ p = q ++ r /\ at_path (tree_of d) q = Some b /\ cls b = c.
Proof.
  assert (LIFT : forall d p i x, at_path (tree_of d) [i] = Some x ->
    (exists d0 ps j, x = tree_of (Func d0 ps) /\ p = [1%nat; j]) \/
    (forall c, c = AFunctionDeclarator \/ c = AParameterList ->
      exists q r b, q <> [] /\ r <> [] /\ p = q ++ r /\ at_path x q = Some b /\ cls b = c) ->
    forall c, c = AFunctionDeclarator \/ c = AParameterList ->
      exists q r b, q <> [] /\ r <> [] /\ i :: p = q ++ r /\ at_path (tree_of d) q = Some b /\ cls b = c).
  { intros d p i x A [(d0 & ps & j & -> & ->)|H] c C.
    - destruct C as [-> | ->].
      + exists [i], [1%nat; j]. eexists. repeat split; try discriminate; [exact A|reflexivity].
      + exists [i; 1%nat], [j]. eexists. repeat split; try discriminate.
        * change [i; 1%nat] with ([i] ++ [1%nat]). rewrite at_app, A. reflexivity.
        * reflexivity.
    - destruct (H c C) as (q & r & b & NQ & NR & -> & AT & K). exists (i :: q), r, b. repeat split; auto; [discriminate|].
      change (i :: q) with ([i] ++ q). now rewrite at_app, A. }
  intros d p H. induction H as [d ps i L|d ps i q p N H IH|d ps p H IH|d p H IH|d p H IH|d p H IH|d p H IH].
  - left. eauto 6.
  - right. intros c C.
    assert (AP : at_path (tree_of (Func d ps)) [1; i; 1]%nat = Some (tree_of q)).
    { cbn. rewrite nth_error_map, N. reflexivity. }
    destruct IH as [(d0 & ps0 & j & -> & -> & _)|IH].
    + destruct C as [-> | ->].
      * exists [1; i; 1]%nat, [1%nat; j]. eexists. repeat split; try discriminate; [exact AP|reflexivity].
      * exists [1%nat], [i; 1; 1; j]%nat. eexists. repeat split; try discriminate; reflexivity.
    + destruct (IH c C) as (q' & r & b & NQ & NR & -> & AT & K). exists (1 :: i :: 1 :: q')%nat, r, b. repeat split; auto; [discriminate|].
      change (1 :: i :: 1 :: q')%nat with ([1; i; 1]%nat ++ q'). now rewrite at_app, AP.
  - right. apply (LIFT (Func d ps) p 0%nat (tree_of d) eq_refl). destruct IH as [(d0 & ps0 & j & -> & -> & _)|IH]; eauto 6.
  - right. apply (LIFT (Pointer d) p 0%nat (tree_of d) eq_refl). destruct IH as [(d0 & ps0 & j & -> & -> & _)|IH]; eauto 6.
  - right. apply (LIFT (Array d) p 0%nat (tree_of d) eq_refl). destruct IH as [(d0 & ps0 & j & -> & -> & _)|IH]; eauto 6.
  - right. apply (LIFT (Paren d) p 0%nat (tree_of d) eq_refl). destruct IH as [(d0 & ps0 & j & -> & -> & _)|IH]; eauto 6.
  - right. apply (LIFT (Init d) p 0%nat (tree_of d) eq_refl). destruct IH as [(d0 & ps0 & j & -> & -> & _)|IH]; eauto 6.
Qed.

Lemma plain_one_line : forall x, plain_name x -> ~ In x0a x.
Proof.
  intros [|b r] [I _] J; [exact I|]. destruct I as [L W]. destruct J as [-> |J]; [discriminate L|].
  rewrite forallb_forall in W. apply W in J. discriminate J.
Qed.

Lemma parameter_lemma : forall self root f rt d body x p, at_path root f = Some (function_definition rt d body) ->
  param_at d p -> plain_name x ->
  (var_instrument_p self x (f ++ 1%nat :: p) f root = true <-> exists d0 ps i, d = Func d0 ps /\ p = [1%nat; i]).
Proof.
  intros self root f rt d body x p AF PA PN.
  pose proof (var_p_lemma self root (mkEntry x (f ++ 1%nat :: p) f)) as V. cbn [e_name e_decl e_scope] in V.
  rewrite V; [|exists (1%nat :: p); split; [discriminate|reflexivity]|exact (plain_one_line x PN)]. clear V.
  destruct (param_tree d p PA) as (b & AB & KB).
  assert (DC : declares root (f ++ 1%nat :: p)). { exists b. rewrite at_app, AF. cbn. auto. }
  split.
  - intros (_ & _ & U). cbn [e_decl e_scope] in U. destruct (param_deep d p PA) as [(d0 & ps & i & E1 & E2 & _)|H]; [eauto|].
    exfalso. apply U. split.
    + destruct (H AFunctionDeclarator (or_introl eq_refl)) as (q & r & a & NQ & NR & -> & A & K). exists 1%nat, q, r, a. rewrite at_app, AF. auto 7.
    + destruct (H AParameterList (or_intror eq_refl)) as (q & r & a & NQ & NR & -> & A & K). exists 1%nat, q, r, a. rewrite at_app, AF. auto 7.
  - intros (d0 & ps & i & -> & ->). split; [exact PN|]. split; [exact DC|]. cbn [e_decl e_scope]. intros [(i' & q & r & a & NQ & NR & E & A & K) _].
    apply app_inv_head in E. injection E as <- E. destruct q as [|q1 [|q2 q]]; [congruence| |].
    + cbn in E. injection E as <- E. rewrite at_app, AF in A. cbn in A. injection A as <-. discriminate K.
    + cbn in E. injection E as <- <- E. symmetry in E. apply app_eq_nil in E. destruct E as [_ ->]. congruence.
Qed.

Lemma own_param : forall d p, own d p -> param_at d p.
Proof. intros d p H. induction H; constructor; auto. Qed.

Lemma bare_no_own : forall d p, bare d -> ~ own d p.
Proof. intros d p B. revert p. induction B as [|d B IH]; intros p H; inversion H; subst. eapply IH; eauto. Qed.

Lemma own_bare : forall d ps p, bare d -> (own (Func d ps) p <-> exists i, (i < length ps)%nat /\ p = [1%nat; i]).
Proof.
  intros d ps p B. split.
  - intros H. inversion H; subst; eauto. exfalso. eapply bare_no_own; eauto.
  - intros (i & L & ->). now constructor.
Qed.

(** ** Declarations *)
Lemma declared_lemma : forall self root scope i t l x, at_path root (scope ++ [i]) = Some (declaration t l) -> plain_name x ->
  var_instrument_p self x (scope ++ [i]) scope root = true.
Proof.
  intros self root scope i t l x AT PN.
  apply (var_p_lemma self root (mkEntry x (scope ++ [i]) scope)).
  - exists [i]. split; [discriminate|reflexivity].
  - exact (plain_one_line x PN).
  - split; [exact PN|]. split.
    + exists (declaration t l). split; [exact AT|]. left. cbn. eauto.
    + cbn [e_decl e_scope]. intros [(i' & q & r & a & NQ & NR & E & A & K) _]. apply app_inv_head in E. injection E as _ E.
      symmetry in E. apply app_eq_nil in E. destruct E as [-> _]. congruence.
Qed.

Lemma in_declaration_lemma : forall self root scope i t l j y d p x,
  at_path root (scope ++ [i]) = Some (declaration t l) -> nth_error l j = Some (y, d) -> param_at d p -> plain_name x ->
  var_instrument_p self x (scope ++ i :: S j :: p) scope root = false.
Proof.
  intros self root scope i t l j y d p x AT N PA PN. apply not_true_iff_false. intros H.
  apply (var_p_lemma self root (mkEntry x (scope ++ i :: S j :: p) scope)) in H; [|exists (i :: S j :: p); split; [discriminate|reflexivity]|exact (plain_one_line x PN)].
  destruct H as (_ & _ & U). cbn [e_decl e_scope] in U. apply U.
  assert (AD : at_path root (scope ++ [i; S j]) = Some (tree_of d)).
  { change [i; S j] with ([i] ++ [S j]). rewrite app_assoc, at_app, AT. cbn. rewrite nth_error_map, N. reflexivity. }
  assert (STEP : forall q b, at_path (tree_of d) q = Some b -> at_path root (scope ++ i :: S j :: q) = Some b).
  { intros q b A. change (i :: S j :: q) with ([i; S j] ++ q). now rewrite app_assoc, at_app, AD. }
  destruct (param_deep d p PA) as [(d0 & ps & k & -> & -> & LK)|H].
  - split.
    + exists i, [S j], [1%nat; k], (tree_of (Func d0 ps)). repeat split; try discriminate. exact AD.
    + exists i, [S j; 1%nat], [k]. eexists. repeat split; try discriminate.
      * apply (STEP [1%nat]). reflexivity.
      * reflexivity.
  - split.
    + destruct (H AFunctionDeclarator (or_introl eq_refl)) as (q & r & a & NQ & NR & -> & A & K). exists i, (S j :: q), r, a.
      repeat split; auto; discriminate.
    + destruct (H AParameterList (or_intror eq_refl)) as (q & r & a & NQ & NR & -> & A & K). exists i, (S j :: q), r, a.
      repeat split; auto; discriminate.
Qed.
