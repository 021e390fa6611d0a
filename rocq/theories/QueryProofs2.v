From Verif Require Import BaseProofs Types Compare Predicate PredSpec PredProofs Query QuerySpec QueryProofs.

(** ** Duplicate removal *)
Lemma key_eqb_iff : forall a b : pt, dedup_key_eqb a b = true <-> key a = key b.
Proof.
  intros a b. unfold dedup_key_eqb, key. rewrite !andb_true_iff, N.eqb_eq, Nat.eqb_eq.
  assert (HG : forall l m : list var, (length l = length m /\
    forallb (fun vw => (v_name (fst vw) =? v_name (snd vw)) && (v_type (fst vw) =? v_type (snd vw))) (combine l m) = true) <->
    map (fun v => (v_name v, v_type v)) l = map (fun v => (v_name v, v_type v)) m).
  { induction l as [|x l IH]; intros [|y m]; cbn.
    - tauto.
    - split; [intros [H _]|]; discriminate.
    - split; [intros [H _]|]; discriminate.
    - rewrite !andb_true_iff, !N.eqb_eq. specialize (IH m). split.
      + intros [H1 [[H2 H3] H4]]. rewrite H2, H3. f_equal. apply IH. split; [lia|assumption].
      + intro H. inversion H. assert (HX : length l = length m /\ forallb (fun vw => (v_name (fst vw) =? v_name (snd vw)) && (v_type (fst vw) =? v_type (snd vw))) (combine l m) = true) by (apply IH; assumption).
        destruct HX. auto. }
  specialize (HG (p_vars a) (p_vars b)). split.
  - intros [[H1 H2] H3]. rewrite H1. f_equal. apply HG. auto.
  - intro H. inversion H. split; [split; [reflexivity|]|]; apply HG; assumption.
Qed.

Lemma dedup_firsts : forall h rs set, firsts (map key set) rs (dedup h set rs).
Proof.
  intros h rs. induction rs as [|r rs IH]; intro set; cbn [dedup]; [constructor|].
  destruct (existsb _ set) eqn:E.
  - apply first_dup; [|apply IH]. apply existsb_exists in E. destruct E as (x & Hx & E). apply andb_true_iff in E. destruct E as [_ E].
    apply key_eqb_iff in E. rewrite <- E. apply in_map. assumption.
  - apply first_new; [|apply (IH (r :: set))]. intro H. apply in_map_iff in H. destruct H as (x & Ek & Hx).
    assert (X : existsb (fun x => (h (hash_key x) =? h (hash_key r)) && dedup_key_eqb x r) set = true).
    { apply existsb_exists. exists x. split; [assumption|]. apply andb_true_iff. split; [|apply key_eqb_iff; assumption].
      apply N.eqb_eq. f_equal. exact Ek. }
    congruence.
Qed.

Lemma firsts_fun : forall seen l r r', firsts seen l r -> firsts seen l r' -> r = r'.
Proof. intros seen l r r' H. revert r'. induction H; intros r' H'; inversion H'; subst; try contradiction; auto. f_equal. auto. Qed.

Lemma key_dec : forall a b : N * list (N * N), {a = b} + {a <> b}.
Proof. repeat decide equality. Qed.

Lemma firsts_facts : forall seen l r, firsts seen l r ->
  NoDup (map key r) /\ (forall x, In x r -> In x l /\ ~ In (key x) seen) /\ (forall x, In x l -> ~ In (key x) seen -> exists y, In y r /\ key y = key x).
Proof.
  intros seen l r H. induction H as [seen|seen x l r Hn _ (I1 & I2 & I3)|seen x l r Hd _ (I1 & I2 & I3)].
  - split; [constructor|]. split; intros x [].
  - split; [|split].
    + cbn. constructor; [|assumption]. intro X. apply in_map_iff in X. destruct X as (y & Ey & Hy). apply I2 in Hy. destruct Hy as [_ Hy]. apply Hy. left. auto.
    + intros y [<-|Hy]; [split; [left; reflexivity|assumption]|]. apply I2 in Hy. destruct Hy as [Hy1 Hy2]. split; [right; assumption|]. intro X. apply Hy2. right. assumption.
    + intros y [<-|Hy] Hs; [exists x; split; [left|]; reflexivity|].
      destruct (key_dec (key x) (key y)) as [X|X].
      * exists x. split; [left; reflexivity|assumption].
      * destruct (I3 y Hy) as (z & Hz & E); [|exists z; split; [right|]; assumption]. intros [Y|Y]; contradiction.
  - split; [assumption|]. split.
    + intros y Hy. apply I2 in Hy. destruct Hy. split; [right|]; assumption.
    + intros y [<-|Hy] Hs; [contradiction|]. auto.
Qed.

(** ** Equality of predicates *)
Lemma pkind_code_inj : forall a b, pkind_code a = pkind_code b -> a = b.
Proof. intros a b. destruct a, b; intro H; try reflexivity; discriminate. Qed.

Lemma pred_eqb_eq : forall a b, pred_eqb a b = true <-> a = b.
Proof.
  intro a. induction a as [k d cs IH] using pred_ind2. intros [k' d' cs']. cbn [pred_eqb]. rewrite !andb_true_iff, !N.eqb_eq.
  assert (HG : (fix go (l l' : list pred) {struct l} : bool := match l with
     | [] => match l' with [] => true | _ :: _ => false end
     | x :: r => match l' with [] => false | y :: r' => pred_eqb x y && go r r' end end) cs cs' = true <-> cs = cs').
  { revert cs'. induction IH as [|x l Hx _ IHl]; intros [|y m]; try (split; [discriminate|congruence]).
    - tauto.
    - rewrite andb_true_iff, IHl, Hx. split; [intros [-> ->]; reflexivity|]. intro H. inversion H. auto. }
  rewrite HG. split.
  - intros [[H1 ->] ->]. apply pkind_code_inj in H1. congruence.
  - intro H. inversion H; subst. auto.
Qed.

Lemma vars_eqb_ok : forall a b, Forall var_ok a -> Forall var_ok b -> (vars_eqb a b = true <-> a = b).
Proof.
  intros a b Ha. revert b. induction Ha as [|x a Hx _ IH]; intros [|y b] Hb; cbn; try (split; [discriminate|congruence]).
  - tauto.
  - inversion Hb; subst. rewrite andb_true_iff, var_eqb_ok, IH by assumption. split; [intros [-> ->]; reflexivity|]. intro H. inversion H. auto.
Qed.

(** ** Simulation of the direct evaluation *)
Section Sim.
Variables (O : fops) (St : Type) (sat : St -> pred -> list var -> outcome (bool * St)) (R : St -> Prop).

Definition sim {A} (o1 : outcome (A * unit)) (o2 : outcome (A * St)) : Prop :=
  match o1 with
  | Ok (x, _) => exists st', o2 = Ok (x, st') /\ R st'
  | Throw e => o2 = Throw e
  | UB u => o2 = UB u
  | Abort => o2 = Abort
  | Diverge => o2 = Diverge
  end.

(** Which trees are asked. *)
Variable Q : pred -> Prop.
Hypothesis Hsat : forall st p vs, R st -> Q p -> Forall var_ok vs -> sim (direct O tt p vs) (sat st p vs).

Lemma sim_bind : forall A B (o1 : outcome (A * unit)) o2 (f1 : A * unit -> outcome (B * unit)) f2,
  sim o1 o2 -> (forall x st, o1 = Ok (x, tt) -> R st -> sim (f1 (x, tt)) (f2 (x, st))) -> sim (bind o1 f1) (bind o2 f2).
Proof.
  intros A B o1 o2 f1 f2 H Hf. destruct o1 as [[x []]| | | |]; cbn in *; try (rewrite H; reflexivity).
  destruct H as (st & -> & HR). cbn. apply Hf; auto.
Qed.

Lemma sim_pure : forall A B (o : outcome A) (f1 : A -> outcome (B * unit)) f2,
  (forall x, o = Ok x -> sim (f1 x) (f2 x)) -> sim (bind o f1) (bind o f2).
Proof. intros A B o f1 f2 H. destruct o; cbn; try reflexivity. apply H. reflexivity. Qed.

Lemma lookup_var_ok : forall (p : pt) bs vs, Forall var_ok (p_vars p) -> lookup_vars p bs = Ok vs -> Forall var_ok vs.
Proof.
  intros p bs vs HV H. apply mapO_Forall2 in H. induction H as [|b v bs vs E _ IH]; constructor; auto.
  destruct (nthN (p_vars p) b) as [w|] eqn:Eb; [|discriminate]. inversion E; subst. rewrite Forall_forall in HV. apply HV. eapply nthN_In; eauto.
Qed.

Lemma satisfies_sim : forall st p pr bs, R st -> Q pr -> Forall var_ok (p_vars p) -> sim (satisfies unit (direct O) tt p pr bs) (satisfies St sat st p pr bs).
Proof. intros st p pr bs HR HQ HV. unfold satisfies. apply sim_pure. intros vs E. apply Hsat; auto. eapply lookup_var_ok; eauto. Qed.

Lemma hard_sim : forall p hard bss st, R st -> Q hard -> Forall var_ok (p_vars p) ->
  sim (hard_results unit (direct O) tt p hard bss) (hard_results St sat st p hard bss).
Proof.
  intros p hard bss. induction bss as [|bs bss IH]; intros st HR HQ HV; cbn [hard_results].
  - exists st. auto.
  - apply sim_bind; [apply satisfies_sim; assumption|]. intros b st' _ HR'. destruct b; [|apply IH; assumption].
    apply sim_pure. intros vs _. apply sim_bind; [apply IH; assumption|]. intros ps st'' _ HR''. exists st''. auto.
Qed.

Lemma hard_vars : forall p hard bss ps u, Forall var_ok (p_vars p) -> hard_results unit (direct O) tt p hard bss = Ok (ps, u) ->
  Forall (fun r : pt => Forall var_ok (p_vars r)) ps.
Proof.
  intros p hard bss. induction bss as [|bs bss IH]; intros ps u HV H; cbn [hard_results] in H.
  - inversion H; constructor.
  - apply bind_ok in H. destruct H as ([b []] & _ & H). destruct b; [|eauto].
    apply bind_ok in H. destruct H as (vs & E & H). apply bind_ok in H. destruct H as ([ps' []] & E' & H). inversion H; subst.
    constructor; [|eapply IH; eauto]. eapply lookup_var_ok; eauto.
Qed.

Lemma count_sim : forall r soft bs n st, R st -> Forall Q soft -> Forall var_ok (p_vars r) ->
  sim (count_soft unit (direct O) tt r soft bs n) (count_soft St sat st r soft bs n).
Proof.
  intros r soft bs n st HR HQ. induction HQ as [|s soft Hs _ IH] in n, st, HR |- *; intro HV; cbn [count_soft].
  - exists st. auto.
  - apply sim_bind; [apply satisfies_sim; assumption|]. intros b st' _ HR'. apply IH; assumption.
Qed.

Lemma counts_sim : forall rs soft bs st, R st -> Forall Q soft -> Forall (fun r : pt => Forall var_ok (p_vars r)) rs ->
  sim (sat_counts unit (direct O) tt rs soft bs) (sat_counts St sat st rs soft bs).
Proof.
  intros rs soft bs st HR HQ H. induction H as [|r rs Hr _ IH] in st, HR |- *; cbn [sat_counts].
  - exists st. auto.
  - apply sim_bind; [apply count_sim; assumption|]. intros n st' _ HR'. apply sim_bind; [apply IH; assumption|].
    intros ns st'' _ HR''. exists st''. auto.
Qed.

Lemma collect_sim : forall ok st p fvs hard soft, R st -> Q hard -> Forall Q soft -> Forall var_ok (p_vars p) ->
  sim (collect unit (direct O) ok tt p fvs hard soft) (collect St sat ok st p fvs hard soft).
Proof.
  intros ok st p fvs hard soft HR HQ HS HV. unfold collect. apply sim_pure. intros first Ef. apply sim_pure. intros bss _.
  apply sim_bind; [apply hard_sim; assumption|]. intros more st' Em HR'. destruct soft as [|s soft]; [exists st'; auto|].
  apply sim_bind; [apply counts_sim; auto|].
  - apply Forall_app. split; [|eapply hard_vars; eauto].
    destruct fvs; [destruct hard as [[] d cs]; try discriminate|]; inversion Ef; subst; repeat constructor.
  - intros ns st'' _ HR''. exists st''. auto.
Qed.

Lemma collect_all_sim : forall ok ps fvs hard soft st, R st -> Q hard -> Forall Q soft -> Forall (fun p : pt => Forall var_ok (p_vars p)) ps ->
  sim (collect_all unit (direct O) ok tt ps fvs hard soft) (collect_all St sat ok st ps fvs hard soft).
Proof.
  intros ok ps fvs hard soft st HR HQ HS H. induction H as [|p ps HV _ IH] in st, HR |- *; cbn [collect_all].
  - exists st. auto.
  - apply sim_bind; [apply collect_sim; assumption|]. intros a st' _ HR'. apply sim_bind; [apply IH; assumption|]. intros b st'' _ HR''. exists st''. auto.
Qed.

Lemma query_sim : forall ok pick points c st fvs hard soft seed mask stmt, R st -> Q hard -> Forall Q soft ->
  coherent points c -> Forall (fun p : pt => Forall var_ok (p_vars p)) points ->
  sim (query unit (direct O) ok pick points c tt fvs hard soft seed mask stmt) (query St sat ok pick points c st fvs hard soft seed mask stmt).
Proof.
  intros ok pick points c st fvs hard soft seed mask stmt HR HQ HS HC HV. unfold query.
  destruct (get_points_ok points c mask stmt HC) as [E _]. destruct (get_points points c mask stmt) as [ps c']. cbn [fst] in E.
  assert (HP : Forall (fun p : pt => Forall var_ok (p_vars p)) ps). { subst ps. rewrite Forall_forall in *. intros p Hp. apply filter_In in Hp. apply HV. tauto. }
  clear E. destruct (seed =? 0).
  - apply sim_bind; [apply collect_all_sim; assumption|]. intros rs st' _ HR'. exists st'. auto.
  - destruct ps as [|p0 ps]; [exists st; auto|]. destruct (nthN (p0 :: ps) (pick seed (lenN (p0 :: ps)))) as [p|] eqn:E; [|reflexivity].
    apply sim_bind; [|intros rs st' _ HR'; exists st'; auto]. apply collect_sim; auto. rewrite Forall_forall in HP. apply HP. eapply nthN_In; eauto.
Qed.
End Sim.

(** ** The caches *)
Definition entry_true (O : fops) (h : pred -> list var -> N) (e : centry) : Prop :=
  Forall var_ok (c_vars e) /\ c_hash e = h (c_pred e) (c_vars e) /\ satisfied O (c_vars e) (c_pred e) = Ok (c_res e).

Lemma by_value_sim : forall O h st p vs, Forall (entry_true O h) st -> Forall var_ok vs ->
  sim (list centry) (Forall (entry_true O h)) (direct O tt p vs) (by_value O h st p vs).
Proof.
  intros O h st p vs HR HV. unfold by_value, direct. destruct (find _ st) as [e|] eqn:E.
  - apply find_some in E. destruct E as [He E]. rewrite !andb_true_iff in E. destruct E as (_ & E1 & E2).
    pose proof HR as HR0. rewrite Forall_forall in HR0. destruct (HR0 e He) as (H1 & H2 & H3). apply pred_eqb_eq in E1. apply vars_eqb_ok in E2; auto. subst p vs.
    rewrite H3. cbn. exists st. auto.
  - destruct (satisfied O vs p) as [b| | | |] eqn:Es; cbn; auto. eexists. split; [reflexivity|]. constructor; [|assumption]. unfold entry_true. cbn. auto.
Qed.

Lemma by_alias_sim : forall O h (Q : pred -> Prop) st p vs,
  no_collision O h (fun p vs => Q p /\ Forall var_ok vs) ->
  Forall (fun e => entry_true O h e /\ Q (c_pred e)) st -> Q p -> Forall var_ok vs ->
  sim (list centry) (Forall (fun e => entry_true O h e /\ Q (c_pred e))) (direct O tt p vs) (by_alias O h st p vs).
Proof.
  intros O h Q st p vs HN HR HQ HV. unfold by_alias, direct. destruct (find _ st) as [e|] eqn:E.
  - apply find_some in E. destruct E as [He E]. apply N.eqb_eq in E.
    pose proof HR as HR0. rewrite Forall_forall in HR0. destruct (HR0 e He) as [(H1 & H2 & H3) H4].
    rewrite (HN p vs (c_pred e) (c_vars e)); [|auto|auto|congruence]. rewrite H3. cbn. exists st. auto.
  - destruct (satisfied O vs p) as [b| | | |] eqn:Es; cbn; auto. eexists. split; [reflexivity|]. constructor; [|assumption]. unfold entry_true. cbn. auto.
Qed.

Lemma by_reference_dangles : forall O h st p vs b st', by_reference O h st p vs = Ok (b, st') ->
  forall q ws, h q ws = h p vs -> by_reference O h st' q ws = UB UDangling.
Proof.
  intros O h st p vs b st' H q ws E. unfold by_reference in *. destruct (existsb _ st); [discriminate|].
  apply bind_ok in H. destruct H as (b' & _ & H). inversion H; subst. cbn [existsb c_hash]. rewrite E, N.eqb_refl. reflexivity.
Qed.

(** ** Histories *)

Lemma history_direct : forall O ok pick points qs c rss, coherent points c ->
  history unit (direct O) ok pick points c tt qs = Ok rss ->
  Forall2 (fun q rs => exists c', run_query unit (direct O) ok pick points [] tt q = Ok (rs, c', tt)) qs rss.
Proof.
  intros O ok pick points qs. induction qs as [|q qs IH]; intros c rss HC H; cbn [history] in H.
  - inversion H; constructor.
  - apply bind_ok in H. destruct H as ([[rs c'] []] & E & H). apply bind_ok in H. destruct H as (rest & E2 & H). inversion H; subst.
    pose proof (query_cache unit (direct O) ok pick points c tt (q_fvs q) (q_hard q) (q_soft q) (q_seed q) (q_mask q) (q_stmt q) HC) as X.
    unfold run_query in *. rewrite E in X. destruct (query unit _ ok pick points [] tt _ _ _ _ _ _) as [[[rs0 c0] []]| | | |] eqn:E0; try discriminate.
    destruct X as (-> & _ & HC'). constructor; [|eapply IH; eauto]. exists c0. unfold run_query. exact E0.
Qed.

(** If queries on fresh objects succeed, so does the history. *)
Lemma history_complete : forall O ok pick points qs c rss, coherent points c ->
  Forall2 (fun q rs => exists c', run_query unit (direct O) ok pick points [] tt q = Ok (rs, c', tt)) qs rss ->
  history unit (direct O) ok pick points c tt qs = Ok rss.
Proof.
  intros O ok pick points qs c rss HC H. induction H as [|q rs qs rss (c' & E) _ IH] in c, HC |- *; cbn [history]; [reflexivity|].
  pose proof (query_cache unit (direct O) ok pick points c tt (q_fvs q) (q_hard q) (q_soft q) (q_seed q) (q_mask q) (q_stmt q) HC) as X.
  unfold run_query in *. rewrite E in X. destruct (query unit _ ok pick points c tt _ _ _ _ _ _) as [[[rs0 c0] []]| | | |] eqn:E0; try discriminate.
  destruct X as (-> & _ & HC'). cbn [bind]. rewrite IH by assumption. reflexivity.
Qed.

Lemma session_sim : forall O St sat (R : St -> Prop) (Q : pred -> Prop) ok pick l st,
  (forall st p vs, R st -> Q p -> Forall var_ok vs -> sim St R (direct O tt p vs) (sat st p vs)) ->
  R st -> session_ok Q l -> session St sat ok pick st l = session unit (direct O) ok pick tt l.
Proof.
  intros O St sat R Q ok pick l st Hsat HR HL. induction HL as [|[[points c] q] l (HC & HV & Q1 & Q2) _ IH] in st, HR |- *; cbn [session]; [reflexivity|].
  unfold run_query.
  pose proof (query_sim O St sat R Q Hsat ok pick points c st (q_fvs q) (q_hard q) (q_soft q) (q_seed q) (q_mask q) (q_stmt q) HR Q1 Q2 HC HV) as X.
  destruct (query unit (direct O) ok pick points c tt _ _ _ _ _ _) as [[[rs c'] []]| | | |]; cbn [sim] in X; try (rewrite X; reflexivity).
  destruct X as (st' & -> & HR'). cbn [bind]. rewrite IH by assumption. reflexivity.
Qed.

(** ** Results belong to selected points *)
Lemma hard_ids : forall O p hard bss ps u, hard_results unit (direct O) tt p hard bss = Ok (ps, u) ->
  Forall (fun r : pt => p_counter r = p_counter p /\ p_stmt r = p_stmt p) ps.
Proof.
  intros O p hard bss. induction bss as [|bs bss IH]; intros ps u H; cbn [hard_results] in H.
  - inversion H; constructor.
  - apply bind_ok in H. destruct H as ([b []] & _ & H). destruct b; [|eauto].
    apply bind_ok in H. destruct H as (vs & _ & H). apply bind_ok in H. destruct H as ([ps' []] & E & H). inversion H; subst.
    constructor; [split; reflexivity|]. eapply IH; eauto.
Qed.

Lemma select_In : forall A m ns (rs : list A) x, In x (select m ns rs) -> In x rs.
Proof.
  intros A m ns. induction ns as [|n ns IH]; intros [|r rs] x H; cbn in H; try contradiction. destruct (n =? m).
  - destruct H as [<-|H]; [left; reflexivity|right; eauto].
  - right. eauto.
Qed.

Lemma collect_ids : forall O ok p fvs hard soft rs u, collect unit (direct O) ok tt p fvs hard soft = Ok (rs, u) ->
  Forall (fun r : pt => p_counter r = p_counter p /\ p_stmt r = p_stmt p) rs.
Proof.
  intros O ok p fvs hard soft rs u H. unfold collect in H. apply bind_ok in H. destruct H as (first & Ef & H). apply bind_ok in H. destruct H as (bss & _ & H).
  apply bind_ok in H. destruct H as ([more []] & Em & H). apply hard_ids in Em.
  assert (HF : Forall (fun r : pt => p_counter r = p_counter p /\ p_stmt r = p_stmt p) (first ++ more)).
  { apply Forall_app. split; [|assumption]. destruct fvs; [destruct hard as [[] d cs]; try discriminate|]; inversion Ef; subst; repeat constructor. }
  destruct soft as [|s soft]; [inversion H; subst; assumption|]. apply bind_ok in H. destruct H as ([ns []] & _ & H). inversion H; subst.
  rewrite Forall_forall in *. intros r Hr. apply HF. eapply select_In; eauto.
Qed.

Lemma results_selected : forall O ok pick points c fvs hard soft seed mask stmt rs c', coherent points c ->
  query unit (direct O) ok pick points c tt fvs hard soft seed mask stmt = Ok (rs, c', tt) ->
  forall r, In r rs -> exists p, In p points /\ selected mask stmt p /\ p_counter r = p_counter p /\ p_stmt r = p_stmt p.
Proof.
  intros O ok pick points c fvs hard soft seed mask stmt rs c' HC H r Hr. unfold query in H.
  destruct (get_points_ok points c mask stmt HC) as [E1 _]. destruct (get_points points c mask stmt) as [l c0]. cbn [fst] in E1.
  assert (HX : exists p, In p l /\ p_counter r = p_counter p /\ p_stmt r = p_stmt p).
  { clear E1. destruct (seed =? 0).
    - apply bind_ok in H. destruct H as ([rs' []] & E & H). inversion H; subst. clear H. revert rs E Hr. induction l as [|p l IH]; intros rs E Hr; cbn [collect_all] in E.
      + inversion E; subst. contradiction.
      + apply bind_ok in E. destruct E as ([a []] & Ea & E). apply bind_ok in E. destruct E as ([b []] & Eb & E). inversion E; subst.
        apply in_app_iff in Hr. destruct Hr as [Hr|Hr].
        * apply collect_ids in Ea. rewrite Forall_forall in Ea. exists p. split; [left; reflexivity|auto].
        * destruct (IH b Eb Hr) as (q & Hq & Hq'). exists q. split; [right|]; assumption.
    - destruct l as [|p0 l]; [inversion H; subst; contradiction|]. destruct (nthN (p0 :: l) _) as [p|] eqn:Ep; [|discriminate].
      apply bind_ok in H. destruct H as ([rs' []] & E & H). inversion H; subst. apply collect_ids in E. rewrite Forall_forall in E.
      exists p. split; [eapply nthN_In; eauto|auto]. }
  destruct HX as (p & Hp & H1 & H2). subst l. apply filter_In in Hp. destruct Hp as [Hp Hs]. apply N.eqb_eq in Hs. exists p. auto.
Qed.
