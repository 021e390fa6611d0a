(** Threads adding traces to one database: proofs. *)
From Verif Require Import BaseProofs Types Stream SkipList Reader Concur ConcurSpec ConcurReadProofs.
From Coq Require Import Permutation.

(** ** Lists *)
Lemma set_nth_length : forall A (l : list A) i x, (i < length l)%nat -> length (set_nth l i x) = length l.
Proof. intros. unfold set_nth. rewrite app_length, firstn_length. cbn [length]. rewrite skipn_length. lia. Qed.
Lemma set_nth_same : forall A (l : list A) i x, (i < length l)%nat -> nth_error (set_nth l i x) i = Some x.
Proof.
  intros. unfold set_nth. rewrite nth_error_app2; rewrite firstn_length; [|lia].
  replace (i - Nat.min i (length l))%nat with 0%nat by lia. reflexivity.
Qed.
Lemma nth_error_skipn : forall A (l : list A) i j, nth_error (skipn i l) j = nth_error l (i + j).
Proof. induction l; destruct i; cbn; intros; auto. destruct j; reflexivity. Qed.
Lemma nth_error_firstn_lt : forall A (l : list A) i j, (j < i)%nat -> nth_error (firstn i l) j = nth_error l j.
Proof. induction l; destruct i, j; cbn; intros; auto; try lia. apply IHl. lia. Qed.
Lemma set_nth_other : forall A (l : list A) i j x, (i < length l)%nat -> i <> j -> nth_error (set_nth l i x) j = nth_error l j.
Proof.
  intros A l i j x H N. unfold set_nth. destruct (Nat.lt_ge_cases j i).
  - rewrite nth_error_app1 by (rewrite firstn_length; lia). apply nth_error_firstn_lt. lia.
  - rewrite nth_error_app2 by (rewrite firstn_length; lia). rewrite firstn_length.
    replace (j - Nat.min i (length l))%nat with (S (j - S i)) by lia. cbn [nth_error].
    rewrite nth_error_skipn. f_equal. lia.
Qed.
Lemma nth_lt : forall A (l : list A) i x, nth_error l i = Some x -> (i < length l)%nat.
Proof. intros. apply nth_error_Some. congruence. Qed.

Lemma Forall2_set : forall A B (P : A -> B -> Prop) l1 l2 i y, Forall2 P l1 l2 ->
  (forall a, nth_error l1 i = Some a -> P a y) -> (i < length l2)%nat -> Forall2 P l1 (set_nth l2 i y).
Proof.
  intros A B P l1 l2 i y H. revert i. induction H; intros i HY L; [cbn in L; lia|].
  destruct i.
  - cbn. constructor; auto.
  - change (set_nth (y0 :: l') (S i) y) with (y0 :: set_nth l' i y). constructor; auto. apply IHForall2; auto. cbn in L. lia.
Qed.
Lemma Forall2_nth_r : forall A B (P : A -> B -> Prop) l1 l2 i b, Forall2 P l1 l2 -> nth_error l2 i = Some b ->
  exists a, nth_error l1 i = Some a /\ P a b.
Proof.
  intros A B P l1 l2 i b H. revert i. induction H; intros [|i] E; cbn in *; try discriminate; eauto.
  injection E as ->. eauto.
Qed.
Lemma Forall2_impl_nth : forall A B (P Q : A -> B -> Prop) l1 l2, Forall2 P l1 l2 ->
  (forall i a b, nth_error l1 i = Some a -> nth_error l2 i = Some b -> P a b -> Q a b) -> Forall2 Q l1 l2.
Proof.
  induction 1; intros HI; constructor.
  - apply (HI 0%nat); auto.
  - apply IHForall2. intros i a b H1 H2. apply (HI (S i)); auto.
Qed.

(** ** The invariant *)
Definition contrib (th : tstate) : list tr :=
  match th with TUnlock t | TDone (Some t) => [t] | _ => [] end.

Lemma contrib_set : forall ts i th th', nth_error ts i = Some th ->
  Permutation (contrib th' ++ flat_map contrib ts) (contrib th ++ flat_map contrib (set_nth ts i th')).
Proof.
  induction ts as [|x ts IH]; intros [|i] th th' E; cbn in E; try discriminate.
  - injection E as ->. cbn. rewrite !app_assoc. apply Permutation_app_tail. apply Permutation_app_comm.
  - change (set_nth (x :: ts) (S i) th') with (x :: set_nth ts i th'). cbn.
    rewrite !app_assoc. etransitivity; [|].
    { apply Permutation_app_tail. apply Permutation_app_comm. }
    rewrite <- app_assoc.
    etransitivity; [apply Permutation_app_head; apply (IH i th th' E)|].
    rewrite !app_assoc. apply Permutation_app_tail. apply Permutation_app_comm.
Qed.

Definition crit (th : tstate) : bool :=
  match th with TPush _ | TStored _ | TCopied _ _ | TFreed _ _ | TUnlock _ => true | _ => false end.

Definition lockinv (lock : option nat) (ts : list tstate) : Prop :=
  (forall j th, nth_error ts j = Some th -> crit th = true -> lock = Some j) /\
  (forall j, lock = Some j -> exists th, nth_error ts j = Some th /\ crit th = true).

Definition holder (lock : option nat) (ts : list tstate) : option tstate :=
  match lock with Some j => nth_error ts j | None => None end.

Definition vecinv (sh : shared) (cur : list tr) (h : option tstate) : Prop :=
  sh_len sh = length cur /\ (sh_len sh <= sh_cap sh)%nat /\
  match h with
  | Some (TStored t) => elems sh (sh_start sh) = Some (cur ++ [t]) /\ (sh_len sh < sh_cap sh)%nat
  | Some (TCopied t b) => elems sh (sh_start sh) = Some cur /\ elems sh b = Some (cur ++ [t]) /\ b <> sh_start sh
  | Some (TFreed t b) => elems sh b = Some (cur ++ [t])
  | _ => elems sh (sh_start sh) = Some cur
  end.

Section System.
Variable V : list byte -> N -> Prop.
Variable W : N -> N -> Prop.       (* static variable, value that may be loaded *)
Variable R : tr -> tr -> Prop.
Hypothesis VW : forall old d v, W (overwrite old d) v -> V d v.
Hypothesis WW : forall s, W s s.
Hypothesis start_leads : forall c, leads V R (start_input c) (read_input c).

Variable grow : nat -> nat.
Hypothesis grow_more : forall n, (n < grow n)%nat.

Definition trel (static : N) (c : task) (th : tstate) : Prop :=
  match c with
  | CallAdd c =>
      match th with
      | TRead p => leads V R p (read_input c) \/
          exists k, p = Get k /\ forall v, W static v -> leads V R (k v) (read_input c)
      | TWait t | TPush t | TStored t | TCopied t _ | TFreed t _ | TUnlock t | TDone (Some t) =>
          exists t', read_input c = Ok t' /\ R t t'
      | TDone None => exists e, read_input c = Throw e
      | TCrash (UB u) => read_input c = UB u
      | TCrash Abort => read_input c = Abort
      | _ => False
      end
  | CallGet i =>
      match th with
      | TGet j | TGot _ j => j = i
      | TSaw _ | TCrash _ => True
      | _ => False
      end
  end.

Definition inv (cs : list task) (l0 : list tr) (st : state) : Prop :=
  let '(sh, ts) := st in
  exists log,
    Forall2 (trel (sh_static sh)) cs ts /\
    Permutation log (flat_map contrib ts) /\
    lockinv (sh_lock sh) ts /\
    vecinv sh (l0 ++ log) (holder (sh_lock sh) ts).

(** Steps that move only thread i *)
Lemma lockinv_same : forall lock ts i th th', lockinv lock ts -> nth_error ts i = Some th ->
  crit th' = crit th -> lockinv lock (set_nth ts i th').
Proof.
  intros lock ts i th th' (H1 & H2) E C. pose proof (nth_lt _ _ _ _ E) as L. split.
  - intros j x Ex Cx. destruct (Nat.eq_dec i j) as [->|Ne].
    + rewrite set_nth_same in Ex by auto. injection Ex as <-. apply (H1 _ _ E). congruence.
    + rewrite set_nth_other in Ex by auto. eapply H1; eauto.
  - intros j Ej. destruct (H2 j Ej) as (x & Ex & Cx). destruct (Nat.eq_dec i j) as [->|Ne].
    + exists th'. rewrite set_nth_same by auto. split; auto. congruence.
    + exists x. rewrite set_nth_other by auto. auto.
Qed.
Lemma lockinv_take : forall ts i th th', lockinv None ts -> nth_error ts i = Some th -> crit th' = true ->
  lockinv (Some i) (set_nth ts i th').
Proof.
  intros ts i th th' (H1 & H2) E C. pose proof (nth_lt _ _ _ _ E) as L. split.
  - intros j x Ex Cx. destruct (Nat.eq_dec i j) as [->|Ne]; auto.
    rewrite set_nth_other in Ex by auto. discriminate (H1 _ _ Ex Cx).
  - intros j Ej. injection Ej as <-. exists th'. rewrite set_nth_same by auto. auto.
Qed.
Lemma lockinv_release : forall ts i th', lockinv (Some i) ts -> (i < length ts)%nat -> crit th' = false ->
  lockinv None (set_nth ts i th').
Proof.
  intros ts i th' (H1 & H2) L C. split; [|discriminate].
  intros j x Ex Cx. destruct (Nat.eq_dec i j) as [->|Ne].
  - rewrite set_nth_same in Ex by auto. congruence.
  - rewrite set_nth_other in Ex by auto. specialize (H1 _ _ Ex Cx). congruence.
Qed.
Lemma holder_other : forall lock ts i th th', lockinv lock ts -> nth_error ts i = Some th -> crit th = false ->
  holder lock (set_nth ts i th') = holder lock ts.
Proof.
  intros lock ts i th th' (H1 & H2) E C. destruct lock as [j|]; auto. cbn.
  destruct (Nat.eq_dec i j) as [->|Ne].
  - destruct (H2 j eq_refl) as (x & Ex & Cx). congruence.
  - rewrite set_nth_other; auto. eapply nth_lt; eauto.
Qed.

Lemma trel_static : forall s s' cs ts i th', Forall2 (trel s) cs ts -> (i < length ts)%nat ->
  (s' = s \/ (forall a v, W a v) \/ forall j th, nth_error ts j = Some th -> j <> i -> ~ in_aux th) ->
  (forall c, nth_error cs i = Some c -> trel s' c th') -> Forall2 (trel s') cs (set_nth ts i th').
Proof.
  intros s s' cs ts i th' F L H HN.
  assert (X : Forall2 (fun c th => trel s c th) cs (set_nth ts i th') \/ True) by auto. clear X.
  assert (G : forall j c th, nth_error cs j = Some c -> nth_error ts j = Some th -> j <> i -> trel s c th -> trel s' c th).
  { intros j c th Ec Et Ne T. destruct c as [c|]; cbn in *; auto.
    destruct th; auto. destruct T as [T|(k & -> & T)]; auto. right. exists k. split; auto. intros v Hv.
    destruct H as [->|[H|H]]; auto. exfalso. apply (H j _ Et Ne). exists k. reflexivity. }
  assert (LL : length cs = length ts).
  { clear -F. induction F; cbn; auto. }
  clear H. revert i L HN G. induction F; intros i L HN G; cbn in L; [lia|]. cbn in LL.
  destruct i.
  - change (set_nth (y :: l') 0 th') with (th' :: l'). constructor; auto.
    clear IHF. eapply Forall2_impl_nth; [exact F|]. intros j a b E1 E2. apply (G (S j)); auto.
  - change (set_nth (y :: l') (S i) th') with (y :: set_nth l' i th'). constructor.
    + apply (G 0%nat); auto.
    + apply IHF; auto; try lia. intros j c th E1 E2 Ne. apply (G (S j)); auto.
Qed.

Definition calm (ts : list tstate) : Prop := (forall a v, W a v) \/ one_aux ts.

Lemma elems_lt : forall sh i l, elems sh i = Some l -> (i < length (sh_bufs sh))%nat.
Proof. intros sh i l. unfold elems. destruct (nth_error (sh_bufs sh) i) eqn:E; try discriminate. intros _. eapply nth_lt; eauto. Qed.

Lemma step_inv : forall cs l0 i st, inv cs l0 st -> calm (snd (pick_thread grow i st)) -> inv cs l0 (pick_thread grow i st).
Proof.
  intros cs l0 i (sh, ts) (log & F & P & L & Ve) HC. unfold pick_thread in *.
  destruct (nth_error ts i) as [th|] eqn:E; [|exists log; auto].
  destruct (tstep grow i sh th) as [(sh' & th')|] eqn:ES; [|exists log; auto].
  cbn [snd] in HC. pose proof (nth_lt _ _ _ _ E) as Li.
  destruct (Forall2_nth_r _ _ _ _ _ _ _ F E) as (c & Ec & T).
  pose proof (contrib_set ts i th th' E) as CP.
  (* the generic way to conclude *)
  assert (NC : crit th = false -> crit th' = false -> contrib th = [] -> contrib th' = [] ->
     sh_lock sh' = sh_lock sh -> sh_bufs sh' = sh_bufs sh -> sh_start sh' = sh_start sh -> sh_len sh' = sh_len sh -> sh_cap sh' = sh_cap sh ->
     Forall2 (trel (sh_static sh')) cs (set_nth ts i th') ->
     inv cs l0 (sh', set_nth ts i th')).
  { intros C C' N N' E1 E2 E3 E4 E5 F'. exists log. rewrite N, N' in CP. cbn in CP. split; auto. split.
    { etransitivity; eauto. }
    rewrite E1. split; [eapply lockinv_same; eauto; congruence|].
    rewrite (holder_other _ _ _ _ _ L E C). unfold vecinv in *. unfold elems in *. rewrite E2, E3, E4, E5. exact Ve. }
  assert (HO : crit th = true -> sh_lock sh = Some i /\ holder (sh_lock sh) ts = Some th).
  { intro C. destruct L as (L1 & _). specialize (L1 _ _ E C). rewrite L1. cbn. auto. }
  assert (FS : sh_static sh' = sh_static sh -> (forall c, nth_error cs i = Some c -> trel (sh_static sh') c th') ->
     Forall2 (trel (sh_static sh')) cs (set_nth ts i th')).
  { intros X Y. eapply trel_static; eauto. }
  assert (TE : forall P : task -> Prop, P c -> forall c', nth_error cs i = Some c' -> P c') by (intros; congruence).
  destruct th as [p|t|t|t|t b|t b|t|r|j|b j|t|o]; cbn [tstep] in ES; cbv zeta in ES.
  - (* TRead *)
    destruct p as [o|d k|k].
    + assert (X : exists th0, th' = th0 /\ sh' = sh /\ crit th' = false /\ contrib th' = [] /\ trel (sh_static sh) c th').
      { destruct c as [c|]; [|contradiction]. cbn in T. destruct T as [T|(k & X & _)]; [|discriminate].
        inversion T as [? ? T'|]; subst. destruct o; try discriminate; injection ES as <- <-; eexists; repeat split; cbn in *;
          destruct (read_input c); try contradiction; subst; eauto. }
      destruct X as (_ & _ & -> & C & N & T'). apply NC; auto. apply FS; auto. apply (TE (fun c => trel _ c _)). exact T'.
    + injection ES as <- <-. apply NC; auto. cbn [sh_static].
      destruct c as [c|]; [|contradiction]. cbn in T. destruct T as [T|(k' & X & _)]; [|discriminate].
      inversion T as [|d' k' o' T' E1 E2]; subst.
      eapply trel_static; eauto.
      * destruct HC as [HC|HC]; auto. right. right. intros j th Ej Ne IA. apply Ne.
        apply (HC j i th (TRead (Get k'))); [| |exact IA|].
        -- rewrite set_nth_other; auto.
        -- rewrite set_nth_same; auto.
        -- eexists; reflexivity.
      * apply (TE (fun c => trel _ c _)). cbn. right. exists k'. split; auto. intros v Hv. apply T'. eapply VW; eauto.
    + injection ES as <- <-. apply NC; auto. apply FS; auto. apply (TE (fun c => trel _ c _)).
      destruct c as [c|]; [|contradiction]. cbn in *. destruct T as [T|(k' & X & T)]; [inversion T|].
      injection X as <-. auto.
  - (* TWait *)
    destruct (sh_lock sh) eqn:EL; [discriminate|]. injection ES as <- <-.
    exists log. cbn [sh_static sh_lock sh_bufs sh_start sh_len sh_cap contrib app] in *. split; [|split; [|split]].
    + apply FS; auto. apply (TE (fun c => trel _ c _)). destruct c; cbn in *; auto.
    + etransitivity; eauto.
    + eapply lockinv_take; eauto.
    + cbn [holder]. rewrite set_nth_same by auto. exact Ve.
  - (* TPush *)
    destruct (HO eq_refl) as (EL & EH). rewrite EH in Ve. destruct Ve as (V1 & V2 & V3). rewrite V3 in ES.
    rewrite V1, firstn_all in ES. pose proof (elems_lt _ _ _ V3) as Lb.
    destruct (Nat.ltb (length (l0 ++ log)) (sh_cap sh)) eqn:EC; injection ES as <- <-; exists log;
      cbn [sh_static sh_lock contrib app] in *; (split; [|split; [|split]]);
      try (apply FS; auto; apply (TE (fun c => trel _ c _)); destruct c; cbn in *; solve [auto]);
      try (etransitivity; solve [eauto]); try (eapply lockinv_same; solve [eauto]).
    + unfold holder. rewrite EL, set_nth_same by auto. unfold vecinv.
      cbn [sh_len sh_cap sh_start]. apply Nat.ltb_lt in EC. split; [lia|split; [lia|split; [|lia]]].
      rewrite EL in *. rewrite <- EL. unfold elems. cbn. rewrite set_nth_same by auto. reflexivity.
    + unfold holder. rewrite EL, set_nth_same by auto. unfold vecinv.
      cbn [sh_len sh_cap sh_start]. split; [lia|split; [lia|split; [|split]]].
      * unfold elems in *. cbn. rewrite nth_error_app1 by auto. exact V3.
      * unfold elems. cbn. rewrite nth_error_app2, Nat.sub_diag by lia. reflexivity.
      * lia.
  - (* TStored *)
    destruct (HO eq_refl) as (EL & EH). rewrite EH in Ve. destruct Ve as (V1 & V2 & V3 & V4). injection ES as <- <-.
    exists (log ++ [t]). cbn [sh_static sh_lock contrib app] in *. split; [|split; [|split]].
    + apply FS; auto. apply (TE (fun c => trel _ c _)). destruct c; cbn in *; auto.
    + etransitivity; [apply Permutation_app_comm|]. cbn. etransitivity; [|exact CP]. auto.
    + eapply lockinv_same; eauto.
    + unfold holder. rewrite EL, set_nth_same by auto. unfold vecinv. cbn [sh_len sh_cap sh_start].
      rewrite app_assoc, app_length. cbn [length]. split; [lia|split; [lia|exact V3]].
  - (* TCopied *)
    destruct (HO eq_refl) as (EL & EH). rewrite EH in Ve. destruct Ve as (V1 & V2 & V3 & V4 & V5). injection ES as <- <-.
    pose proof (elems_lt _ _ _ V3) as Lb.
    exists log. cbn [sh_static sh_lock contrib app] in *. split; [|split; [|split]].
    + apply FS; auto. apply (TE (fun c => trel _ c _)). destruct c; cbn in *; auto.
    + etransitivity; eauto.
    + eapply lockinv_same; eauto.
    + unfold holder. rewrite EL, set_nth_same by auto. unfold vecinv. cbn [sh_len sh_cap sh_start].
      split; [lia|split; [lia|]]. unfold elems in *. cbn. rewrite set_nth_other by auto. exact V4.
  - (* TFreed *)
    destruct (HO eq_refl) as (EL & EH). rewrite EH in Ve. destruct Ve as (V1 & V2 & V3). injection ES as <- <-.
    exists (log ++ [t]). cbn [sh_static sh_lock contrib app] in *. split; [|split; [|split]].
    + apply FS; auto. apply (TE (fun c => trel _ c _)). destruct c; cbn in *; auto.
    + etransitivity; [apply Permutation_app_comm|]. cbn. etransitivity; [|exact CP]. auto.
    + eapply lockinv_same; eauto.
    + unfold holder. rewrite EL, set_nth_same by auto. unfold vecinv. cbn [sh_len sh_cap sh_start].
      rewrite app_assoc, app_length. cbn [length]. pose proof (grow_more (sh_cap sh)). split; [lia|split; [lia|exact V3]].
  - (* TUnlock *)
    destruct (HO eq_refl) as (EL & EH). rewrite EH in Ve. injection ES as <- <-.
    exists log. cbn [sh_static sh_lock contrib app] in *. split; [|split; [|split]].
    + apply FS; auto. apply (TE (fun c => trel _ c _)). destruct c; cbn in *; auto.
    + etransitivity; [exact P|]. apply Permutation_cons_inv in CP. exact CP.
    + apply lockinv_release; auto. rewrite EL in L. exact L.
    + exact Ve.
  - discriminate.
  - (* TGet *)
    destruct c as [c|i']; [contradiction|].
    destruct (Nat.ltb j (sh_len sh)); injection ES as <- <-; apply NC; auto; apply FS; auto; apply (TE (fun c => trel _ c _)); cbn; auto.
  - (* TGot *)
    destruct c as [c|i']; [contradiction|].
    destruct (elems sh b) as [l|]; [destruct (nth_error l j)|]; injection ES as <- <-; apply NC; auto; apply FS; auto; apply (TE (fun c => trel _ c _)); cbn; auto.
  - discriminate.
  - discriminate.
Qed.

Lemma start_inv : forall static l cap cs, (length l <= cap)%nat -> inv cs l (start_state static l cap cs).
Proof.
  intros static l cap cs L. unfold start_state. exists []. cbn. split; [|split; [|split; [|]]].
  - clear L. induction cs as [|c cs IH]; cbn; constructor; auto. destruct c as [c|j]; cbn; auto.
  - induction cs as [|c cs IH]; cbn; auto. destruct c; auto.
  - split; [|discriminate]. intros j th E C. exfalso. apply nth_error_In in E. apply in_map_iff in E.
    destruct E as ([c|j'] & <- & _); discriminate.
  - unfold vecinv, elems. cbn. rewrite app_nil_r. split; [auto|split; auto].
Qed.

Fixpoint calm_sched (sched : list nat) (st : state) : Prop :=
  match sched with [] => True | i :: r => calm (snd (pick_thread grow i st)) /\ calm_sched r (pick_thread grow i st) end.

Lemma exec_inv : forall cs l0 sched st, inv cs l0 st -> calm_sched sched st -> inv cs l0 (exec grow sched st).
Proof. induction sched; cbn; intros st I C; auto. destruct C. apply IHsched; auto. apply step_inv; auto. Qed.

(** Threads that do not hold the lock, and have returned *)
Lemma returned_end : forall cs l0 sh ts, inv cs l0 (sh, ts) -> Forall returned ts ->
  exists added mine, contents sh = l0 ++ added /\ Permutation added mine /\ Forall2 R mine (traces_of cs) /\
    map answer ts = map answer_alone cs.
Proof.
  intros cs l0 sh ts (log & F & P & L & Ve) HR.
  assert (EL : sh_lock sh = None).
  { destruct (sh_lock sh) as [j|]; auto. destruct L as (_ & L). destruct (L j eq_refl) as (th & E & C).
    rewrite Forall_forall in HR. apply nth_error_In in E. specialize (HR _ E). destruct th; try contradiction; discriminate. }
  exists log, (flat_map contrib ts). split; [|split; [exact P|]].
  - rewrite EL in Ve. cbn in Ve. destruct Ve as (V1 & V2 & V3). unfold contents. rewrite V3, V1. apply firstn_all.
  - clear -F HR. induction F as [|c th cs ts T F IH]; [cbn; auto|].
    inversion HR as [|? ? H1 H2]; subst. destruct (IH H2) as (IH1 & IH2). cbn.
    destruct c as [c|j]; destruct th as [p|t|t|t|t b|t b|t|r|k|b k|t|o]; cbn in *; try contradiction.
    + destruct r as [t|].
      * destruct T as (t' & E & T). rewrite E. cbn. split; [constructor; auto|congruence].
      * destruct T as (e & E). rewrite E. cbn. split; [auto|congruence].
    + split; [auto|congruence].
Qed.
End System.
