(** Concurrent additions: every call can finish; looking at a trace while others are added. *)
From Verif Require Import BaseProofs Types Stream SkipList AMap FormatSpec Reader ReaderProofs ReaderMore ReaderProps.
From Verif Require Import Concur ConcurSpec ConcurReadProofs ConcurProofs ConcurProofs2.
From Coq Require Import Permutation.

Lemma read_input_total : forall c, read_input c <> Diverge.
Proof.
  intro c. unfold read_input. destruct (in_file c) as [(bs & t)|]; [|discriminate].
  apply read_total.
Qed.

Definition rinv := inv VT WT same_but_aux.

Lemma rinv_exec : forall grow cs l sched st, (forall n, (n < grow n)%nat) -> rinv cs l st -> rinv cs l (exec grow sched st).
Proof.
  intros grow cs l sched st G H. apply exec_inv; auto.
  - intros; exact I.
  - apply calm_racy.
Qed.
Lemma rinv_start : forall static l cap cs, (length l <= cap)%nat -> rinv cs l (start_state static l cap cs).
Proof. intros. apply start_inv; auto. apply start_racy. Qed.

Definition stopped (th : tstate) : Prop := returned th \/ exists o, th = TCrash o.

Lemma exec_app : forall grow a b st, exec grow (a ++ b) st = exec grow b (exec grow a st).
Proof. induction a; cbn; auto. Qed.

Section Finish.
Variable grow : nat -> nat.
Hypothesis grow_more : forall n, (n < grow n)%nat.
Variable cs : list task.
Variable l0 : list tr.

Definition fin (i : nat) (st : state) : Prop :=
  exists n th, nth_error (snd (exec grow (repeat i n) st)) i = Some th /\ stopped th /\
    sh_lock (fst (exec grow (repeat i n) st)) = None /\
    (forall j, j <> i -> nth_error (snd (exec grow (repeat i n) st)) j = nth_error (snd st) j).

Lemma fin_step : forall i sh ts th sh' th', nth_error ts i = Some th -> tstep grow i sh th = Some (sh', th') ->
  fin i (sh', set_nth ts i th') -> fin i (sh, ts).
Proof.
  intros i sh ts th sh' th' E S (n & x & H1 & H2 & H3 & H4). pose proof (nth_lt _ _ _ _ E) as L.
  assert (PK : pick_thread grow i (sh, ts) = (sh', set_nth ts i th')) by (unfold pick_thread; rewrite E, S; reflexivity).
  exists (Datatypes.S n), x. cbn [repeat exec]. rewrite PK.
  split; [exact H1|split; [exact H2|split; [exact H3|]]].
  intros j Ne. rewrite H4 by exact Ne. cbn [snd]. apply set_nth_other; auto.
Qed.
Lemma fin_done : forall i sh ts th, nth_error ts i = Some th -> stopped th -> sh_lock sh = None -> fin i (sh, ts).
Proof. intros i sh ts th E S L. exists 0%nat, th. cbn. auto. Qed.

Lemma fin_unlock : forall i sh ts t, nth_error ts i = Some (TUnlock t) -> fin i (sh, ts).
Proof.
  intros i sh ts t E. eapply fin_step; [exact E|reflexivity|]. pose proof (nth_lt _ _ _ _ E) as L.
  eapply fin_done; [apply set_nth_same; auto|left; exact I|reflexivity].
Qed.
Lemma fin_freed : forall i sh ts t b, nth_error ts i = Some (TFreed t b) -> fin i (sh, ts).
Proof.
  intros i sh ts t b E. eapply fin_step; [exact E|reflexivity|]. pose proof (nth_lt _ _ _ _ E) as L.
  eapply fin_unlock. apply set_nth_same; auto.
Qed.
Lemma fin_copied : forall i sh ts t b, nth_error ts i = Some (TCopied t b) -> fin i (sh, ts).
Proof.
  intros i sh ts t b E. eapply fin_step; [exact E|reflexivity|]. pose proof (nth_lt _ _ _ _ E) as L.
  eapply fin_freed. apply set_nth_same; auto.
Qed.
Lemma fin_stored : forall i sh ts t, nth_error ts i = Some (TStored t) -> fin i (sh, ts).
Proof.
  intros i sh ts t E. eapply fin_step; [exact E|reflexivity|]. pose proof (nth_lt _ _ _ _ E) as L.
  eapply fin_unlock. apply set_nth_same; auto.
Qed.
Lemma fin_push : forall i sh ts t, rinv cs l0 (sh, ts) -> nth_error ts i = Some (TPush t) -> fin i (sh, ts).
Proof.
  intros i sh ts t (log & _ & _ & L & Ve) E. pose proof (nth_lt _ _ _ _ E) as Li.
  assert (EL : sh_lock sh = Some i) by (apply (proj1 L _ _ E); reflexivity).
  rewrite EL in Ve. cbn in Ve. rewrite E in Ve. destruct Ve as (V1 & V2 & V3).
  destruct (Nat.ltb (sh_len sh) (sh_cap sh)) eqn:C.
  - eapply fin_step; [exact E|cbn [tstep]; rewrite V3; cbv zeta; rewrite C; reflexivity|].
    eapply fin_stored. apply set_nth_same; auto.
  - eapply fin_step; [exact E|cbn [tstep]; rewrite V3; cbv zeta; rewrite C; reflexivity|].
    eapply fin_copied. apply set_nth_same; auto.
Qed.

(** One step keeps the invariant *)
Lemma rinv_step : forall i sh ts th sh' th', rinv cs l0 (sh, ts) -> nth_error ts i = Some th ->
  tstep grow i sh th = Some (sh', th') -> rinv cs l0 (sh', set_nth ts i th').
Proof.
  intros i sh ts th sh' th' H E S. pose proof (rinv_exec grow cs l0 [i] (sh, ts) grow_more H) as X.
  cbn [exec] in X. unfold pick_thread in X. rewrite E, S in X. exact X.
Qed.

Lemma fin_wait : forall i sh ts t, rinv cs l0 (sh, ts) -> nth_error ts i = Some (TWait t) -> sh_lock sh = None -> fin i (sh, ts).
Proof.
  intros i sh ts t H E EL. pose proof (nth_lt _ _ _ _ E) as Li.
  assert (S : tstep grow i sh (TWait t) = Some (mkSh (sh_static sh) (Some i) (sh_bufs sh) (sh_start sh) (sh_len sh) (sh_cap sh), TPush t))
    by (cbn; rewrite EL; reflexivity).
  eapply fin_step; [exact E|exact S|]. eapply fin_push; [|apply set_nth_same; auto].
  eapply rinv_step; eauto.
Qed.

Lemma not_diverge : forall sh ts i, rinv cs l0 (sh, ts) -> nth_error ts i = Some (TRead (Fin Diverge)) -> False.
Proof.
  intros sh ts i (log & F & _) E. destruct (Forall2_nth_r _ _ _ _ _ _ _ F E) as (c & _ & T).
  destruct c as [c|]; [|contradiction]. cbn in T. destruct T as [T|(k & X & _)]; [|discriminate].
  inversion T as [o o' O|]; subst. pose proof (read_input_total c). destruct (read_input c); cbn in O; try contradiction.
Qed.

Lemma fin_read : forall p i sh ts, rinv cs l0 (sh, ts) -> nth_error ts i = Some (TRead p) -> sh_lock sh = None -> fin i (sh, ts).
Proof.
  induction p as [o|d k IH|k IH]; intros i sh ts H E EL; pose proof (nth_lt _ _ _ _ E) as Li.
  - destruct o as [t|e|u| |].
    + eapply fin_step; [exact E|reflexivity|]. eapply fin_wait; [|apply set_nth_same; auto|exact EL]. eapply rinv_step; eauto; reflexivity.
    + eapply fin_step; [exact E|reflexivity|]. eapply fin_done; [apply set_nth_same; auto|left; exact I|exact EL].
    + eapply fin_step; [exact E|reflexivity|]. eapply fin_done; [apply set_nth_same; auto|right; eexists; reflexivity|exact EL].
    + eapply fin_step; [exact E|reflexivity|]. eapply fin_done; [apply set_nth_same; auto|right; eexists; reflexivity|exact EL].
    + exfalso. eapply not_diverge; eauto.
  - eapply fin_step; [exact E|reflexivity|]. apply IH; [|apply set_nth_same; auto|exact EL]. eapply rinv_step; eauto; reflexivity.
  - eapply fin_step; [exact E|reflexivity|]. apply (IH (sh_static sh)); [|apply set_nth_same; auto|exact EL]. eapply rinv_step; eauto; reflexivity.
Qed.

Lemma fin_any : forall i sh ts th, rinv cs l0 (sh, ts) -> nth_error ts i = Some th -> (sh_lock sh = None \/ sh_lock sh = Some i) -> fin i (sh, ts).
Proof.
  intros i sh ts th H E EL. pose proof (nth_lt _ _ _ _ E) as Li.
  assert (NC : crit th = false -> sh_lock sh = None).
  { intro C. destruct EL as [EL|EL]; auto. destruct H as (log & _ & _ & (_ & L) & _). destruct (L i EL) as (x & Ex & Cx). congruence. }
  destruct th as [p|t|t|t|t b|t b|t|r|j|b j|t|o].
  - eapply fin_read; eauto.
  - eapply fin_wait; eauto.
  - eapply fin_push; eauto.
  - eapply fin_stored; eauto.
  - eapply fin_copied; eauto.
  - eapply fin_freed; eauto.
  - eapply fin_unlock; eauto.
  - eapply fin_done; [exact E|left; exact I|auto].
  - assert (G : forall b, fin i (sh, set_nth ts i (TGot b j))).
    { intro b. destruct (elems sh b) as [x|] eqn:EE; [destruct (nth_error x j) eqn:EN|];
        (eapply fin_step; [apply set_nth_same; auto|cbn; rewrite EE; try rewrite EN; reflexivity|]);
        (eapply fin_done; [apply set_nth_same; rewrite set_nth_length; auto| |auto]);
        solve [left; exact I|right; eexists; reflexivity]. }
    destruct (Nat.ltb j (sh_len sh)) eqn:EJ.
    + eapply fin_step; [exact E|cbn [tstep]; rewrite EJ; reflexivity|]. apply G.
    + eapply fin_step; [exact E|cbn [tstep]; rewrite EJ; reflexivity|].
      eapply fin_done; [apply set_nth_same; auto|right; eexists; reflexivity|auto].
  - destruct (elems sh b) as [x|] eqn:EE; [destruct (nth_error x j) eqn:EN|];
      (eapply fin_step; [exact E|cbn; rewrite EE; try rewrite EN; reflexivity|]);
      (eapply fin_done; [apply set_nth_same; auto| |auto]);
      solve [left; exact I|right; eexists; reflexivity].
  - eapply fin_done; [exact E|left; exact I|auto].
  - eapply fin_done; [exact E|right; eexists; reflexivity|auto].
Qed.

Definition all_stopped (js : list nat) (ts : list tstate) : Prop :=
  forall j, In j js -> forall th, nth_error ts j = Some th -> stopped th.

Lemma fin_list : forall js st, rinv cs l0 st -> sh_lock (fst st) = None ->
  exists sched, sh_lock (fst (exec grow sched st)) = None /\ all_stopped js (snd (exec grow sched st)) /\
    (forall j th, nth_error (snd st) j = Some th -> stopped th -> exists th', nth_error (snd (exec grow sched st)) j = Some th' /\ stopped th').
Proof.
  induction js as [|i js IH]; intros st H EL.
  - exists []. cbn. split; [auto|split; [intros j []|eauto]].
  - destruct st as (sh & ts). destruct (nth_error ts i) as [th|] eqn:E.
    + destruct (fin_any i sh ts th H E (or_introl EL)) as (n & x & H1 & H2 & H3 & H4).
      pose proof (rinv_exec grow cs l0 (repeat i n) (sh, ts) grow_more H) as H'.
      destruct (exec grow (repeat i n) (sh, ts)) as (sh1 & ts1) eqn:EX. cbn [fst snd] in *.
      destruct (IH (sh1, ts1) H' H3) as (sched & K1 & K2 & K3).
      exists (repeat i n ++ sched). rewrite exec_app, EX. split; [exact K1|split].
      * intros j [<-|J] y Ey; [|eapply K2; eauto]. cbn [snd] in *. destruct (K3 i x H1 H2) as (y' & Ey' & Sy'). congruence.
      * intros j y Ey Sy. cbn [snd] in *. destruct (Nat.eq_dec j i) as [->|Ne].
        -- apply (K3 i x H1 H2).
        -- apply (K3 j y); auto. rewrite H4; auto.
    + destruct (IH (sh, ts) H EL) as (sched & K1 & K2 & K3). exists sched. split; [exact K1|split; [|exact K3]].
      intros j [<-|J] y Ey; [|eapply K2; eauto]. exfalso.
      assert (X : length (snd (exec grow sched (sh, ts))) = length ts).
      { clear -grow_more. revert sh ts. induction sched as [|a r IH]; intros sh ts; cbn [exec]; auto.
        unfold pick_thread at 1. destruct (nth_error ts a) as [z|] eqn:E; auto.
        destruct (tstep grow a sh z) as [(s & z')|]; auto. rewrite IH. apply set_nth_length. eapply nth_lt; eauto. }
      apply nth_lt in Ey. rewrite X in Ey. apply nth_error_None in E. lia.
Qed.

Lemma finish_all : forall st, rinv cs l0 st -> exists sched, Forall stopped (snd (exec grow sched st)).
Proof.
  intros (sh & ts) H.
  assert (LEN : forall sched sh ts, length (snd (exec grow sched (sh, ts))) = length ts).
  { induction sched as [|a r IH]; intros sh1 ts1; cbn [exec]; auto.
    unfold pick_thread at 1. destruct (nth_error ts1 a) as [z|] eqn:E; auto.
    destruct (tstep grow a sh1 z) as [(s & z')|]; auto. rewrite IH. apply set_nth_length. eapply nth_lt; eauto. }
  assert (X : exists s1, sh_lock (fst (exec grow s1 (sh, ts))) = None).
  { destruct (sh_lock sh) as [i|] eqn:EL; [|exists []; exact EL].
    pose proof H as (log & _ & _ & (_ & L) & _). destruct (L i EL) as (th & E & _).
    destruct (fin_any i sh ts th H E (or_intror EL)) as (n & x & _ & _ & H3 & _). eauto. }
  destruct X as (s1 & EL). pose proof (rinv_exec grow cs l0 s1 _ grow_more H) as H1.
  destruct (fin_list (seq 0 (length ts)) _ H1 EL) as (s2 & _ & K & _).
  exists (s1 ++ s2). rewrite exec_app. apply Forall_forall. intros th I.
  apply In_nth_error in I. destruct I as (j & Ej). eapply K; eauto. apply in_seq.
  pose proof (nth_lt _ _ _ _ Ej) as Lj. destruct (exec grow s1 (sh, ts)) as (sh1 & ts1) eqn:E1.
  rewrite LEN in Lj. specialize (LEN s1 sh ts). rewrite E1 in LEN. cbn in LEN. lia.
Qed.
End Finish.

(** ** Looking at traces while others are added, without reallocation *)
Fixpoint adds (cs : list task) : nat :=
  match cs with [] => 0 | CallAdd _ :: r => S (adds r) | CallGet _ :: r => adds r end.

Lemma contrib_le : forall s cs ts, Forall2 (trel VT WT same_but_aux s) cs ts -> (length (flat_map contrib ts) <= adds cs)%nat.
Proof.
  induction 1 as [|c th cs ts T F IH]; cbn; auto. rewrite app_length.
  assert (X : (length (contrib th) <= match c with CallAdd _ => 1 | CallGet _ => 0 end)%nat).
  { destruct c; destruct th as [p|t|t|t|t b|t b|t|r|j|b j|t|o]; cbn in *; try contradiction; auto. destruct r; cbn; lia. }
  destruct c; lia.
Qed.
Lemma contrib_lt : forall s cs ts i th c, Forall2 (trel VT WT same_but_aux s) cs ts -> nth_error ts i = Some th ->
  nth_error cs i = Some (CallAdd c) -> contrib th = [] -> (length (flat_map contrib ts) < adds cs)%nat.
Proof.
  intros s cs ts i th c F. revert i. induction F as [|c' th' cs ts T F IH]; intros [|i] E1 E2 N; cbn in *; try discriminate.
  - injection E1 as ->. injection E2 as ->. rewrite N. cbn. pose proof (contrib_le _ _ _ F). lia.
  - specialize (IH i E1 E2 N). rewrite app_length.
    assert (X : (length (contrib th') <= match c' with CallAdd _ => 1 | CallGet _ => 0 end)%nat).
    { destruct c'; destruct th' as [p|t|t|t|t b|t b|t|r|j|b j|t|o]; cbn in *; try contradiction; auto. destruct r; cbn; lia. }
    destruct c'; lia.
Qed.

Definition room (l0 : list tr) (cap : nat) (st : state) : Prop :=
  let '(sh, ts) := st in
  sh_start sh = 0%nat /\ sh_cap sh = cap /\ (length l0 <= sh_len sh)%nat /\
  (exists x, elems sh 0 = Some (l0 ++ x)) /\
  (forall j th, nth_error ts j = Some th -> match th with
     | TCopied _ _ | TFreed _ _ => False
     | TGot b i => b = 0%nat
     | _ => True end).

Lemma room_step : forall grow cs l0 cap i st, (length l0 + adds cs <= cap)%nat ->
  rinv cs l0 st -> room l0 cap st -> room l0 cap (pick_thread grow i st).
Proof.
  intros grow cs l0 cap i (sh & ts) HC (log & F & P & L & Ve) (R1 & R2 & R3 & (x & R4) & R5). unfold pick_thread.
  assert (R0 : room l0 cap (sh, ts)) by (repeat split; eauto).
  destruct (nth_error ts i) as [th|] eqn:E; [|exact R0].
  destruct (tstep grow i sh th) as [(sh' & th')|] eqn:ES; [|exact R0].
  pose proof (nth_lt _ _ _ _ E) as Li.
  assert (NX : forall th0, match th0 with TCopied _ _ | TFreed _ _ => False | TGot b i => b = 0%nat | _ => True end ->
     forall j th, nth_error (set_nth ts i th0) j = Some th -> match th with TCopied _ _ | TFreed _ _ => False | TGot b i => b = 0%nat | _ => True end).
  { intros th0 H0 j y Ey. destruct (Nat.eq_dec i j) as [->|Ne].
    - rewrite set_nth_same in Ey by auto. injection Ey as <-. exact H0.
    - rewrite set_nth_other in Ey by auto. eapply R5; eauto. }
  pose proof (R5 i th E) as R5i.
  destruct th as [p|t|t|t|t b|t b|t|r|j|b j|t|o]; cbn [tstep] in ES; cbv zeta in ES; try contradiction; try discriminate.
  - destruct p as [o|d k|k]; [destruct o|..]; try discriminate; injection ES as <- <-; (split; [|split; [|split; [|split]]]); eauto; try (apply NX; exact I).
  - destruct (sh_lock sh) eqn:EL; [discriminate|]. injection ES as <- <-. (split; [|split; [|split; [|split]]]); eauto; try (apply NX; exact I).
  - assert (EL : sh_lock sh = Some i) by (apply (proj1 L _ _ E); reflexivity).
    rewrite EL in Ve. cbn in Ve. rewrite E in Ve. destruct Ve as (V1 & V2 & V3). rewrite V3 in ES.
    destruct (Forall2_nth_r _ _ _ _ _ _ _ F E) as (c & Ec & T). destruct c as [c|]; [|contradiction].
    pose proof (contrib_lt _ _ _ _ _ _ F E Ec eq_refl) as CL.
    apply Permutation_length in P. rewrite app_length in V1.
    assert (C : Nat.ltb (sh_len sh) (sh_cap sh) = true) by (apply Nat.ltb_lt; lia).
    rewrite C in ES. injection ES as <- <-. rewrite V1, <- app_length, firstn_all.
    split; [exact R1|split; [exact R2|split; [cbn [sh_len]; rewrite ?app_length; lia|split; [|apply NX; exact I]]]].
    exists (log ++ [t]). unfold elems. cbn [sh_bufs]. rewrite R1, set_nth_same, app_assoc; auto.
    apply (elems_lt sh 0 (l0 ++ x)). exact R4.
  - injection ES as <- <-. split; [|split; [|split; [|split]]]; eauto. cbn. lia. apply NX; exact I.
  - injection ES as <- <-. split; [|split; [|split; [|split]]]; eauto. apply NX; exact I.
  - destruct (Nat.ltb j (sh_len sh)); injection ES as <- <-; (split; [|split; [|split; [|split]]]); eauto; apply NX; auto; exact I.
  - destruct (elems sh b) as [y|]; [destruct (nth_error y j)|]; injection ES as <- <-; (split; [|split; [|split; [|split]]]); eauto; apply NX; exact I.
Qed.

(** Threads that look at a trace of the initial database *)
Definition saw_ok (l0 : list tr) (c : task) (th : tstate) : Prop :=
  match c with
  | CallGet i => (i < length l0)%nat -> match th with
      | TGet j | TGot _ j => j = i
      | TSaw t => nth_error l0 i = Some t
      | _ => False end
  | CallAdd _ => True
  end.

Lemma saw_step : forall grow cs l0 cap i st, room l0 cap st -> Forall2 (saw_ok l0) cs (snd st) ->
  Forall2 (saw_ok l0) cs (snd (pick_thread grow i st)).
Proof.
  intros grow cs l0 cap i (sh & ts) (R1 & R2 & R3 & (x & R4) & R5) F. unfold pick_thread. cbn [snd] in F.
  destruct (nth_error ts i) as [th|] eqn:E; [|exact F].
  destruct (tstep grow i sh th) as [(sh' & th')|] eqn:ES; [|exact F]. cbn [snd].
  apply Forall2_set; [exact F| |eapply nth_lt; eauto].
  intros c Ec. destruct (Forall2_nth_r _ _ _ _ _ _ _ F E) as (c' & Ec' & T). rewrite Ec in Ec'. injection Ec' as <-.
  destruct c as [c|k]; [exact I|]. intro Lk. specialize (T Lk).
  destruct th as [p|t|t|t|t b|t b|t|r|j|b j|t|o]; try contradiction; cbn [tstep] in ES.
  - subst j. destruct (Nat.ltb k (sh_len sh)) eqn:C.
    + injection ES as <- <-. reflexivity.
    + apply Nat.ltb_ge in C. lia.
  - subst j. pose proof (R5 i _ E) as B. cbn in B. subst b. rewrite R4 in ES.
    destruct (nth_error (l0 ++ x) k) as [t|] eqn:EN.
    + injection ES as <- <-. rewrite nth_error_app1 in EN by exact Lk. exact EN.
    + exfalso. apply nth_error_None in EN. rewrite app_length in EN. lia.
  - discriminate.
Qed.

Lemma look_lemma : forall grow static l cap cs sched sh ts, (forall n, (n < grow n)%nat) ->
  (length l + adds cs <= cap)%nat ->
  exec grow sched (start_state static l cap cs) = (sh, ts) -> Forall2 (saw_ok l) cs ts.
Proof.
  intros grow static l cap cs sched sh ts G HC E.
  assert (X : forall sched st, rinv cs l st -> room l cap st -> Forall2 (saw_ok l) cs (snd st) -> Forall2 (saw_ok l) cs (snd (exec grow sched st))).
  { clear -G HC. induction sched as [|i r IH]; intros st H1 H2 H3; cbn [exec]; auto. apply IH.
    - exact (rinv_exec grow cs l [i] st G H1).
    - eapply room_step; eauto.
    - eapply saw_step; eauto. }
  specialize (X sched (start_state static l cap cs)). rewrite E in X. apply X.
  - apply rinv_start. lia.
  - unfold start_state, room. cbn. split; [auto|split; [auto|split; [auto|split]]].
    + exists []. rewrite app_nil_r. reflexivity.
    + intros j th Ej. apply nth_error_In in Ej. apply in_map_iff in Ej. destruct Ej as ([c|i] & <- & _); exact I.
  - cbn. clear. induction cs as [|c cs IH]; cbn; constructor; auto. destruct c; cbn; auto.
Qed.
