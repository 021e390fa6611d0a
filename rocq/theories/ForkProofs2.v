(** Programs that fork: the invariant. *)
From Coq Require Import Permutation.
From Verif Require Import BaseProofs Types Instr InstrRun InstrSpec Fork ForkSpec ForkProofs.

Section Forks.
Variable code : list (list istmt).
Variables B P : N.
Hypothesis BP : B <= P.
Variable H : list byte.
Variable start : list (list item).
Variable strict : bool.
Notation bytes_of := (bytes_of code).
Notation idle := (idle code B).
Notation core := (core code B).
Notation small := (small code B).

(** A process once the header is in the file. *)
Definition proc_ok (p : proc) (its : list (list item)) : Prop :=
  exists m, core (q_lock p) (q_threads p) its m /\
  match m with
  | MFree | MEnd => q_out p = [] /\ q_buf p = []
  | MIn e part => q_out p = [] /\ q_buf p = part
  | MOut e => q_out p = [bytes_of e] /\ q_buf p = []
  end.
(** The only process, before that. *)
Definition first_ok (file : list byte) (p : proc) : Prop :=
  exists m, core (q_lock p) (q_threads p) start m /\
  match m with
  | MFree => file ++ concat (q_out p) ++ q_buf p = H
  | MIn e part => file ++ concat (q_out p) ++ q_buf p = H ++ part
  | MOut e => q_out p <> [] /\ q_buf p = [] /\ file ++ concat (q_out p) = H ++ bytes_of e
  | MEnd => False
  end.
Definition dead_ok (it : list item) : Prop := strict = true -> over it.

Inductive inv : fstate -> Prop :=
| inv_all : forall procs its dead order, interleaving start order (concat its ++ dead) -> Forall2 proc_ok procs its ->
    Forall dead_ok dead -> Forall small order -> inv (mkFs (H ++ concat (map bytes_of order)) procs)
| inv_first : forall file p, first_ok file p -> inv (mkFs file [p])
| inv_exited : forall file out, file ++ concat out = H -> Forall dead_ok start -> inv (mkFs file [mkPr [] out None []])
| inv_died : forall file more e, strict = false -> small e -> file ++ more = H ++ bytes_of e -> inv (mkFs file [mkPr [] [] None []])
| inv_died0 : forall file more, strict = false -> file ++ more = H -> inv (mkFs file [mkPr [] [] None []]).

Lemma small_nonempty : forall e, small e -> bytes_of e <> [].
Proof. intros e (ws & E & N & _). rewrite (bytes_acts _ _ _ E). auto. Qed.
Lemma small_len : forall e, small e -> lenN (bytes_of e) <= B.
Proof. intros e (ws & E & _ & S). rewrite (bytes_acts _ _ _ E). auto. Qed.
Lemma flush_cons : forall l, l <> [] -> flush l = [l].
Proof. destruct l; cbn; congruence. Qed.
Lemma core_small : forall L T I e, core L T I (MOut e) -> small e.
Proof. intros L T I e C. inversion C; subst; auto. Qed.
Lemma core_small_in : forall L T I e part, core L T I (MIn e part) -> small e /\ exists more, bytes_of e = part ++ more.
Proof.
  intros L T I e part C. inversion C as [|t1 t2 b l1 l2 q e0 ws1 ws2 F1 F2 Q E N S| |]; subst. split; [exists (ws1 ++ ws2); auto|].
  exists (concat ws2). rewrite (bytes_acts _ _ _ E). apply concat_app.
Qed.

(** The threads of a process that exits. *)
Lemma exit_over : forall I T, Forall2 idle I T -> Forall (fun t => t = [] \/ exists r, t = PExit :: r) T -> Forall over I.
Proof.
  intros I T F. induction F as [|it t I T X F IH]; intros A; constructor; inversion A as [|? ? A1 A2]; subst; auto.
  destruct A1 as [->|[r ->]]; [left; eapply idle_nil; eauto|right]. destruct (idle_exit _ _ _ _ X) as [ir ->]. eauto.
Qed.

Definition step_ok (s : fstate) (l : flabel) : Prop := orderly s l /\ (strict = true -> peaceful s l).

Lemma mid_perm : forall A (i1 i2 : list (list A)) x r y z (l1 l2 : list A),
  x = l1 ++ y :: l2 -> r = l1 ++ z :: l2 -> forall dead,
  Permutation (concat (i1 ++ x :: i2) ++ dead) (y :: (l1 ++ l2 ++ concat i1 ++ concat i2 ++ dead)) /\
  Permutation (concat (i1 ++ r :: i2) ++ dead) (z :: (l1 ++ l2 ++ concat i1 ++ concat i2 ++ dead)).
Proof.
  intros A i1 i2 x r y z l1 l2 -> -> dead.
  assert (G : forall w, Permutation (concat (i1 ++ (l1 ++ w :: l2) :: i2) ++ dead) (w :: (l1 ++ l2 ++ concat i1 ++ concat i2 ++ dead))).
  { intros w. rewrite concat_app. cbn [concat]. rewrite <- !app_assoc. cbn [app].
    symmetry. rewrite (app_assoc (concat i1) l1). apply Permutation_cons_app.
    rewrite <- (app_assoc (concat i1) l1), (app_assoc l1 l2 (concat i1 ++ _)), (app_assoc l1 l2 (concat i2 ++ dead)). apply Permutation_app_swap_app. }
  auto.
Qed.

(** Replacing a process by one in a state that fits. *)
Lemma put_back : forall i1 i2 p1 p2 p' its, Forall2 proc_ok p1 i1 -> Forall2 proc_ok p2 i2 -> proc_ok p' its ->
  Forall2 proc_ok (p1 ++ p' :: p2) (i1 ++ its :: i2).
Proof. intros. apply Forall2_app; auto. Qed.

Lemma step_all : forall procs its dead order l s', interleaving start order (concat its ++ dead) -> Forall2 proc_ok procs its ->
  Forall dead_ok dead -> Forall small order ->
  step_ok (mkFs (H ++ concat (map bytes_of order)) procs) l ->
  fstep B P (mkFs (H ++ concat (map bytes_of order)) procs) l s' -> inv s'.
Proof.
  intros procs its dead order l s' HI F D SM OK ST.
  assert (SPLIT : forall i p, nth_error procs i = Some p -> exists p1 p2 i1 x i2, procs = p1 ++ p :: p2 /\ length p1 = i /\ its = i1 ++ x :: i2 /\
    Forall2 proc_ok p1 i1 /\ proc_ok p x /\ Forall2 proc_ok p2 i2).
  { intros i p HP. apply nth_at in HP. destruct HP as (p1 & p2 & -> & L). apply Forall2_app_inv_l in F.
    destruct F as (i1 & q & F1 & F2 & ->). inversion F2; subst. do 5 eexists. repeat match goal with |- _ /\ _ => split end; eauto. }
  inversion ST as [? ? i p w1 w2 ws HP HO W1 W2|? ? i p j r HP HO HT HL|? ? i p j r HP HO HT|? ? i p j bs r HP HO HT|? ? i p j r HP HO HT
    |? ? i p j c r HP HO HT|? ? i p j r HP HO HT|? ? i p HP]; subst;
    destruct (SPLIT _ _ HP) as (p1 & p2 & i1 & x & i2 & -> & <- & -> & F1 & (m & C & M) & F2); rewrite update_mid.
  - (* write *)
    destruct m as [|e part|e|]; destruct M as [M1 M2]; rewrite HO in M1; try discriminate. injection M1 as M1 ->.
    pose proof (core_small _ _ _ _ C) as SE. assert (w2 = []). { apply W2. rewrite M1. pose proof (small_len e SE). lia. }
    subst w2. rewrite app_nil_r in M1. subst w1. cbn [flush app].
    destruct (core_done _ _ _ _ _ _ C) as (l1 & r & l2 & -> & C').
    destruct (mid_perm _ i1 i2 _ _ (IPass e :: r) r l1 l2 eq_refl eq_refl dead) as [PM1 PM2].
    replace ((H ++ concat (map bytes_of order)) ++ bytes_of e) with (H ++ concat (map bytes_of (order ++ [e])))
      by (rewrite map_app, concat_app; cbn [map concat]; now rewrite app_nil_r, app_assoc).
    apply (inv_all _ (i1 ++ (l1 ++ r :: l2) :: i2) dead).
    + eapply history_perm; [|symmetry; exact PM2]. eapply history_pass; eauto.
    + apply put_back; auto. exists MEnd. cbn. auto.
    + auto.
    + apply Forall_app. auto.
  - (* lock *)
    rewrite HL in C. destruct (core_lock _ _ _ _ _ _ _ C HT) as (-> & e & C'). apply (inv_all _ (i1 ++ x :: i2) dead); auto.
    apply put_back; auto. exists (MIn e []). cbn. tauto.
  - (* unlock *)
    destruct (core_unlock _ _ _ _ _ _ _ _ C HT) as [(-> & C')|(e & ->)].
    + apply (inv_all _ (i1 ++ x :: i2) dead); auto. apply put_back; auto. exists MFree. cbn. tauto.
    + destruct M as [M1 _]. congruence.
  - (* write to the stream *)
    destruct (core_write _ _ _ _ _ _ _ _ _ C HT) as (e & part & -> & C' & S). destruct M as [_ M2]. subst part.
    rewrite fput_fits by auto. cbn [fst snd]. apply (inv_all _ (i1 ++ x :: i2) dead); auto. apply put_back; auto.
    exists (MIn e (q_buf p ++ bs)). cbn. auto.
  - (* flush *)
    destruct (core_flush _ _ _ _ _ _ _ _ C HT) as (e & -> & C' & SE). destruct M as [_ M2]. rewrite M2, flush_cons by auto using small_nonempty.
    apply (inv_all _ (i1 ++ x :: i2) dead); auto. apply put_back; auto. exists (MOut e). cbn. auto.
  - (* fork *)
    destruct OK as [[O1 O2] _]. pose proof (O1 p) as LK. cbn [f_procs] in LK. rewrite nth_mid in LK. specialize (LK eq_refl). rewrite LK in *.
    destruct (core_fork _ _ _ _ _ _ _ _ C HT) as (-> & l1 & ic & ir & l2 & -> & C' & ID). destruct M as [_ M2]. rewrite M2.
    destruct (mid_perm _ i1 i2 _ _ (IFork ic :: ir) ir l1 l2 eq_refl eq_refl dead) as [PM1 PM2].
    apply (inv_all _ ((i1 ++ (l1 ++ ir :: l2) :: i2) ++ [[ic]]) dead); auto.
    + eapply history_perm; [eapply history_fork; eauto|]. rewrite concat_app. cbn [concat]. rewrite <- app_assoc. cbn [app].
      etransitivity; [constructor; symmetry; exact PM2|]. apply Permutation_middle.
    + apply Forall2_app; [apply put_back; auto; exists MFree; cbn; auto|]. constructor; [|constructor].
      exists MFree. cbn. split; auto. constructor. auto.
  - (* exit *)
    destruct OK as [O1 O2]. pose proof (O1 p) as LK. cbn [f_procs] in LK. rewrite nth_mid in LK. specialize (LK eq_refl).
    destruct (core_none _ _ _ _ _ _ C LK) as [-> FI]. destruct M as [_ M2]. rewrite M2. cbn [flush].
    apply (inv_all _ (i1 ++ [] :: i2) (x ++ dead)); auto.
    + eapply history_perm; [exact HI|]. rewrite !concat_app. cbn [concat app]. rewrite <- !app_assoc. apply Permutation_app_head. rewrite !app_assoc.
      apply Permutation_app_tail. apply Permutation_app_comm.
    + apply put_back; auto. exists MFree. cbn. split; auto. constructor. constructor.
    + apply Forall_app. split; auto. apply Forall_forall. intros it IN ST1. destruct (O2 ST1) as [_ A]. specialize (A p). cbn [f_procs] in A.
      rewrite nth_mid in A. specialize (A eq_refl). pose proof (exit_over _ _ FI A) as Z. rewrite Forall_forall in Z. auto.
  - (* death *)
    destruct OK as [_ O2]. apply (inv_all _ (i1 ++ [] :: i2) (x ++ dead)); auto.
    + eapply history_perm; [exact HI|]. rewrite !concat_app. cbn [concat app]. rewrite <- !app_assoc. apply Permutation_app_head. rewrite !app_assoc.
      apply Permutation_app_tail. apply Permutation_app_comm.
    + apply put_back; auto. exists MFree. cbn. split; auto. constructor. constructor.
    + apply Forall_app. split; auto. apply Forall_forall. intros it IN ST1. destruct (O2 ST1) as [_ []].
Qed.

(** The header has reached the file. *)
Lemma arrive : forall file p, core (q_lock p) (q_threads p) start MFree -> file = H -> q_out p = [] -> q_buf p = [] -> inv (mkFs file [p]).
Proof.
  intros file p C -> E1 E2. replace H with (H ++ concat (map bytes_of [])) by (cbn; apply app_nil_r).
  apply (inv_all _ [start] []); auto; cbn [concat]; rewrite ?app_nil_r; try constructor; auto.
  exists MFree. auto.
Qed.
Lemma arrive_end : forall file p e, core (q_lock p) (q_threads p) start (MOut e) -> file = H ++ bytes_of e -> q_out p = [] -> q_buf p = [] -> inv (mkFs file [p]).
Proof.
  intros file p e C -> E1 E2. pose proof (core_small _ _ _ _ C) as SE. destruct (core_done _ _ _ _ _ _ C) as (l1 & r & l2 & ES & C').
  replace (H ++ bytes_of e) with (H ++ concat (map bytes_of [e])) by (cbn; now rewrite app_nil_r).
  apply (inv_all _ [l1 ++ r :: l2] []); auto; cbn [concat]; rewrite ?app_nil_r.
  - rewrite ES. change [e] with ([] ++ [e]). eapply history_perm.
    + eapply history_pass; [apply hi_end|]. symmetry. apply Permutation_middle.
    + apply Permutation_middle.
  - constructor; [|constructor]. exists MEnd. auto.
Qed.

Lemma one : forall (p q : proc) i, nth_error [p] i = Some q -> i = O /\ q = p.
Proof. intros p q [|[|i]] E; cbn in E; try discriminate. injection E as ->. auto. Qed.

Lemma step_first : forall file p l s', first_ok file p -> step_ok (mkFs file [p]) l -> fstep B P (mkFs file [p]) l s' -> inv s'.
Proof.
  intros file p l s' (m & C & M) OK ST.
  inversion ST as [? ? i q w1 w2 ws HP HO W1 W2|? ? i q j r HP HO HT HL|? ? i q j r HP HO HT|? ? i q j bs r HP HO HT|? ? i q j r HP HO HT
    |? ? i q j c r HP HO HT|? ? i q j r HP HO HT|? ? i q HP]; subst; destruct (one _ _ _ HP) as [-> ->]; cbn [update].
  - (* write *)
    assert (EQ : (file ++ w1) ++ concat (flush w2 ++ ws) = file ++ concat (q_out p)).
    { rewrite HO. cbn [concat]. rewrite concat_app, flush_bytes. now rewrite !app_assoc. }
    destruct m as [|e part|e|].
    + apply inv_first. exists MFree. cbn [q_lock q_threads q_out q_buf]. split; auto. rewrite app_assoc, EQ, <- app_assoc. auto.
    + apply inv_first. exists (MIn e part). cbn [q_lock q_threads q_out q_buf]. split; auto. rewrite app_assoc, EQ, <- app_assoc. auto.
    + destruct M as (M1 & M2 & M3). destruct (flush w2 ++ ws) as [|y ys] eqn:OUT.
      * eapply arrive_end; cbn [q_lock q_threads q_out q_buf]; eauto. rewrite <- M3, <- EQ. cbn. now rewrite app_nil_r.
      * apply inv_first. exists (MOut e). cbn [q_lock q_threads q_out q_buf]. split; auto. split; [discriminate|]. split; auto. congruence.
    + contradiction.
  - rewrite HL in C. destruct (core_lock _ _ _ _ _ _ _ C HT) as (-> & e & C'). apply inv_first. exists (MIn e []). cbn [q_lock q_threads q_out q_buf].
    split; auto. rewrite app_nil_r. rewrite HO in M. auto.
  - destruct (core_unlock _ _ _ _ _ _ _ _ C HT) as [(-> & C')|(e & ->)]; [contradiction|]. destruct M as [M1 _]. congruence.
  - destruct (core_write _ _ _ _ _ _ _ _ _ C HT) as (e & part & -> & C' & S). apply inv_first. exists (MIn e (part ++ bs)).
    cbn [q_lock q_threads q_out q_buf]. split; auto. rewrite fput_bytes. rewrite HO in M. cbn [concat app] in M. rewrite !app_assoc, M. reflexivity.
  - destruct (core_flush _ _ _ _ _ _ _ _ C HT) as (e & -> & C' & SE). rewrite HO in M. cbn [concat app] in M.
    destruct (q_buf p) as [|b0 b1] eqn:EB.
    + cbn [flush]. eapply arrive_end; cbn [q_lock q_threads q_out q_buf]; eauto. now rewrite app_nil_r in M.
    + apply inv_first. exists (MOut e). cbn [q_lock q_threads q_out q_buf flush]. split; auto. split; [discriminate|]. split; auto.
      cbn [concat]. now rewrite app_nil_r.
  - (* fork: the buffer is empty *)
    pose proof OK as [[O1 O2] _]. specialize (O1 p eq_refl). specialize (O2 p eq_refl).
    destruct (core_none _ _ _ _ _ _ C O1) as [-> _]. rewrite HO, O2 in M. cbn [concat app] in M. rewrite app_nil_r in M.
    rewrite O1 in C.
    assert (X : inv (mkFs file [p])). { apply arrive; auto. now rewrite O1. }
    clear X. replace H with (H ++ concat (map bytes_of [])) in M by (cbn; apply app_nil_r). subst file.
    eapply (step_all [p] [start] [] []); auto; try exact OK; try exact ST; cbn [concat]; rewrite ?app_nil_r; try constructor; auto.
    exists MFree. rewrite O1. auto.
  - (* exit *)
    destruct OK as [O1 O2]. specialize (O1 p eq_refl). destruct (core_none _ _ _ _ _ _ C O1) as [-> FI].
    apply inv_exited; [rewrite flush_bytes; rewrite HO in M; exact M|].
    apply Forall_forall. intros it IN ST1. destruct (O2 ST1) as [_ A]. specialize (A p eq_refl).
    pose proof (exit_over _ _ FI A) as Z. rewrite Forall_forall in Z. auto.
  - (* death *)
    destruct OK as [_ O2]. assert (SF : strict = false) by (destruct strict; auto; destruct (O2 eq_refl) as [_ []]).
    destruct m as [|e part|e|].
    + eapply inv_died0; eauto.
    + destruct (core_small_in _ _ _ _ _ C) as (SE & more & E). eapply (inv_died _ ((concat (q_out p) ++ q_buf p) ++ more) e); auto.
      rewrite E, (app_assoc H), <- M. now rewrite <- !app_assoc.
    + pose proof (core_small _ _ _ _ C) as SE. destruct M as (_ & _ & M). eapply inv_died; eauto.
    + contradiction.
Qed.

Lemma inv_step : forall s l s', inv s -> step_ok s l -> fstep B P s l s' -> inv s'.
Proof.
  intros s l s' I OK ST. destruct I as [procs its dead order HI F D SM|file p FO|file out E D|file more e SF SE E|file more SF E].
  - eapply step_all; eauto.
  - eapply step_first; eauto.
  - inversion ST as [? ? i q w1 w2 ws HP HO W1 W2|? ? i q j r HP HO HT HL|? ? i q j r HP HO HT|? ? i q j bs r HP HO HT|? ? i q j r HP HO HT
    |? ? i q j c r HP HO HT|? ? i q j r HP HO HT|? ? i q HP]; subst; destruct (one _ _ _ HP) as [-> ->]; cbn [q_threads] in *;
    try (destruct j; discriminate HT).
    + cbn [update q_out q_buf q_lock] in *. subst out. apply inv_exited; auto. rewrite concat_app, flush_bytes.
      rewrite <- E. cbn [concat]. now rewrite !app_assoc.
    + destruct OK as [_ O2]. assert (SF : strict = false) by (destruct strict; auto; destruct (O2 eq_refl) as [_ []]).
      cbn [update]. eapply inv_died0; eauto.
  - inversion ST as [? ? i q w1 w2 ws HP HO W1 W2|? ? i q j r HP HO HT HL|? ? i q j r HP HO HT|? ? i q j bs r HP HO HT|? ? i q j r HP HO HT
    |? ? i q j c r HP HO HT|? ? i q j r HP HO HT|? ? i q HP]; subst; destruct (one _ _ _ HP) as [-> ->]; cbn [q_threads q_out] in *;
    try (destruct j; discriminate HT); try discriminate. cbn [update]. eapply inv_died; eauto.
  - inversion ST as [? ? i q w1 w2 ws HP HO W1 W2|? ? i q j r HP HO HT HL|? ? i q j r HP HO HT|? ? i q j bs r HP HO HT|? ? i q j r HP HO HT
    |? ? i q j c r HP HO HT|? ? i q j r HP HO HT|? ? i q HP]; subst; destruct (one _ _ _ HP) as [-> ->]; cbn [q_threads q_out] in *;
    try (destruct j; discriminate HT); try discriminate. cbn [update]. eapply inv_died0; eauto.
Qed.
End Forks.
