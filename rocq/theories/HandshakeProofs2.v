(** Proofs about trace collection: termination and the result. *)
From Coq Require Import List Bool Arith Lia Sorted.
From Verif Require Import Base BaseProofs Handshake HandshakeSpec HandshakeProofs.
Import ListNotations.
Open Scope nat_scope.

(** * The temporary file exists already *)

Definition inv_old (s : state) : Prop :=
  (c_pc s = CCreate /\ h_dir s = Some 0 \/ c_pc s = CEnd) /\ h_ino s = [None] /\ c_got s = [] /\
  Forall (fun e => forall k, e_pc e <> PUnlink k) (x_ex s).

Lemma inv_old_reach : forall c s, cf_old c = true -> reach c s -> inv_old s.
Proof.
  intros c s HO H. induction H as [|s s' _ (A1 & A2 & A3 & A4) HS].
  - unfold start. rewrite HO. unfold inv_old. cbn. destruct (more c 0); auto.
  - inversion HS as [s1 HC|l1 e l2 pc s1 HX HP|r t HT HA HE|HA HE]; subst.
    + inversion HC; subst; try (destruct A1 as [[A1 A1']|A1]; congruence); unfold inv_old, next; cbn; auto 10.
    + destruct (pstep_frame _ _ _ _ _ _ HP) as (F1 & F2 & F3 & F4 & F5 & F6 & F7 & F8).
      assert (HU : forall k, e_pc e <> PUnlink k).
      { rewrite HX in A4. apply Forall_app in A4. destruct A4 as [_ A4]. inversion A4; subst; assumption. }
      assert (HD : h_dir s1 = h_dir s).
      { inversion HP; subst; try reflexivity. exfalso. eapply HU. symmetry. eassumption. }
      unfold inv_old. cbn. rewrite F1, F3, F7, HD. split; [exact A1|]. split; [exact A2|]. split; [exact A3|].
      rewrite HX in A4. apply Forall_app in A4. destruct A4 as [B1 B2]. inversion B2; subst. apply Forall_app. split; [exact B1|].
      constructor; [|assumption]. cbn. intros k ->. inversion HP; subst.
      rewrite A2 in *. destruct n as [|[|n]]; cbn in *; congruence.
    + unfold inv_old. cbn. split; [exact A1|]. split; [exact A2|]. split; [exact A3|]. apply Forall_app. split; [exact A4|].
      repeat constructor. cbn. discriminate.
    + unfold inv_old. cbn. auto.
Qed.

(** * Termination *)

Definition w_pc (log : list chunk) (pc : ppc) : nat :=
  match pc with
  | PAccess => 20 + 3 * length log
  | PFopen => 19 + 3 * length log
  | PFgets _ false => 18 + 3 * length log
  | PFgets _ true => 17 + 3 * length log
  | PUnlink _ => 16 + 3 * length log
  | PPipe _ => 15 + 3 * length log
  | PRun _ r => 2 + 3 * length r
  | PFile => 1
  | PEnd _ => 0
  end.
Definition w_c (pc : cpc) : nat :=
  match pc with CCreate => 8 | CWrite _ => 6 | CWait => 5 | COpen => 4 | CPoll => 3 | CRead _ => 2 | CEnd => 0 end.
Definition w_ex (l : list exec) : nat := list_sum (map (fun e => w_pc (e_log e) (e_pc e)) l).
Definition weight (s : state) : nat :=
  w_c (c_pc s) + (match h_dir s with Some _ => 1 | None => 0 end) + 2 * length (p_buf s) + (if p_used s then 8 else 0) +
  (if x_alive s then 1 else 0) + w_ex (x_ex s) + list_sum (map (fun log => 30 + 3 * length log) (x_todo s)).

Record inv_t (s : state) : Prop := mkIT {
  t_run : Forall (fun e => forall k r, e_pc e = PRun k r -> k < c_i s \/ (k = c_i s /\ (c_pc s = CEnd \/ p_used s = true))) (x_ex s);
  t_buf : p_buf s <> [] -> p_used s = true;
  t_read : forall got, c_pc s = CRead got -> p_used s = true
}.

Lemma pipe_exists_true : forall k s, pipe_exists k s = true -> k = c_i s /\ c_pc s <> CEnd.
Proof.
  intros k s H. unfold pipe_exists in H. apply andb_true_iff in H. destruct H as [H1 H2]. apply Nat.eqb_eq in H1.
  split; [exact H1|]. intros E. rewrite E in H2. discriminate H2.
Qed.

Lemma inv_t_reach : forall c s, reach c s -> inv_t s.
Proof.
  intros c s H. induction H as [|s s' _ [A1 A2 A3] HS].
  - unfold start. constructor; cbn; [constructor|congruence|]. intros got. destruct (more c 0); discriminate.
  - inversion HS as [s1 HC|l1 e l2 pc s1 HX HP|r t HT HA HE|HA HE]; subst.
    + assert (HNx : forall b got, inv_t (next c b got s)).
      { intros b got. unfold next. destruct b; constructor; cbn; try congruence.
        - eapply Forall_impl; [|exact A1]. cbn. intros e He k r E. destruct (He k r E) as [X|[X _]]; lia.
        - intros g. destruct (more c _); discriminate.
        - eapply Forall_impl; [|exact A1]. cbn. intros e He k r E. destruct (He k r E) as [X|[X _]]; auto. }
      inversion HC; subst; try (apply HNx); constructor; cbn; try assumption; try congruence;
        try (eapply Forall_impl; [|exact A1]; cbn; intros e He k r' E; destruct (He k r' E) as [X|[X [Y|Y]]]; auto; congruence).
      * intros got _. destruct H0 as [H0|[H0 _]]; auto.
      * intros _. apply A3 with (got := got). assumption.
      * intros _ _. apply A3 with (got := got). assumption.
    + destruct (pstep_frame _ _ _ _ _ _ HP) as (F1 & F2 & F3 & F4 & F5 & F6 & F7 & F8).
      assert (HU : p_used s = true -> p_used s1 = true) by (inversion HP; subst; auto).
      assert (A1e : forall k r, e_pc e = PRun k r -> k < c_i s \/ (k = c_i s /\ (c_pc s = CEnd \/ p_used s = true))).
      { rewrite HX in A1. apply Forall_app in A1. destruct A1 as [_ A1]. inversion A1; subst; assumption. }
      constructor; cbn.
      * rewrite F1, F2. assert (A1' : Forall (fun e => forall k r, e_pc e = PRun k r -> k < c_i s \/ (k = c_i s /\ (c_pc s = CEnd \/ p_used s1 = true))) (x_ex s)).
        { eapply Forall_impl; [|exact A1]. cbn. intros a Ha k r E. destruct (Ha k r E) as [X|[X [Y|Y]]]; auto. }
        rewrite HX in A1'. apply Forall_app in A1'. destruct A1' as [B1 B2]. inversion B2; subst. apply Forall_app. split; [exact B1|].
        constructor; [|assumption]. cbn. intros k r E. subst pc. inversion HP; subst; cbn.
        -- match goal with X : pipe_exists _ _ = true |- _ => apply pipe_exists_true in X; destruct X as [-> _] end. auto.
        -- match goal with X : _ = e_pc e |- _ => destruct (A1e _ _ (eq_sym X)) as [Y|[Y [Z|Z]]] end; auto.
      * intros HB. inversion HP; subst; cbn in *; auto.
        match goal with X : _ = e_pc e, Y : pipe_exists _ _ = true |- _ =>
          apply pipe_exists_true in Y; destruct Y as [-> Y]; destruct (A1e _ _ (eq_sym X)) as [Z|[_ [Z|Z]]] end; [lia|contradiction|exact Z].
      * rewrite F1. intros got E. apply HU. eapply A3. exact E.
    + constructor; cbn; try assumption. apply Forall_app. split; [exact A1|]. repeat constructor. cbn. discriminate.
    + constructor; cbn; assumption.
Qed.

Lemma w_ex_app : forall a b, w_ex (a ++ b) = w_ex a + w_ex b.
Proof. intros. unfold w_ex. rewrite map_app, list_sum_app. reflexivity. Qed.
Lemma w_ex_cons : forall e b, w_ex (e :: b) = w_pc (e_log e) (e_pc e) + w_ex b.
Proof. reflexivity. Qed.

Lemma weight_next : forall c b got s, p_used s = true \/ (b = false /\ 0 < w_c (c_pc s)) -> 2 <= w_c (c_pc s) -> weight (next c b got s) < weight s.
Proof.
  intros c b got s H HW. unfold next, weight. destruct b; cbn [c_pc h_dir p_buf p_used x_alive x_ex x_todo length].
  - destruct H as [H|[H _]]; [|discriminate H]. rewrite H. destruct (more c (S (c_i s))); cbn [w_c]; lia.
  - cbn [w_c]. destruct (p_used s); lia.
Qed.

Ltac wcbn := unfold weight; cbn [c_pc h_dir p_buf p_used x_alive x_ex x_todo with_cpc].

Lemma weight_step : forall c s s', inv_t s -> step c s s' -> weight s' < weight s.
Proof.
  intros c s s' [A1 A2 A3] HS. inversion HS as [s1 HC|l1 e l2 pc s1 HX HP|r t HT HA HE|HA HE]; subst.
  - inversion HC as [E Hd|n E|E Hd|E Ha|Ht E|E|E Hr|got ch r E He Hb|got b E He|got E He Hb Hw|E Hd]; subst.
    + wcbn. rewrite E, Hd. cbn [w_c]. lia.
    + wcbn. rewrite E. cbn [w_c]. lia.
    + wcbn. rewrite E. cbn [w_c]. lia.
    + apply weight_next; rewrite E; cbn; [right; split; [reflexivity|lia]|lia].
    + cbn in E. destruct E as [E|[E|[E|[]]]]; apply weight_next; rewrite <- E; cbn; try (right; split; [reflexivity|lia]); lia.
    + wcbn. rewrite E. cbn [w_c]. lia.
    + wcbn. rewrite E. cbn [w_c]. lia.
    + wcbn. rewrite E, Hb. cbn [w_c length]. lia.
    + apply weight_next; [left; eapply A3; exact E|rewrite E; cbn; lia].
    + apply weight_next; [left; eapply A3; exact E|rewrite E; cbn; lia].
    + wcbn. rewrite E. destruct (h_dir s); [|congruence]. cbn [w_c]. lia.
  - unfold weight. cbn [with_ex c_pc h_dir p_buf p_used x_alive x_ex x_todo]. rewrite HX, !w_ex_app, !w_ex_cons. cbn [e_log e_pc].
    assert (G : forall pc0, pc0 = e_pc e -> pstep c s (e_log e) pc0 pc s1 ->
      w_c (c_pc s1) + (match h_dir s1 with Some _ => 1 | None => 0 end) + 2 * length (p_buf s1) + (if p_used s1 then 8 else 0) +
      (if x_alive s1 then 1 else 0) + w_pc (e_log e) pc + list_sum (map (fun log => 30 + 3 * length log) (x_todo s1)) <
      w_c (c_pc s) + (match h_dir s with Some _ => 1 | None => 0 end) + 2 * length (p_buf s) + (if p_used s then 8 else 0) +
      (if x_alive s then 1 else 0) + w_pc (e_log e) pc0 + list_sum (map (fun log => 30 + 3 * length log) (x_todo s))).
    { clear HP HS. intros pc0 E0 HP. inversion HP; subst; cbn [w_pc c_pc h_dir p_buf p_used x_alive x_todo];
        rewrite ?app_length; cbn [length]; try lia.
      - destruct eof; lia.
      - match goal with X : forall b, _ <> PEnd b |- _ =>
          destruct (e_pc e) as [| |n b|k|k|k r| |b]; cbn [w_pc]; try lia; [destruct b; lia|exfalso; exact (X b eq_refl)] end. }
    specialize (G _ eq_refl HP). lia.
  - unfold weight. cbn [c_pc h_dir p_buf p_used x_alive x_ex x_todo]. rewrite HT, w_ex_app, w_ex_cons.
    change (w_ex []) with 0. cbn [map list_sum fold_right w_pc e_log e_pc]. unfold list_sum. lia.
  - unfold weight. cbn [c_pc h_dir p_buf p_used x_alive x_ex x_todo]. rewrite HA. lia.
Qed.

Lemma steps_weight : forall c n s s', reach c s -> steps c n s s' -> n + weight s' <= weight s.
Proof.
  intros c n s s' HR HS. revert HR. induction HS as [s|n s s1 s2 H1 _ IH]; intros HR; [lia|].
  pose proof (weight_step _ _ _ (inv_t_reach _ _ HR) H1). specialize (IH (r_step _ _ _ HR H1)). lia.
Qed.

Lemma terminates : forall c n s, steps c n (start c) s -> n <= budget (cf_runs c).
Proof.
  intros c n s H. apply steps_weight in H; [|constructor]. unfold weight at 2 in H. unfold start in H.
  cbn [c_pc h_dir p_buf p_used x_alive x_ex x_todo] in H. unfold budget. change (w_ex []) with 0 in H. cbn [length] in H.
  assert (w_c (if more c 0 then CCreate else CEnd) <= 8) by (destruct (more c 0); cbn; lia).
  destruct (cf_old c); lia.
Qed.

(** * States in which nothing can happen *)

Lemma writer_steps : forall c s e, In e (x_ex s) -> writes_to (c_i s) e = true -> exists s', step c s s'.
Proof.
  intros c s e Hin Hw. unfold writes_to in Hw. destruct (e_pc e) as [| | | | |k r| |] eqn:E; try discriminate Hw.
  apply in_split in Hin. destruct Hin as (l1 & l2 & HX). destruct r as [|ch r].
  - eexists. eapply st_exec; [exact HX|]. rewrite E. apply p_exit.
  - destruct (pipe_exists k s) eqn:EP.
    + eexists. eapply st_exec; [exact HX|]. rewrite E. apply p_write. exact EP.
    + eexists. eapply st_exec; [exact HX|]. rewrite E. apply p_sigpipe. exact EP.
Qed.

Lemma read_steps : forall c s got, c_pc s = CRead got -> exists s', step c s s'.
Proof.
  intros c s got HC. destruct (rd_early (cf_reader c) got) as [b|] eqn:E.
  - eexists. apply st_collector. eapply c_early; eauto.
  - destruct (p_buf s) as [|ch r] eqn:B.
    + destruct (existsb (writes_to (c_i s)) (x_ex s)) eqn:W.
      * apply existsb_exists in W. destruct W as (e & Hin & Hw). eapply writer_steps; eauto.
      * eexists. apply st_collector. eapply c_eof; eauto.
    + eexists. apply st_collector. eapply c_read; eauto.
Qed.

Lemma final_with_timeouts : forall c s, cf_tmo c = true -> final c s -> c_pc s = CEnd.
Proof.
  intros c s HT HF. destruct (c_pc s) eqn:HC; [| | | | | |reflexivity]; exfalso.
  - eapply HF. apply st_collector. apply c_timeout; [exact HT|]. rewrite HC. cbn. auto.
  - eapply HF. apply st_collector. eapply c_write. exact HC.
  - eapply HF. apply st_collector. apply c_timeout; [exact HT|]. rewrite HC. cbn. auto.
  - eapply HF. apply st_collector. apply c_open. exact HC.
  - eapply HF. apply st_collector. apply c_timeout; [exact HT|]. rewrite HC. cbn. auto.
  - destruct (read_steps c s got HC) as (s' & H). exact (HF s' H).
Qed.

(** * The result of smooth runs *)

(** Execution number i is the one that uses pipe i. *)
Lemma in_pipe_log : forall c s got, inv c s -> cf_die c = false -> c_pc s = CRead got ->
  exists r, nth_error (cf_runs c) (c_i s) = Some (got ++ p_buf s ++ r) /\
    (existsb (writes_to (c_i s)) (x_ex s) = false -> r = []).
Proof.
  intros c s got [(js & D & a & H1 & H2 & H3 & H4 & H5 & H6 & HPh & HP & H7)] HDie HC.
  unfold phase in HPh. rewrite HC in HPh. destruct HPh as (HU & _ & _ & [(X & _)|(_ & j & HJ & Hj)]); [congruence|].
  specialize (HP HDie). rewrite HC, HU in HP. specialize (HP ltac:(discriminate)).
  assert (Hjp : j < passed D a).
  { destruct HJ as (log & _ & [(e & r & -> & -> & He & _)|(HL & _)]); unfold passed; [rewrite He; cbn; lia|lia]. }
  assert (j = c_i s).
  { assert (HLg : length (c_got s) = c_i s) by (rewrite <- H6, <- (seq_length (length (c_got s)) 0), <- (H7 HDie); reflexivity).
    assert (c_i s <= j); [|lia]. rewrite (H7 HDie), HLg in Hj. destruct (c_i s) as [|m]; [lia|].
    rewrite Forall_forall in Hj. specialize (Hj m). rewrite in_seq in Hj. lia. }
  subst j. destruct HJ as (log & HN & HJ). apply (nth_logs c s D a _ _ H1 H2) in HN.
  destruct HJ as [(e & r & -> & _ & He & ->)|(_ & _ & _ & E)].
  - exists r. rewrite app_assoc. split; [exact HN|]. intros W. exfalso. destruct H1 as (HX & HEn & _). rewrite HX in W.
    exact (no_writer (c_i s) D (Some e) HEn W e r eq_refl He).
  - exists []. rewrite app_nil_r, (E HDie). auto.
Qed.

(** Progress of the collection relative to [expected]. *)
Definition rest_num (c : config) (i : nat) : option nat := option_map (fun n => n - i) (cf_num c).

Definition inv_e (c : config) (s : state) : Prop :=
  let R := cf_reader c in
  match c_pc s with
  | CEnd => c_got s = expected R (cf_num c) (cf_runs c)
  | pc => more c (c_i s) = true /\
          expected R (cf_num c) (cf_runs c) = c_got s ++ expected R (rest_num c (c_i s)) (skipn (c_i s) (cf_runs c)) /\
          match pc with
          | CRead got => exists log rest, nth_error (cf_runs c) (c_i s) = Some log /\ log = got ++ rest /\
                           recorded R [] log = recorded R got rest
          | _ => True
          end
  end.

Lemma skipn_nth : forall A (l : list A) n x, nth_error l n = Some x -> skipn n l = x :: skipn (S n) l.
Proof. induction l as [|y l IH]; intros [|n] x H; cbn in *; try discriminate; [congruence|]. apply IH. exact H. Qed.

Lemma expected_cons : forall c i log, more c i = true -> nth_error (cf_runs c) i = Some log ->
  expected (cf_reader c) (rest_num c i) (skipn i (cf_runs c)) =
  match recorded (cf_reader c) [] log with
  | Some t => t :: expected (cf_reader c) (rest_num c (S i)) (skipn (S i) (cf_runs c))
  | None => []
  end.
Proof.
  intros c i log HM HN. rewrite (skipn_nth _ _ _ _ HN). unfold more in HM. unfold rest_num.
  destruct (cf_num c) as [n|]; cbn [option_map].
  - apply Nat.ltb_lt in HM. destruct (n - i) as [|m] eqn:E; [lia|]. cbn [expected option_map pred].
    replace (n - S i) with m by lia. reflexivity.
  - reflexivity.
Qed.

Lemma expected_zero : forall c i, more c i = false -> expected (cf_reader c) (rest_num c i) (skipn i (cf_runs c)) = [].
Proof.
  intros c i HM. unfold more in HM. unfold rest_num. destruct (cf_num c) as [n|]; [|discriminate HM]. cbn [option_map].
  apply Nat.ltb_ge in HM. replace (n - i) with 0 by lia. destruct (skipn i (cf_runs c)); reflexivity.
Qed.

Lemma inv_e_reach : forall c s, smooth c -> reach c s -> inv_e c s.
Proof.
  intros c s (HPar & HDie & HTmo & HSt & HO) H. induction H as [|s s' HR IH HS].
  - unfold inv_e, start. cbn [c_pc c_i c_got]. destruct (more c 0) eqn:HM; cbn [c_pc].
    + split; [reflexivity|]. split; [|exact I]. cbn [app skipn]. f_equal. unfold rest_num. destruct (cf_num c) as [n|]; [|reflexivity].
      cbn. rewrite Nat.sub_0_r. reflexivity.
    + apply expected_zero in HM. rewrite skipn_O in HM. rewrite <- HM. f_equal. unfold rest_num.
      destruct (cf_num c) as [n|]; [|reflexivity]. cbn. rewrite Nat.sub_0_r. reflexivity.
  - pose proof (inv_reach c s HPar HO HR) as HI.
    inversion HS as [s1 HC|l1 e l2 pc s1 HX HP|r t HT HA HE|HA HE]; subst.
    + inversion HC as [E Hd|n E|E Hd|E Ha|Ht E|E|E Hr|got ch r E He Hb|got b E He|got E He Hb Hw|E Hd]; subst;
        unfold inv_e in IH; try rewrite E in IH;
        try (unfold inv_e; cbn; exact IH).
      * (* the test process has exited *)
        destruct IH as (HM & HEx & _). unfold inv_e, next. cbn. rewrite HEx.
        destruct HI as [(js & D & a & H1 & H2 & H3 & H4 & H5 & H6 & HPh & HP & H7)].
        assert (G : x_todo s = [] /\ forallb ended (x_ex s) = true).
        { clear - HR Ha HDie. induction HR as [|s s' HR IH HS]; [discriminate Ha|].
          inversion HS as [s1 HC|l1 e l2 pc s1 HX HP|r t HT HA HE|HA HE]; subst.
          - inversion HC; subst; unfold next in *; cbn in *; auto; destruct b || destruct (rd_eof (cf_reader c) got); auto.
          - destruct (pstep_frame _ _ _ _ _ _ HP) as (_ & _ & _ & _ & F5 & F6 & _).
            cbn in Ha. rewrite F6 in Ha. destruct (IH Ha) as [_ IH2]. rewrite HX, forallb_app in IH2. cbn in IH2.
            apply andb_true_iff in IH2. destruct IH2 as [_ IH2]. apply andb_true_iff in IH2. destruct IH2 as [IH2 _].
            exfalso. unfold ended in IH2. pose proof (pstep_active _ _ _ _ _ _ HP) as HAc. destruct (e_pc e); try discriminate IH2.
            exact (HAc crashed eq_refl).
          - cbn in Ha. congruence.
          - cbn. auto. }
        destruct G as [GT GE]. pose proof (all_ended_none _ _ _ H1 GE) as ->.
        specialize (HP HDie). unfold phase in HPh. rewrite E in HPh, HP. destruct HPh as (_ & _ & HUs & _). rewrite HUs in HP.
        specialize (HP ltac:(discriminate)). unfold passed in HP. rewrite Nat.add_0_r, Nat.add_0_r in HP.
        assert (HL : length (cf_runs c) = c_i s).
        { rewrite <- H2, GT, app_nil_r, map_length. destruct H1 as (-> & _). cbn. rewrite app_nil_r. exact HP. }
        rewrite <- HL, skipn_all. destruct (rest_num c (length (cf_runs c))) as [[|?]|]; cbn; rewrite app_nil_r; reflexivity.
      * congruence.
      * destruct IH as (HM & HEx & _). unfold inv_e. cbn. split; [exact HM|]. split; [exact HEx|].
        assert (HIs : inv c (with_cpc (CRead []) s)) by (eapply inv_cstep; eauto).
        destruct (in_pipe_log _ _ [] HIs HDie eq_refl) as (r & HN & _). cbn in HN. eauto.
      * destruct IH as (HM & HEx & log & rest & HN & -> & HRec). unfold inv_e. cbn. split; [exact HM|]. split; [exact HEx|].
        destruct (in_pipe_log _ _ got HI HDie E) as (r' & HN' & _). rewrite HN in HN'. inversion HN' as [HQ].
        apply app_inv_head in HQ. rewrite Hb in HQ. cbn in HQ. subst rest.
        exists (got ++ ch :: r ++ r'), (r ++ r'). split; [exact HN|]. split; [rewrite <- app_assoc; reflexivity|].
        rewrite HRec. cbn [recorded]. rewrite He. reflexivity.
      * destruct IH as (HM & HEx & log & rest & HN & Hl & HRec).
        rewrite (expected_cons _ _ _ HM HN), HRec in HEx.
        assert (HRg : recorded (cf_reader c) got rest = if b then Some got else None) by (destruct rest; cbn; rewrite He; reflexivity).
        rewrite HRg in HEx. unfold inv_e, next. destruct b; cbn.
        -- destruct (more c (S (c_i s))) eqn:HM'; cbn.
           ++ split; [try exact HM'; reflexivity|]. rewrite <- app_assoc. split; [exact HEx|exact I].
           ++ rewrite (expected_zero _ _ HM') in HEx. symmetry. exact HEx.
        -- rewrite app_nil_r in HEx. symmetry. exact HEx.
      * destruct IH as (HM & HEx & log & rest & HN & Hl & HRec).
        rewrite (expected_cons _ _ _ HM HN), HRec in HEx.
        destruct (in_pipe_log _ _ got HI HDie E) as (r' & HN' & HW). rewrite (HW Hw), Hb in HN'. rewrite HN in HN'. inversion HN' as [HQ].
        rewrite Hl in HQ. apply app_inv_head in HQ. cbn in HQ. subst rest.
        cbn [recorded] in HEx. rewrite He in HEx. unfold inv_e, next. destruct (rd_eof (cf_reader c) got); cbn.
        -- destruct (more c (S (c_i s))) eqn:HM'; cbn.
           ++ split; [try exact HM'; reflexivity|]. rewrite <- app_assoc. split; [exact HEx|exact I].
           ++ rewrite (expected_zero _ _ HM') in HEx. symmetry. exact HEx.
        -- rewrite app_nil_r in HEx. symmetry. exact HEx.
    + destruct (pstep_frame _ _ _ _ _ _ HP) as (F1 & F2 & F3 & _). unfold inv_e in *. cbn. rewrite F1, F2, F3. exact IH.
    + exact IH.
    + exact IH.
Qed.

Lemma final_smooth : forall c s, smooth c -> reach c s -> final c s -> c_pc s = CEnd.
Proof.
  intros c s (HPar & HDie & HTmo & HSt & HO) HR HF.
  destruct (inv_reach c s HPar HO HR) as [(js & D & a & H1 & H2 & H3 & H4 & H5 & H6 & HPh & HP & H7)].
  assert (Ex : forall e pc s', a = Some e -> pstep c s (e_log e) (e_pc e) pc s' -> False).
  { intros e pc s' -> H. destruct H1 as (HX & _). eapply HF. eapply st_exec; [exact HX|exact H]. }
  assert (HN : a = None -> x_alive s = true -> False).
  { intros -> HA. destruct H1 as (HX & HD & _). cbn in HX. rewrite app_nil_r in HX.
    destruct (x_todo s) as [|r t] eqn:HT.
    - eapply HF. apply st_exit; [exact HA|]. intros _. rewrite HX. auto.
    - eapply HF. eapply st_start; [exact HT|exact HA|]. intros _. rewrite HX. exact HD. }
  assert (HRun : forall e k r, a = Some e -> e_pc e = PRun k r -> False).
  { intros e k r -> He. destruct r as [|ch r].
    - eapply Ex; [reflexivity|]. rewrite He. apply p_exit.
    - destruct (pipe_exists k s) eqn:EP; eapply Ex; try reflexivity; rewrite He; [apply p_write|apply p_sigpipe]; exact EP. }
  unfold phase in HPh. destruct (c_pc s) eqn:HC; [| | | | | |reflexivity]; exfalso.
  - eapply HF. apply st_collector. apply c_create; [exact HC|]. apply HPh.
  - eapply HF. apply st_collector. eapply c_write. exact HC.
  - destruct HPh as (A1 & A2 & A3 & A4). destruct (h_dir s) as [n|] eqn:Hd; [|eapply HF; apply st_collector; apply c_gone; assumption].
    destruct A4 as (A4 & A5). destruct a as [e|].
    + destruct A5 as [[[A5|(k & r & A5 & _)]|(e0 & E & [A5|(b & A5)])]|(e0 & E & A5)]; try (inversion E; subst e0).
      * eapply Ex; [reflexivity|]. rewrite A5. eapply p_access. exact Hd.
      * eapply HRun; eauto.
      * eapply Ex; [reflexivity|]. rewrite A5. eapply p_fopen. exact Hd.
      * eapply Ex; [reflexivity|]. rewrite A5. eapply p_fgets; [exact A4|congruence].
      * eapply Ex; [reflexivity|]. rewrite A5. apply p_unlink.
    + destruct (x_alive s) eqn:HA; [eauto|]. eapply HF. apply st_collector. apply c_exited; assumption.
  - eapply HF. apply st_collector. apply c_open. exact HC.
  - destruct HPh as (B1 & B2 & [(U & B & _ & [(e & -> & He)|(X & _)])|(U & j & (log & HNl & [(e & r & -> & -> & He & _)|(HL & He & _)]) & _)]).
    + eapply Ex; [reflexivity|]. rewrite He. apply p_open; [apply pe_cur; rewrite HC; discriminate|exact B1].
    + congruence.
    + eapply HRun; eauto.
    + eapply HF. apply st_collector. apply c_poll; [exact HC|]. right. split; [exact U|].
      destruct H1 as (HX & HD & _). rewrite HX, existsb_app. apply orb_false_iff. split.
      * clear - HD. induction D as [|d D IH]; [reflexivity|]. cbn in *. apply andb_true_iff in HD. destruct HD as [Hd HD].
        rewrite (IH HD), orb_false_r. unfold ended in Hd. unfold writes_to. destruct (e_pc d); try discriminate Hd. reflexivity.
      * destruct a as [e|]; [|reflexivity]. cbn. unfold writes_to. rewrite He. reflexivity.
  - destruct (read_steps c s got HC) as (s' & H). exact (HF s' H).
Qed.
