(** Proofs about trace collection: executions one after the other. *)
From Coq Require Import List Bool Arith Lia Sorted.
From Verif Require Import Base BaseProofs Handshake HandshakeSpec.
Import ListNotations.
Open Scope nat_scope.

Definition pre (pc : ppc) : bool :=
  match pc with PAccess | PFopen | PFgets _ _ | PUnlink _ | PPipe _ => true | _ => false end.

Definition cur (a : option exec) : list exec := match a with Some e => [e] | None => [] end.

(** Split of the executions: those that have ended, and the one that is active. *)
Definition seqd (s : state) (D : list exec) (a : option exec) : Prop :=
  x_ex s = D ++ cur a /\ forallb ended D = true /\
  match a with Some e => ended e = false | None => True end.

(** Executions that are beyond the handshake. *)
Definition passed (D : list exec) (a : option exec) : nat :=
  length D + match a with Some e => if pre (e_pc e) then 0 else 1 | None => 0 end.

(** The active execution is not concerned with the handshake of iteration [i]. *)
Definition idle (i : nat) (a : option exec) : Prop :=
  match a with
  | None => True
  | Some e => e_pc e = PAccess \/ exists k r, e_pc e = PRun k r /\ k < i
  end.

Definition at_file (n : nat) (i : nat) (a : option exec) : Prop :=
  idle i a \/ exists e, a = Some e /\ (e_pc e = PFopen \/ exists b, e_pc e = PFgets n b).

(** Before an execution has opened the pipe of iteration [i]. *)
Definition unused (c : config) (i : nat) (a : option exec) : Prop :=
  (exists e, a = Some e /\ e_pc e = PPipe i) \/
  (cf_die c = true /\ match a with None => True | Some e => e_pc e = PAccess end).

(** Execution [j] writes, or has written, to the pipe of iteration [i]. *)
Definition user (c : config) (i : nat) (data : list chunk) (D : list exec) (a : option exec) (j : nat) : Prop :=
  exists log, nth_error (map e_log (D ++ cur a)) j = Some log /\
  ((exists e r, a = Some e /\ j = length D /\ e_pc e = PRun i r /\ log = data ++ r) \/
   (j < length D /\ match a with None => True | Some e => e_pc e = PAccess end /\
    begins data log /\ (cf_die c = false -> data = log))).

Definition in_pipe (c : config) (s : state) (got : list chunk) (js : list nat) (D : list exec) (a : option exec) : Prop :=
  p_rd s = true /\ h_dir s = None /\
  ((p_used s = false /\ p_buf s = [] /\ got = [] /\ unused c (c_i s) a) \/
   (p_used s = true /\ exists j, user c (c_i s) (got ++ p_buf s) D a j /\ Forall (fun x => x < j) js)).

Definition phase (c : config) (s : state) (js : list nat) (D : list exec) (a : option exec) : Prop :=
  match c_pc s with
  | CEnd => True
  | CCreate => p_buf s = [] /\ p_rd s = false /\ p_used s = false /\ h_dir s = None /\ idle (c_i s) a
  | CWrite n => p_buf s = [] /\ p_rd s = false /\ p_used s = false /\ h_dir s = Some n /\
                nth_error (h_ino s) n = Some None /\ at_file n (c_i s) a
  | CWait => p_buf s = [] /\ p_rd s = false /\ p_used s = false /\
             match h_dir s with
             | Some n => nth_error (h_ino s) n = Some (Some (c_i s)) /\
                         (at_file n (c_i s) a \/ exists e, a = Some e /\ e_pc e = PUnlink (c_i s))
             | None => unused c (c_i s) a
             end
  | COpen => p_buf s = [] /\ p_rd s = false /\ p_used s = false /\ h_dir s = None /\ unused c (c_i s) a
  | CPoll => in_pipe c s [] js D a
  | CRead got => p_used s = true /\ in_pipe c s got js D a
  end.

(** A trace and the execution it comes from. *)
Definition from (c : config) (t : list chunk) (j : nat) : Prop :=
  exists log, nth_error (cf_runs c) j = Some log /\ begins t log /\
    ((rd_early (cf_reader c) t = None /\ rd_eof (cf_reader c) t = true /\ (cf_die c = false -> t = log)) \/
     rd_early (cf_reader c) t = Some true).

Record inv (c : config) (s : state) : Prop := mkInv {
  i_body : exists js D a,
    seqd s D a /\
    map e_log (x_ex s) ++ x_todo s = cf_runs c /\
    StronglySorted lt js /\ Forall (fun j => j < passed D a) js /\
    Forall2 (from c) (c_got s) js /\
    length js = c_i s /\
    phase c s js D a /\
    (cf_die c = false -> c_pc s <> CEnd -> passed D a = c_i s + (if p_used s then 1 else 0)) /\
    (cf_die c = false -> js = seq 0 (length (c_got s)))
}.

Lemma sorted_snoc : forall l x, StronglySorted lt l -> Forall (fun y => y < x) l -> StronglySorted lt (l ++ [x]).
Proof.
  induction l as [|y l IH]; intros x HS HF; cbn [app]; [repeat constructor|].
  apply StronglySorted_inv in HS. destruct HS as [HS HY]. inversion HF as [|? ? Hy HF']; subst.
  constructor; [auto|]. apply Forall_app. auto.
Qed.

Lemma set_nth_same : forall A (l : list A) n x, n < length l -> nth_error (set_nth l n x) n = Some x.
Proof.
  intros A l n x H. unfold set_nth. rewrite nth_error_app2; rewrite firstn_length_le; try lia.
  rewrite Nat.sub_diag. reflexivity.
Qed.

Lemma inv_start : forall c, cf_old c = false -> inv c (start c).
Proof.
  intros c HO. constructor. exists [], [], None. unfold start. rewrite HO. cbn.
  split; [split; [reflexivity|split; [reflexivity|exact I]]|].
  split; [reflexivity|]. split; [constructor|]. split; [constructor|]. split; [constructor|].
  split; [reflexivity|]. split.
  - unfold phase. cbn. destruct (more c 0); cbn; auto.
  - split; reflexivity.
Qed.

(** No execution writes to the pipe. *)
Lemma no_writer : forall i D a, forallb ended D = true ->
  existsb (writes_to i) (D ++ cur a) = false ->
  forall e r, a = Some e -> e_pc e <> PRun i r.
Proof.
  intros i D a HD H e r -> HP. rewrite existsb_app in H. apply orb_false_iff in H. destruct H as [_ H].
  cbn in H. unfold writes_to in H. rewrite HP, Nat.eqb_refl in H. discriminate H.
Qed.

Lemma nth_logs : forall c s D a j log, seqd s D a -> map e_log (x_ex s) ++ x_todo s = cf_runs c ->
  nth_error (map e_log (D ++ cur a)) j = Some log ->
  nth_error (cf_runs c) j = Some log.
Proof.
  intros c s D a j log (HX & _ & _) HL HN. rewrite <- HL, HX.
  rewrite nth_error_app1; [exact HN|]. apply nth_error_Some. congruence.
Qed.

(** The end of an iteration. *)
Lemma inv_fail : forall c s js D a got, seqd s D a -> map e_log (x_ex s) ++ x_todo s = cf_runs c ->
  StronglySorted lt js -> Forall (fun j => j < passed D a) js -> Forall2 (from c) (c_got s) js -> length js = c_i s ->
  (cf_die c = false -> js = seq 0 (length (c_got s))) -> inv c (next c false got s).
Proof.
  intros c s js D a got H1 H2 H3 H4 H5 H6 H7. constructor. exists js, D, a. unfold next. cbn.
  split; [exact H1|]. split; [exact H2|]. split; [exact H3|]. split; [exact H4|]. split; [exact H5|].
  split; [exact H6|]. split; [exact I|]. split; [intros _ X; contradiction|exact H7].
Qed.

Lemma inv_added : forall c s js D a got, seqd s D a -> map e_log (x_ex s) ++ x_todo s = cf_runs c ->
  StronglySorted lt js -> Forall (fun j => j < passed D a) js -> Forall2 (from c) (c_got s) js -> length js = c_i s ->
  (cf_die c = false -> js = seq 0 (length (c_got s))) ->
  (cf_die c = false -> c_pc s <> CEnd -> passed D a = c_i s + (if p_used s then 1 else 0)) ->
  c_pc s = CRead got -> p_used s = true -> in_pipe c s got js D a ->
  ((rd_early (cf_reader c) got = None /\ rd_eof (cf_reader c) got = true /\ p_buf s = [] /\
    existsb (writes_to (c_i s)) (x_ex s) = false) \/ rd_early (cf_reader c) got = Some true) ->
  inv c (next c true got s).
Proof.
  intros c s js D a got H1 H2 H3 H4 H5 H6 H7 HP HC HU HI HR.
  destruct HI as (Hrd & Hdir & [(X & _)|(_ & j & HJ & Hj)]); [congruence|].
  assert (Hjp : j < passed D a).
  { destruct HJ as (log & _ & [(e & r & -> & -> & He & _)|(HL & _)]); unfold passed; [rewrite He; cbn; lia|lia]. }
  assert (Hfrom : from c got j).
  { destruct HJ as (log & HN & HJ). exists log. split; [exact (nth_logs _ _ _ _ _ _ H1 H2 HN)|].
    assert (HB : begins got log).
    { destruct HJ as [(e & r & _ & _ & _ & ->)|(_ & _ & (r & ->) & _)].
      - exists (p_buf s ++ r). rewrite app_assoc. reflexivity.
      - exists (p_buf s ++ r). rewrite app_assoc. reflexivity. }
    split; [exact HB|]. destruct HR as [(R1 & R2 & R3 & R4)|R]; [left|right; exact R].
    split; [exact R1|]. split; [exact R2|]. intros HDie. destruct HJ as [(e & r & -> & _ & He & _)|(_ & _ & _ & HE)].
    - exfalso. destruct H1 as (HX & HEn & _). rewrite HX in R4. exact (no_writer (c_i s) D (Some e) HEn R4 e r eq_refl He).
    - specialize (HE HDie). rewrite R3, app_nil_r in HE. exact HE. }
  constructor. exists (js ++ [j]), D, a. unfold next. cbn [x_ex x_todo c_got c_i c_pc p_used].
  split; [exact H1|]. split; [exact H2|]. split; [apply sorted_snoc; [exact H3|exact Hj]|].
  split; [apply Forall_app; split; [exact H4|repeat constructor; exact Hjp]|].
  split; [apply Forall2_app; [exact H5|repeat constructor; exact Hfrom]|].
  split; [rewrite app_length, H6; cbn; lia|].
  split; [|split].
  - unfold phase. cbn. destruct (more c (S (c_i s))); [|exact I].
    do 3 (split; [reflexivity|]). split; [exact Hdir|].
    destruct a as [e|]; [|exact I]. cbn. destruct HJ as (log & _ & [(e' & r & E & _ & He & _)|(_ & He & _)]).
    + inversion E; subst. right. exists (c_i s), r. split; [exact He|lia].
    + left. exact He.
  - intros HDie HE. rewrite (HP HDie) by congruence. rewrite HU. cbn. lia.
  - intros HDie. rewrite app_length. cbn [length]. rewrite seq_app. rewrite <- (H7 HDie). f_equal.
    assert (HLg : length (c_got s) = c_i s).
    { rewrite <- H6. specialize (H7 HDie). rewrite H7. rewrite seq_length. reflexivity. }
    specialize (HP HDie). rewrite HC, HU in HP. rewrite HP in Hjp by discriminate.
    (* j < c_i + 1, and all of seq 0 c_i is below j *)
    rewrite (H7 HDie) in Hj. rewrite HLg in Hj |- *. cbn [seq]. f_equal.
    assert (c_i s <= j); [|lia]. destruct (c_i s) as [|m]; [lia|].
    rewrite Forall_forall in Hj. specialize (Hj m). rewrite in_seq in Hj. lia.
Qed.

Lemma inv_cstep : forall c s s', inv c s -> cstep c s s' -> inv c s'.
Proof.
  intros c s s' [(js & D & a & H1 & H2 & H3 & H4 & H5 & H6 & HPh & HP & H7)] HS.
  assert (HInv : inv c s).
  { constructor. exists js, D, a. auto 12. }
  inversion HS as [HC Hd|n HC|HC Hd|HC Ha|Ht HC|HC|HC Hr|got ch r HC He Hb|got b HC He|got HC He Hb Hw|HC Hd]; subst;
    unfold phase in HPh.
  - rewrite HC in HPh. destruct HPh as (A1 & A2 & A3 & A4 & A5).
    constructor. exists js, D, a. cbn.
    split; [exact H1|]. split; [exact H2|]. split; [exact H3|]. split; [exact H4|]. split; [exact H5|]. split; [exact H6|].
    split; [|split; [intros HD _; apply (HP HD); rewrite HC; discriminate|exact H7]].
    unfold phase. cbn. rewrite A1, A2, A3. do 4 (split; [reflexivity|]).
    split; [rewrite nth_error_app2, Nat.sub_diag by lia; reflexivity|left; exact A5].
  - rewrite HC in HPh. destruct HPh as (A1 & A2 & A3 & A4 & A5 & A6).
    constructor. exists js, D, a. cbn.
    split; [exact H1|]. split; [exact H2|]. split; [exact H3|]. split; [exact H4|]. split; [exact H5|]. split; [exact H6|].
    split; [|split; [intros HD _; apply (HP HD); rewrite HC; discriminate|exact H7]].
    unfold phase. cbn. rewrite A1, A2, A3, A4. do 3 (split; [reflexivity|]).
    split; [apply set_nth_same; apply nth_error_Some; congruence|left; exact A6].
  - rewrite HC, Hd in HPh. destruct HPh as (A1 & A2 & A3 & A4).
    constructor. exists js, D, a. cbn.
    split; [exact H1|]. split; [exact H2|]. split; [exact H3|]. split; [exact H4|]. split; [exact H5|]. split; [exact H6|].
    split; [|split; [intros HD _; apply (HP HD); rewrite HC; discriminate|exact H7]].
    unfold phase. cbn. auto.
  - eapply inv_fail; eauto.
  - eapply inv_fail; eauto.
  - rewrite HC in HPh. destruct HPh as (A1 & A2 & A3 & A4 & A5).
    constructor. exists js, D, a. cbn.
    split; [exact H1|]. split; [exact H2|]. split; [exact H3|]. split; [exact H4|]. split; [exact H5|]. split; [exact H6|].
    split; [|split; [intros HD _; apply (HP HD); rewrite HC; discriminate|exact H7]].
    unfold phase. cbn. unfold in_pipe. cbn. auto 10.
  - rewrite HC in HPh. constructor. exists js, D, a. cbn.
    split; [exact H1|]. split; [exact H2|]. split; [exact H3|]. split; [exact H4|]. split; [exact H5|]. split; [exact H6|].
    split; [|split; [intros HD _; apply (HP HD); rewrite HC; discriminate|exact H7]].
    unfold phase. cbn. split.
    + destruct HPh as (_ & _ & [(U & B & _)|(U & _)]); [|exact U]. destruct Hr as [Hr|[Hr _]]; congruence.
    + exact HPh.
  - rewrite HC in HPh. destruct HPh as (HU & HPi). constructor. exists js, D, a. cbn.
    split; [exact H1|]. split; [exact H2|]. split; [exact H3|]. split; [exact H4|]. split; [exact H5|]. split; [exact H6|].
    split; [|split; [intros HD _; apply (HP HD); rewrite HC; discriminate|exact H7]].
    unfold phase. cbn. split; [exact HU|]. destruct HPi as (B1 & B2 & [(U & _)|(_ & j & HJ & Hj)]); [congruence|].
    split; [exact B1|]. split; [exact B2|]. right. split; [exact HU|]. exists j. split; [|exact Hj].
    cbn. rewrite <- app_assoc. cbn. rewrite Hb in HJ. exact HJ.
  - rewrite HC in HPh. destruct HPh as (HU & HPi). destruct b; [|eapply inv_fail; eauto].
    eapply inv_added; eauto.
  - rewrite HC in HPh. destruct HPh as (HU & HPi). destruct (rd_eof (cf_reader c) got) eqn:E; [|eapply inv_fail; eauto].
    eapply inv_added; eauto.
  - constructor. exists js, D, a. cbn.
    split; [exact H1|]. split; [exact H2|]. split; [exact H3|]. split; [exact H4|]. split; [exact H5|]. split; [exact H6|].
    split; [exact I|]. split; [intros _ X; contradiction|exact H7].
Qed.

Lemma seqd_pick : forall s D a l1 e l2, seqd s D a -> x_ex s = l1 ++ e :: l2 -> ended e = false ->
  l1 = D /\ l2 = [] /\ a = Some e.
Proof.
  intros s D a l1 e l2 (HX & HD & HA) HE He. rewrite HX in HE.
  assert (G : forall Q l1, forallb ended Q = true -> Q ++ cur a = l1 ++ e :: l2 ->
    l1 = Q /\ l2 = [] /\ a = Some e).
  { clear HX HD HE l1 D. induction Q as [|d D0 IH]; intros l1 HD HE.
    - cbn in HE. destruct a as [x|]; cbn in HE; [|destruct l1; discriminate HE].
      destruct l1 as [|y l1]; [inversion HE; subst; auto|]. destruct l1; discriminate HE.
    - cbn in HD. apply andb_true_iff in HD. destruct HD as [Hd HD]. destruct l1 as [|y l1]; cbn in HE.
      + inversion HE; subst. congruence.
      + inversion HE; subst. destruct (IH l1 HD H1) as (-> & -> & ->). auto. }
  apply G; assumption.
Qed.

Lemma pstep_active : forall c s log pc pc' s', pstep c s log pc pc' s' -> forall b, pc <> PEnd b.
Proof. intros c s log pc pc' s' H b E. inversion H; subst; try discriminate. eapply H1; eauto. Qed.

(** A step of an execution does not change the collector. *)
Lemma pstep_frame : forall c s log pc pc' s', pstep c s log pc pc' s' ->
  c_pc s' = c_pc s /\ c_i s' = c_i s /\ c_got s' = c_got s /\ x_ex s' = x_ex s /\ x_todo s' = x_todo s /\ x_alive s' = x_alive s /\
  h_ino s' = h_ino s /\ p_rd s' = p_rd s.
Proof. intros c s log pc pc' s' H. inversion H; subst; cbn; auto 10. Qed.

(** The split after a step of the active execution. *)
Definition after (D : list exec) (e : exec) : list exec * option exec :=
  if ended e then (D ++ [e], None) else (D, Some e).

Lemma after_seqd : forall s D e, forallb ended D = true -> x_ex s = D ++ [e] ->
  seqd s (fst (after D e)) (snd (after D e)).
Proof.
  intros s D e HD HX. unfold after, seqd, cur. destruct (ended e) eqn:E; cbn.
  - split; [rewrite app_nil_r; exact HX|]. split; [rewrite forallb_app, HD; cbn; rewrite E; reflexivity|exact I].
  - auto.
Qed.

Lemma after_passed : forall D e log pc, passed D (Some e) <= passed (fst (after D (mkE log pc))) (snd (after D (mkE log pc))) \/
  (pre (e_pc e) = false /\ pre pc = true).
Proof.
  intros D e log pc. unfold after, passed, ended. cbn.
  destruct pc; cbn; destruct (e_pc e); cbn; rewrite ?app_length; cbn; auto; left; lia.
Qed.

Lemma pe_cur : forall s, c_pc s <> CEnd -> pipe_exists (c_i s) s = true.
Proof. intros s H. unfold pipe_exists. rewrite Nat.eqb_refl. destruct (c_pc s); try reflexivity. contradiction. Qed.
Lemma pe_old : forall k s, k < c_i s -> pipe_exists k s = false.
Proof. intros k s H. unfold pipe_exists. destruct (Nat.eqb_spec k (c_i s)); [lia|reflexivity]. Qed.

(** Steps from each control state. *)
Lemma ps_access : forall c s log pc s', pstep c s log PAccess pc s' ->
  s' = s /\ ((pc = PFopen /\ exists n, h_dir s = Some n) \/ (cf_die c = true /\ pc = PEnd false)).
Proof. intros c s log pc s' H. inversion H; subst; split; auto. left. eauto. Qed.
Lemma ps_fopen : forall c s log pc s', pstep c s log PFopen pc s' ->
  s' = s /\ ((exists n, h_dir s = Some n /\ pc = PFgets n false) \/ (h_dir s = None /\ pc = PEnd true) \/ (cf_die c = true /\ pc = PEnd false)).
Proof. intros c s log pc s' H. inversion H; subst; split; auto. left. eauto. Qed.
Lemma ps_fgets : forall c s log n b pc s', pstep c s log (PFgets n b) pc s' ->
  s' = s /\ ((exists k, nth_error (h_ino s) n = Some (Some k) /\ pc = PUnlink k) \/
             (nth_error (h_ino s) n = Some None /\ pc = PFgets n true) \/ (cf_die c = true /\ pc = PEnd false)).
Proof. intros c s log n b pc s' H. inversion H; subst; split; auto. left. eauto. Qed.
Lemma ps_unlink : forall c s log k pc s', pstep c s log (PUnlink k) pc s' ->
  (pc = PPipe k /\ s' = mkSt None (h_ino s) (p_buf s) (p_rd s) (p_used s) (c_i s) (c_pc s) (c_got s) (x_ex s) (x_todo s) (x_alive s)) \/
  (s' = s /\ cf_die c = true /\ pc = PEnd false).
Proof. intros c s log k pc s' H. inversion H; subst; auto. Qed.
Lemma ps_pipe : forall c s log k pc s', pstep c s log (PPipe k) pc s' ->
  (pc = PRun k log /\ pipe_exists k s = true /\ p_rd s = true /\
   s' = mkSt (h_dir s) (h_ino s) (p_buf s) (p_rd s) true (c_i s) (c_pc s) (c_got s) (x_ex s) (x_todo s) (x_alive s)) \/
  (pc = PFile /\ pipe_exists k s = false /\ s' = s) \/
  (s' = s /\ cf_die c = true /\ pc = PEnd false).
Proof. intros c s log k pc s' H. inversion H; subst; auto 10. Qed.
Lemma ps_run : forall c s log k r pc s', pstep c s log (PRun k r) pc s' ->
  (exists ch r', r = ch :: r' /\ pc = PRun k r' /\ pipe_exists k s = true /\
   s' = mkSt (h_dir s) (h_ino s) (p_buf s ++ [ch]) (p_rd s) (p_used s) (c_i s) (c_pc s) (c_got s) (x_ex s) (x_todo s) (x_alive s)) \/
  (s' = s /\ pc = PEnd false /\ (r = [] \/ pipe_exists k s = false \/ cf_die c = true)).
Proof. intros c s log k r pc s' H. inversion H; subst; auto 10. left. eauto 10. Qed.

Lemma idle_step : forall c s D e pc s', idle (c_i s) (Some e) -> h_dir s = None \/ e_pc e <> PAccess ->
  pstep c s (e_log e) (e_pc e) pc s' ->
  s' = s /\ pc = PEnd false /\ (cf_die c = false -> passed (D ++ [mkE (e_log e) pc]) None = passed D (Some e)).
Proof.
  intros c s D e pc s' HI Hd HS. unfold passed. rewrite app_length. cbn. destruct HI as [HI|(k & r & HI & Hk)].
  - rewrite HI in HS. destruct (ps_access _ _ _ _ _ HS) as (-> & [(-> & n & E)|(HDie & ->)]).
    + destruct Hd as [Hd|Hd]; congruence.
    + split; [reflexivity|]. split; [reflexivity|]. congruence.
  - rewrite HI in HS. destruct (ps_run _ _ _ _ _ _ _ HS) as [(ch & r' & _ & _ & X & _)|(-> & -> & _)].
    + rewrite (pe_old _ _ Hk) in X. discriminate X.
    + rewrite HI. cbn. split; [reflexivity|]. split; [reflexivity|]. intros _. lia.
Qed.

Lemma at_file_step : forall c s D e n pc s', at_file n (c_i s) (Some e) -> h_dir s = Some n -> c_pc s <> CEnd ->
  pstep c s (e_log e) (e_pc e) pc s' ->
  s' = s /\ (cf_die c = false -> passed (fst (after D (mkE (e_log e) pc))) (snd (after D (mkE (e_log e) pc))) = passed D (Some e)) /\
  (at_file n (c_i s) (snd (after D (mkE (e_log e) pc))) \/ exists k, nth_error (h_ino s) n = Some (Some k) /\ pc = PUnlink k).
Proof.
  intros c s D e n pc s' HA Hd HC HS. destruct HA as [HI|(e0 & E & [HI|(b & HI)])].
  - destruct HI as [HI|HI].
    + rewrite HI in HS. destruct (ps_access _ _ _ _ _ HS) as (-> & [(-> & _)|(HDie & ->)]); (split; [reflexivity|]); unfold after; cbn.
      * split; [intros _; unfold passed; cbn; rewrite HI; reflexivity|]. left. right. eauto.
      * split; [congruence|]. left. left. exact I.
    + destruct (idle_step c s D e pc s') as (-> & -> & HP); [right; exact HI| |exact HS|].
      { right. destruct HI as (k & r & HI & _). rewrite HI. discriminate. }
      split; [reflexivity|]. unfold after. cbn. split; [exact HP|]. left. left. exact I.
  - inversion E; subst e0. rewrite HI in HS.
    destruct (ps_fopen _ _ _ _ _ HS) as (-> & [(n' & En & ->)|[(X & _)|(HDie & ->)]]); [|congruence|]; (split; [reflexivity|]); unfold after; cbn.
    + split; [intros _; unfold passed; cbn; rewrite HI; reflexivity|]. left. right. eexists. split; [reflexivity|]. right.
      exists false. cbn. congruence.
    + split; [congruence|]. left. left. exact I.
  - inversion E; subst e0. rewrite HI in HS.
    destruct (ps_fgets _ _ _ _ _ _ _ HS) as (-> & [(k & En & ->)|[(En & ->)|(HDie & ->)]]); (split; [reflexivity|]); unfold after; cbn.
    + split; [intros _; unfold passed; cbn; rewrite HI; reflexivity|]. right. eauto.
    + split; [intros _; unfold passed; cbn; rewrite HI; reflexivity|]. left. right. eexists. split; [reflexivity|]. right. exists true. reflexivity.
    + split; [congruence|]. left. left. exact I.
Qed.

Lemma unused_step : forall c s e D pc s', unused c (c_i s) (Some e) -> h_dir s = None -> c_pc s <> CEnd ->
  pstep c s (e_log e) (e_pc e) pc s' ->
  (s' = s /\ pc = PEnd false /\ cf_die c = true /\ unused c (c_i s) (snd (after D (mkE (e_log e) pc)))) \/
  (e_pc e = PPipe (c_i s) /\ pc = PRun (c_i s) (e_log e) /\ p_rd s = true /\
   s' = mkSt (h_dir s) (h_ino s) (p_buf s) (p_rd s) true (c_i s) (c_pc s) (c_got s) (x_ex s) (x_todo s) (x_alive s)).
Proof.
  intros c s e D pc s' HU Hd HC HS. destruct HU as [(e0 & E & HI)|(HDie & HI)].
  - inversion E; subst e0. rewrite HI in HS. destruct (ps_pipe _ _ _ _ _ _ HS) as [(-> & X & Y & ->)|[(-> & X & ->)|(-> & HDie & ->)]].
    + right. auto.
    + rewrite pe_cur in X by exact HC. discriminate X.
    + left. split; [reflexivity|]. split; [reflexivity|]. split; [exact HDie|]. right. split; [exact HDie|exact I].
  - rewrite HI in HS. destruct (ps_access _ _ _ _ _ HS) as (-> & [(_ & n & X)|(_ & ->)]); [congruence|].
    left. split; [reflexivity|]. split; [reflexivity|]. split; [exact HDie|]. right. split; [exact HDie|exact I].
Qed.

Lemma in_pipe_step : forall c s got js D e pc s', in_pipe c s got js D (Some e) -> forallb ended D = true ->
  Forall (fun j => j < passed D (Some e)) js ->
  c_pc s <> CEnd -> (c_pc s = CPoll /\ got = [] \/ p_used s = true) ->
  pstep c s (e_log e) (e_pc e) pc s' ->
  let e' := mkE (e_log e) pc in
  in_pipe c (with_ex (D ++ [e']) s') got js (fst (after D e')) (snd (after D e')) /\ (p_used s = true -> p_used s' = true) /\
  (cf_die c = false -> passed D (Some e) = c_i s + (if p_used s then 1 else 0) ->
   passed (fst (after D e')) (snd (after D e')) = c_i s + (if p_used s' then 1 else 0)).
Proof.
  intros c s got js D e pc s' (Hrd & Hdir & HI) HD HJs HC HG HS e'. destruct HI as [(U & B & G & HU)|(U & j & HJ & Hj)].
  - destruct (unused_step _ _ _ D _ _ HU Hdir HC HS) as [(-> & -> & HDie & HU')|(He & -> & _ & ->)].
    + split; [|split; [auto|congruence]]. split; [exact Hrd|]. split; [exact Hdir|]. left. cbn. auto.
    + split; [|split; [reflexivity|]].
      * split; [exact Hrd|]. split; [exact Hdir|]. right. split; [reflexivity|]. exists (length D). split.
        -- cbn. exists (e_log e). split.
           ++ rewrite map_app, nth_error_app2; rewrite map_length; [|lia]. rewrite Nat.sub_diag. reflexivity.
           ++ left. exists e', (e_log e). rewrite G, B. auto.
        -- unfold passed in HJs. rewrite He in HJs. cbn in HJs. rewrite Nat.add_0_r in HJs. exact HJs.
      * intros _ HP. rewrite U in HP. unfold passed in *. rewrite He in HP. cbn in *. lia.
  - destruct HJ as (log & HN & [(e0 & r & E & -> & He & Hl)|(HL & He & HB & HDd)]).
    + inversion E; subst e0. rewrite He in HS. destruct (ps_run _ _ _ _ _ _ _ HS) as [(ch & r' & -> & -> & X & ->)|(-> & -> & HR)].
      * split; [|split; [auto|]].
        -- split; [exact Hrd|]. split; [exact Hdir|]. right. split; [exact U|]. exists (length D). split; [|exact Hj].
           exists log. cbn in *. split.
           ++ rewrite map_app in HN |- *. rewrite nth_error_app2 in HN |- *; rewrite map_length in *; try lia. exact HN.
           ++ left. exists e', r'. split; [reflexivity|]. split; [reflexivity|]. split; [reflexivity|].
              rewrite Hl, <- !app_assoc. reflexivity.
        -- intros _ HP. cbn. rewrite U in *. unfold passed in *. rewrite He in HP. cbn in *. exact HP.
      * split; [|split; [auto|]].
        -- split; [exact Hrd|]. split; [exact Hdir|]. right. split; [exact U|]. exists (length D). split; [|exact Hj].
           exists log. unfold after. cbn. rewrite app_nil_r. split.
           ++ rewrite map_app in HN |- *. rewrite nth_error_app2 in HN |- *; rewrite map_length in *; try lia. exact HN.
           ++ right. split; [rewrite app_length; cbn; lia|]. split; [exact I|]. split; [exists r; exact Hl|].
              intros HDie. destruct HR as [->|[X|X]]; [rewrite app_nil_r in Hl; congruence| |congruence].
              rewrite pe_cur in X by exact HC. discriminate X.
        -- intros _ HP. unfold after. cbn. unfold passed in *. rewrite He in HP. cbn in HP. rewrite app_length. cbn. lia.
    + rewrite He in HS. destruct (ps_access _ _ _ _ _ HS) as (-> & [(_ & n & X)|(HDie & ->)]); [congruence|].
      split; [|split; [auto|congruence]]. split; [exact Hrd|]. split; [exact Hdir|]. right. split; [exact U|].
      exists j. split; [|exact Hj]. exists log. unfold after. cbn. rewrite app_nil_r. split.
      * rewrite map_app in HN |- *. rewrite nth_error_app1 in HN |- * by (rewrite map_length; exact HL). exact HN.
      * right. split; [rewrite app_length; lia|]. split; [exact I|]. auto.
Qed.

Lemma inv_pstep : forall c s l1 e l2 pc s', inv c s -> x_ex s = l1 ++ e :: l2 ->
  pstep c s (e_log e) (e_pc e) pc s' -> inv c (with_ex (l1 ++ mkE (e_log e) pc :: l2) s').
Proof.
  intros c s l1 e l2 pc s' [(js & D & a & H1 & H2 & H3 & H4 & H5 & H6 & HPh & HP & H7)] HX HS.
  assert (He : ended e = false).
  { unfold ended. pose proof (pstep_active _ _ _ _ _ _ HS) as HA. destruct (e_pc e); try reflexivity. exfalso. exact (HA crashed eq_refl). }
  destruct (seqd_pick _ _ _ _ _ _ H1 HX He) as (-> & -> & ->).
  destruct (pstep_frame _ _ _ _ _ _ HS) as (F1 & F2 & F3 & F4 & F5 & F6 & F7 & F8).
  set (e' := mkE (e_log e) pc). destruct H1 as (_ & HD & _).
  constructor. exists js, (fst (after D e')), (snd (after D e')).
  assert (Q1 : seqd (with_ex (D ++ [e']) s') (fst (after D e')) (snd (after D e'))) by (apply after_seqd; [exact HD|reflexivity]).
  assert (Q2 : map e_log (x_ex (with_ex (D ++ [e']) s')) ++ x_todo (with_ex (D ++ [e']) s') = cf_runs c).
  { cbn. rewrite F5, <- H2, HX, !map_app. reflexivity. }
  assert (Q3 : passed D (Some e) <= passed (fst (after D e')) (snd (after D e'))).
  { destruct (after_passed D e (e_log e) pc) as [X|[X Y]]; [exact X|]. exfalso.
    inversion HS; subst; try discriminate Y;
      match goal with E : _ = e_pc e |- _ => rewrite <- E in X; discriminate X end. }
  split; [exact Q1|]. split; [exact Q2|]. split; [exact H3|].
  split; [eapply Forall_impl; [|exact H4]; cbn; intros; lia|].
  split; [cbn; rewrite F3; exact H5|]. split; [cbn; rewrite F2; exact H6|].
  enough (phase c (with_ex (D ++ [e']) s') js (fst (after D e')) (snd (after D e')) /\
    (cf_die c = false -> c_pc s <> CEnd -> passed (fst (after D e')) (snd (after D e')) = c_i s + (if p_used s' then 1 else 0))) as [G1 G2].
  { split; [exact G1|]. split; [cbn; rewrite F1, F2; exact G2|cbn; rewrite F3; exact H7]. }
  clear Q1 Q2 Q3.
  destruct (c_pc s) eqn:HC; unfold phase in HPh; rewrite HC in HPh; unfold phase; cbn [with_ex c_pc]; rewrite F1.
  - destruct HPh as (A1 & A2 & A3 & A4 & A5).
    destruct (idle_step c s D e pc s' A5 (or_introl A4) HS) as (-> & -> & HPd). unfold after. cbn.
    split; [auto 10|]. intros HDie HE. etransitivity; [exact (HPd HDie)|]. apply HP; [exact HDie|]. exact HE.
  - destruct HPh as (A1 & A2 & A3 & A4 & A5 & A6).
    destruct (at_file_step c s D e ino pc s' A6 A4) as (-> & HPd & HA); [rewrite HC; discriminate|exact HS|].
    fold e' in HPd, HA. split.
    + cbn. destruct HA as [HA|(k & E & _)]; [auto 10|congruence].
    + intros HDie HE. rewrite (HPd HDie). apply HP; [exact HDie|]. exact HE.
  - destruct HPh as (A1 & A2 & A3 & A4). destruct (h_dir s) as [n|] eqn:Hd.
    + destruct A4 as (A4 & [A5|(e0 & E & A5)]).
      * destruct (at_file_step c s D e n pc s' A5 Hd) as (-> & HPd & HA); [rewrite HC; discriminate|exact HS|].
        fold e' in HPd, HA. split.
        -- cbn. rewrite A1, A2, A3, Hd. do 3 (split; [reflexivity|]). split; [exact A4|].
           destruct HA as [HA|(k & E & ->)]; [left; exact HA|]. right. exists e'. unfold after. cbn. split; [reflexivity|].
           rewrite A4 in E. congruence.
        -- intros HDie HE. rewrite (HPd HDie). apply HP; [exact HDie|exact HE].
      * inversion E; subst e0. rewrite A5 in HS. destruct (ps_unlink _ _ _ _ _ _ HS) as [(-> & ->)|(-> & HDie & ->)].
        -- unfold after. cbn. split.
           ++ rewrite A1, A2, A3. do 3 (split; [reflexivity|]). left. exists e'. split; reflexivity.
           ++ intros HDie HE. specialize (HP HDie HE). unfold passed in *. rewrite A5 in HP. cbn in *. exact HP.
        -- unfold after. cbn. split; [|congruence]. rewrite A1, A2, A3, Hd. do 3 (split; [reflexivity|]). split; [exact A4|].
           left. left. exact I.
    + destruct (unused_step c s e D pc s' A4 Hd) as [(-> & -> & HDie & HU)|(_ & _ & X & _)]; [rewrite HC; discriminate|exact HS| |congruence].
      fold e' in HU. split; [|congruence]. cbn. rewrite Hd. auto.
  - destruct HPh as (A1 & A2 & A3 & A4 & A5).
    destruct (unused_step c s e D pc s' A5 A4) as [(-> & -> & HDie & HU)|(_ & _ & X & _)]; [rewrite HC; discriminate|exact HS| |congruence].
    fold e' in HU. split; [|congruence]. cbn. auto 10.
  - destruct (in_pipe_step c s [] js D e pc s' HPh HD H4) as (G1 & G2 & G3); [rewrite HC; discriminate|left; auto|exact HS|].
    split; [exact G1|]. intros HDie HE. apply G3; [exact HDie|]. apply HP; [exact HDie|exact HE].
  - destruct HPh as (HU & HPh).
    destruct (in_pipe_step c s got js D e pc s' HPh HD H4) as (G1 & G2 & G3); [rewrite HC; discriminate|right; auto|exact HS|].
    split; [split; [exact (G2 HU)|exact G1]|]. intros HDie HE. apply G3; [exact HDie|]. apply HP; [exact HDie|exact HE].
  - split; [exact I|]. intros _ X. contradiction.
Qed.

Lemma all_ended_none : forall s D a, seqd s D a -> forallb ended (x_ex s) = true -> a = None.
Proof.
  intros s D [e|] (HX & _ & He) H; [|reflexivity]. rewrite HX, forallb_app in H. cbn in H. rewrite He in H.
  apply andb_true_iff in H. destruct H as [_ H]. discriminate H.
Qed.

Lemma user_start : forall c i data D j r, user c i data D None j -> user c i data D (Some (mkE r PAccess)) j.
Proof.
  intros c i data D j r (log & HN & [(e & r0 & E & _)|(HL & _ & HB)]); [discriminate E|].
  exists log. cbn in *. rewrite app_nil_r in HN. split.
  - rewrite map_app, nth_error_app1; [exact HN|]. rewrite map_length. exact HL.
  - right. auto.
Qed.

Lemma inv_step : forall c s s', cf_par c = false -> inv c s -> step c s s' -> inv c s'.
Proof.
  intros c s s' HPar HI HS. inversion HS as [s1 HC|l1 e l2 pc s1 HX HP|r t HT HA HE|HA HE]; subst.
  - eapply inv_cstep; eauto.
  - eapply inv_pstep; eauto.
  - destruct HI as [(js & D & a & H1 & H2 & H3 & H4 & H5 & H6 & HPh & HP & H7)].
    pose proof (all_ended_none _ _ _ H1 (HE HPar)) as ->.
    constructor. exists js, D, (Some (mkE r PAccess)). destruct H1 as (HX & HD & _). cbn in HX. rewrite app_nil_r in HX.
    assert (HPs : passed D (Some (mkE r PAccess)) = passed D None) by reflexivity.
    cbn [x_ex x_todo c_got c_i p_used c_pc].
    split; [split; [cbn; rewrite HX; reflexivity|split; [exact HD|reflexivity]]|].
    split; [rewrite <- H2, HT, map_app, <- app_assoc; reflexivity|]. split; [exact H3|].
    split; [rewrite HPs; exact H4|]. split; [exact H5|]. split; [exact H6|]. split; [|split; [rewrite HPs; exact HP|exact H7]].
    assert (HUn : unused c (c_i s) None -> unused c (c_i s) (Some (mkE r PAccess))).
    { intros [(e & E & _)|(HDie & _)]; [discriminate E|]. right. split; [exact HDie|reflexivity]. }
    assert (HIp : forall got, in_pipe c s got js D None -> in_pipe c (mkSt (h_dir s) (h_ino s) (p_buf s) (p_rd s) (p_used s) (c_i s) (c_pc s) (c_got s)
                (x_ex s ++ [mkE r PAccess]) t (x_alive s)) got js D (Some (mkE r PAccess))).
    { intros got (B1 & B2 & B3). split; [exact B1|]. split; [exact B2|]. destruct B3 as [(U & B & G & HU)|(U & j & HJ & Hj)]; [left|right]; cbn.
      - auto.
      - split; [exact U|]. exists j. split; [apply user_start; exact HJ|exact Hj]. }
    unfold phase in *. cbn. destruct (c_pc s) eqn:HC; cbn in *.
    + destruct HPh as (A1 & A2 & A3 & A4 & A5). auto 10.
    + destruct HPh as (A1 & A2 & A3 & A4 & A5 & A6). do 5 (split; [assumption|]). left. left. reflexivity.
    + destruct HPh as (A1 & A2 & A3 & A4). do 3 (split; [assumption|]). destruct (h_dir s).
      * split; [apply A4|]. left. left. left. reflexivity.
      * auto.
    + destruct HPh as (A1 & A2 & A3 & A4 & A5). auto 10.
    + apply HIp. exact HPh.
    + destruct HPh as (HU & HPh). split; [exact HU|]. apply HIp. exact HPh.
    + exact I.
  - destruct HI as [(js & D & a & H1 & H2 & H3 & H4 & H5 & H6 & HPh & HP & H7)].
    constructor. exists js, D, a. auto 12.
Qed.

Lemma inv_reach : forall c s, cf_par c = false -> cf_old c = false -> reach c s -> inv c s.
Proof. intros c s HPar HO H. induction H; [apply inv_start; exact HO|eapply inv_step; eauto]. Qed.
