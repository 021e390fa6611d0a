(** Programs that fork: the theorems. *)
From Coq Require Import Permutation.
From Verif Require Import BaseProofs Types Stream SkipList AMap MemMapSpec Reader Writer Compare PrintPred FormatSpec FormatUB CanonSpec ReaderMore ReaderProps.
From Verif Require Import Instr InstrRun InstrSpec InstrText InstrFloat InstrTable InstrConc InstrProofs InstrEnd Fork ForkSpec ForkProofs ForkProofs2.

Section Forks.
Variable test : name -> name -> bool.
Variable kf : name -> skind.
Variable sites : list site.
Hypothesis SOK : Forall (site_ok kf) sites.
Hypothesis TELLS : tells_apart test (all_texts sites).
Variable names : list name.
Variable types : list tdesc.
Variable code : list (list istmt).
Hypothesis PROG : instrumented test sites names types code.
Hypothesis FIT : fits names types.
Variables B P : N.
Hypothesis BP : B <= P.

Notation good_point := (good_point sites names types code).
Notation fine := (fun e => event_ok sites e /\ fits_buffer code B e).
Notation small := (small code B).

Lemma fine_small : forall e, fine e -> small e /\ exists a es, event_run code e = Ok a /\ good_point e a es.
Proof.
  intros e [E F]. destruct (event_good test kf sites SOK TELLS names types code PROG FIT e E) as (a & es & G).
  pose proof G as (G1 & (ws & G2) & G3 & _). split; [|exists a, es; auto].
  subst a. pose proof (F _ G1) as L. fold (acts_of ws) in *. rewrite written_acts in *. exists ws. repeat split; auto.
  rewrite G3. unfold enc_point. intros X. apply app_eq_nil in X. destruct X as [_ X]. discriminate X.
Qed.

Lemma every_impl : forall (Q R : event -> Prop), (forall e, Q e -> R e) -> forall it, every Q it -> every R it.
Proof. intros Q R X it E. induction E; constructor; auto. Qed.

Lemma fine_runs : forall it, every fine it -> exists t, runs code it t.
Proof.
  intros it E. induction E as [|e r Q E (t & IH)|c r E1 (t1 & IH1) E2 (t2 & IH2)|r E (t & IH)].
  - exists []. constructor.
  - destruct (fine_small e Q) as (_ & a & es & G & _). exists (map PDo a ++ t). constructor; auto.
  - exists (PFork t1 :: t2). constructor; auto.
  - exists (PExit :: t). constructor; auto.
Qed.
Lemma fine_all : forall its, Forall (every fine) its -> exists ths, Forall2 (runs code) its ths.
Proof.
  induction 1 as [|it its E _ (ths & IH)]; [exists []; constructor|]. destruct (fine_runs it E) as (t & R). exists (t :: ths). constructor; auto.
Qed.

Definition H := enc_header names types.

Lemma start_inv : forall strict its ths, Forall (every fine) its -> Forall2 (runs code) its ths ->
  inv code B H its strict (fstart B names types ths).
Proof.
  intros strict its ths E R. unfold fstart. apply inv_first. exists MFree. cbn [q_lock q_threads q_out q_buf concat app]. split.
  - constructor. clear -E R SOK TELLS PROG FIT. induction R as [|it t its ths X R IH]; constructor; inversion E; subst; auto.
    split; auto. eapply every_impl; [|eauto]. intros e Q. apply fine_small. auto.
  - rewrite feed_bytes. cbn [app]. apply header_bytes; [eapply names_free; eauto|]; destruct FIT as (? & ? & ?); auto.
Qed.

Lemma reach_inv : forall strict its ths (ok : fstate -> flabel -> Prop) s, Forall (every fine) its -> Forall2 (runs code) its ths ->
  (forall s l, ok s l -> orderly s l /\ (strict = true -> peaceful s l)) ->
  reach B P ok (fstart B names types ths) s -> inv code B H its strict s.
Proof.
  intros strict its ths ok s E R OK RE. induction RE as [|s l s' RE IH O ST]; [apply start_inv; auto|].
  eapply inv_step; eauto. apply OK. auto.
Qed.

(** Reading a file that holds the header and whole points. *)
Lemma whole_read : forall order, Forall fine order -> forall ok coins pos t,
  (forall n, n <= lenN (H ++ concat (map (bytes_of code) order)) -> ok n = true) ->
  exists tr, reads ok coins pos t 0 (H ++ concat (map (bytes_of code) order)) = Ok tr /\
    tr_names tr = names /\ tr_types tr = types /\ Forall2 (event_shows sites tr) order (tr_points tr).
Proof.
  intros order F ok coins pos t OK.
  assert (G : exists o, Forall2 (fun e a => exists es, good_point e a es) order o /\ concat (map (bytes_of code) order) = wr o).
  { clear OK. induction F as [|e order Q F (o & IH1 & IH2)]; [exists []; split; [constructor|reflexivity]|].
    destruct (fine_small e Q) as (_ & a & es & R & G). exists (a :: o). split; [constructor; eauto|].
    unfold wr in *. cbn [map concat]. rewrite IH2. unfold bytes_of at 1. now rewrite R. }
  destruct G as (o & G & E). rewrite E in *. destruct (points_read test sites names types code PROG FIT _ _ G) as (pts & E1 & E2 & E3 & E4 & E5).
  assert (OE : H ++ wr o = enc_file (mkF names types pts)) by (rewrite E1; reflexivity). rewrite OE in *.
  assert (WF : file_wf ok (mkF names types pts)). { apply file_wf_ok; auto. eapply file_fine; eauto. }
  destruct (complete_lemma ok coins pos t _ WF) as (tr & RD & (D1 & D2 & D3) & _). cbn [f_names f_types f_points] in *.
  exists tr. repeat match goal with |- _ /\ _ => split end; auto. eapply E5; eauto.
Qed.

(** The passes of a interleaving are passes of the program. *)
Lemma history_every : forall Q ps l q, interleaving ps l q -> Forall (every Q) ps -> Forall Q l /\ Forall (every Q) q.
Proof.
  intros Q ps l q HI. induction HI as [ps|ps qs l q PM HI IH|e r ps l q HI IH|c r ps l q HI IH]; intros F.
  - split; auto.
  - apply IH. eapply Permutation_Forall; eauto.
  - inversion F as [|? ? E F']; subst. inversion E; subst. destruct IH as [I1 I2]; [constructor; auto|]. split; auto.
  - inversion F as [|? ? E F']; subst. inversion E; subst. apply IH. repeat constructor; auto.
Qed.

(** What the processes that are not logging have left to do. *)
Definition left_to (p : proc) (its : list (list item)) : Prop := q_lock p = None -> Forall2 (runs code) its (q_threads p).

Lemma idle_runs : forall its ths, Forall2 (idle code B) its ths -> Forall2 (runs code) its ths.
Proof. intros its ths F. induction F as [|a b l m X F IH]; constructor; auto. apply X. Qed.

Lemma forks_lemma : forall its, Forall (every fine) its ->
  exists ths, Forall2 (runs code) its ths /\
    forall s, reach B P orderly (fstart B names types ths) s ->
    (exists order left dead, interleaving its order (concat left ++ dead) /\ Forall2 left_to (f_procs s) left /\
       forall ok coins pos t, (forall n, n <= lenN (f_file s) -> ok n = true) ->
       exists tr, reads ok coins pos t 0 (f_file s) = Ok tr /\
         tr_names tr = names /\ tr_types tr = types /\ Forall2 (event_shows sites tr) order (tr_points tr)) \/
    (exists p more, f_procs s = [p] /\ (q_lock p = None -> q_threads p = ths \/ q_threads p = []) /\
       (f_file s ++ more = enc_header names types \/
        exists e a, event_run code e = Ok a /\ f_file s ++ more = enc_header names types ++ written a)).
Proof.
  intros its E. destruct (fine_all its E) as (ths & R). exists ths. split; auto. intros s RE.
  assert (I : inv code B H its false s). { eapply reach_inv; eauto. intros ? ? O. split; auto. discriminate. }
  destruct I as [procs left dead order HI F D SM|file p (m & C & M)|file out EQ D|file more e SF SE EQ|file more SF EQ]; cbn [f_procs f_file].
  - left. exists order, left, dead. split; auto. split.
    + clear -F. induction F as [|p l procs left (m & C & M) F IH]; constructor; auto. intros LK.
      destruct (core_none _ _ _ _ _ _ C LK) as [_ X]. eapply idle_runs; eauto.
    + destruct (history_every _ _ _ _ HI E) as [FO _]. intros. apply whole_read; auto.
  - right. assert (LK : q_lock p = None -> q_threads p = ths \/ q_threads p = []).
    { intros LK. left. destruct (core_none _ _ _ _ _ _ C LK) as [_ X]. apply idle_runs in X. clear -R X.
      assert (FU : forall it a, runs code it a -> forall b, runs code it b -> a = b).
      { intros it a X1. induction X1 as [|e a r b HR X1 IH|c a r b X1 IH1 X2 IH2|r b X1 IH]; intros y Y; inversion Y; subst; auto.
        - f_equal; [congruence|auto].
        - f_equal; [f_equal|]; auto.
        - f_equal; auto. }
      revert X. generalize (q_threads p). induction R as [|it t its ths X R IH]; intros l Y; inversion Y; subst; auto. f_equal; eauto. }
    destruct m as [|e part|e|].
    + exists p, (concat (q_out p) ++ q_buf p). auto.
    + destruct (core_small_in _ _ _ _ _ _ _ C) as ((ws & SE & _) & more & EB). exists p, ((concat (q_out p) ++ q_buf p) ++ more). split; auto. split; auto.
      right. exists e, (acts_of ws). split; auto. fold H. rewrite written_acts, <- (bytes_acts _ _ _ SE), EB.
      rewrite app_assoc, M. now rewrite <- app_assoc.
    + destruct (core_small _ _ _ _ _ _ C) as (ws & SE & _). destruct M as (_ & _ & M). exists p, (concat (q_out p)). split; auto. split; auto.
      right. exists e, (acts_of ws). split; auto. now rewrite written_acts, <- (bytes_acts _ _ _ SE).
    + contradiction.
  - right. exists (mkPr [] out None []), (concat out). auto.
  - right. eexists _, more. split; [reflexivity|]. split; auto. right. destruct SE as (ws & SE & _). exists e, (acts_of ws). split; auto.
    now rewrite written_acts, <- (bytes_acts _ _ _ SE).
  - right. eexists _, more. split; [reflexivity|]. auto.
Qed.

(** Nobody dies: everything is logged. *)
Lemma all_over : forall I T, Forall2 (idle code B) I T -> Forall (eq []) T -> Forall over I.
Proof.
  intros I T F. induction F as [|it t I T X F IH]; intros A; constructor; inversion A; subst; auto. left. eapply idle_nil; eauto.
Qed.
Lemma ended_core : forall L T I m, core code B L T I m -> Forall (eq []) T -> m = MFree /\ Forall over I.
Proof.
  intros L T I m C E. inversion C as [? ? F|t1 t2 b l1 l2 q e ws1 ws2 F1 F2 Q X N S|t1 t2 b l1 l2 q e F1 F2 Q S|t1 t2 b l1 l2 q F1 F2 Q]; subst.
  - split; auto. eapply all_over; eauto.
  - rewrite Forall_forall in E. exfalso. specialize (E _ (in_elt _ _ _)). destruct ws2; discriminate.
  - rewrite Forall_forall in E. exfalso. specialize (E _ (in_elt _ _ _)). discriminate.
  - rewrite Forall_forall in E. exfalso. specialize (E _ (in_elt _ _ _)). discriminate.
Qed.

Lemma complete_all : forall its, Forall (every fine) its ->
  exists ths, Forall2 (runs code) its ths /\
    forall s, reach B P peaceful (fstart B names types ths) s -> Forall ended (f_procs s) ->
    exists order rest, interleaving its order rest /\ Forall over rest /\
      forall ok coins pos t, (forall n, n <= lenN (f_file s) -> ok n = true) ->
      exists tr, reads ok coins pos t 0 (f_file s) = Ok tr /\
        tr_names tr = names /\ tr_types tr = types /\ Forall2 (event_shows sites tr) order (tr_points tr).
Proof.
  intros its E. destruct (fine_all its E) as (ths & R). exists ths. split; auto. intros s RE EN.
  assert (I : inv code B H its true s). { eapply reach_inv; eauto. intros ? ? O. split; auto. apply O. }
  assert (HD : forall file, file = H -> forall ok coins pos t, (forall n, n <= lenN file -> ok n = true) ->
      exists tr, reads ok coins pos t 0 file = Ok tr /\
        tr_names tr = names /\ tr_types tr = types /\ Forall2 (event_shows sites tr) [] (tr_points tr)).
  { intros file -> ok coins pos t OK. pose proof (whole_read [] (Forall_nil _) ok coins pos t) as W. cbn [map concat] in W. rewrite app_nil_r in W. auto. }
  destruct I as [procs left dead order HI F D SM|file p (m & C & M)|file out EQ D|file more e SF SE EQ|file more SF EQ]; cbn [f_procs f_file] in *;
    try discriminate.
  - exists order, (concat left ++ dead). split; auto. split.
    + apply Forall_app. split.
      * clear -F EN. induction F as [|p l procs left (m & C & M) F IH]; [constructor|]. inversion EN as [|? ? (E1 & _) E2]; subst. cbn [concat].
        apply Forall_app. split; auto. eapply ended_core; eauto.
      * eapply Forall_impl; [|exact D]. intros it X. apply X. auto.
    + destruct (history_every _ _ _ _ HI E) as [FO _]. intros. apply whole_read; auto.
  - inversion EN as [|? ? (E1 & E2 & E3) _]; subst. destruct (ended_core _ _ _ _ C E1) as [-> O].
    exists [], its. split; [constructor|]. split; auto. apply HD. rewrite <- M, E2, E3. cbn. now rewrite app_nil_r.
  - inversion EN as [|? ? (E1 & E2 & E3) _]; subst. cbn in E2. subst out. exists [], its. split; [constructor|]. split.
    + eapply Forall_impl; [|exact D]. intros it X. apply X. auto.
    + apply HD. rewrite <- EQ. cbn. now rewrite app_nil_r.
Qed.

(** ** Nobody waits for ever *)
Hypothesis BPOS : 0 < B.

Lemma fput_nonempty : forall buf bs, Forall (fun w => w <> []) (fst (fput B buf bs)).
Proof.
  intros. unfold fput. destruct (N.leb_spec (lenN bs) (B - lenN buf)) as [L|L]; cbn [fst]; [constructor|].
  constructor.
  - destruct buf as [|b buf]; [|discriminate]. cbn [app]. destruct bs as [|c bs]; [cbn in L; lia|].
    intros X. apply (f_equal lenN) in X. rewrite lenN_takeN in X. cbn [lenN length] in *. change (lenN []) with 0 in *. lia.
  - destruct (N.eqb_spec (lenN (dropN (B - lenN buf) bs) - lenN (dropN (B - lenN buf) bs) mod B) 0) as [|D]; constructor; [|constructor].
    intros X. apply (f_equal lenN) in X. rewrite lenN_takeN in X. change (lenN []) with 0 in X. lia.
Qed.
Lemma flush_nonempty : forall l, Forall (fun w => w <> []) (flush l).
Proof. destruct l; repeat constructor. discriminate. Qed.
Lemma update_in : forall A (l : list A) i x y, In y (update l i x) -> y = x \/ In y l.
Proof. clear BPOS. induction l as [|a l IH]; intros [|i] x y I; cbn in *; auto; destruct I as [<-|I]; auto. apply IH in I. tauto. Qed.

Definition out_ok (s : fstate) : Prop := Forall (fun p => Forall (fun w => w <> []) (q_out p)) (f_procs s).
Lemma out_step : forall s l s', out_ok s -> fstep B P s l s' -> out_ok s'.
Proof.
  intros s l s' O ST. unfold out_ok in *.
  assert (U : forall procs i q, Forall (fun p => Forall (fun w => w <> []) (q_out p)) procs -> Forall (fun w => w <> []) (q_out q) ->
    Forall (fun p => Forall (fun w => w <> []) (q_out p)) (update procs i q)).
  { intros procs i q F X. apply Forall_forall. intros y I. apply update_in in I. destruct I as [->|I]; auto. rewrite Forall_forall in F. auto. }
  inversion ST as [? ? i p w1 w2 ws HP HO W1 W2|? ? i p j r HP HO HT HL|? ? i p j r HP HO HT|? ? i p j bs r HP HO HT|? ? i p j r HP HO HT
    |? ? i p j c r HP HO HT|? ? i p j r HP HO HT|? ? i p HP]; subst; cbn [f_procs] in *;
    try (apply U; auto; cbn [q_out]; auto using fput_nonempty, flush_nonempty; fail).
  - apply U; auto. cbn [q_out]. rewrite Forall_forall in O. specialize (O p (nth_error_In _ _ HP)). rewrite HO in O. inversion O; subst.
    apply Forall_app. split; auto using flush_nonempty.
  - apply Forall_app. split; [apply U; auto; constructor|]. repeat constructor.
Qed.

Lemma idle_moves : forall file procs i p j t it, nth_error procs i = Some p -> q_out p = [] -> q_lock p = None ->
  nth_error (q_threads p) j = Some t -> idle code B it t -> t <> [] ->
  exists l s', In l [LRun i; LFork i; LExit i] /\ fstep B P (mkFs file procs) l s'.
Proof.
  intros file procs i p j t it HP HO HL HT ID N. destruct t as [|a r]; [congruence|]. destruct a as [a|c|].
  - apply idle_do in ID. destruct ID as (? & ? & ? & ? & _ & _ & _ & _ & -> & _). do 2 eexists. split; [now left|]. eapply fs_lock; eauto.
  - do 2 eexists. split; [right; now left|]. eapply fs_fork; eauto.
  - do 2 eexists. split; [right; right; now left|]. eapply fs_exit; eauto.
Qed.

Lemma core_moves : forall file procs i p its m, nth_error procs i = Some p -> q_out p = [] -> core code B (q_lock p) (q_threads p) its m ->
  ~ Forall (eq []) (q_threads p) -> exists l s', In l [LRun i; LFork i; LExit i] /\ fstep B P (mkFs file procs) l s'.
Proof.
  intros file procs i p its m HP HO C N.
  inversion C as [ths its' F EL ET|t1 t2 b l1 l2 q e ws1 ws2 F1 F2 Q X NE S EL ET|t1 t2 b l1 l2 q e F1 F2 Q S EL ET|t1 t2 b l1 l2 q F1 F2 Q EL ET].
  - assert (X : exists j t it, nth_error (q_threads p) j = Some t /\ idle code B it t /\ t <> []).
    { subst its'. clear -F N. induction F as [|it t its ths X F IH]; [exfalso; apply N; constructor|].
      destruct t as [|a t]; [|exists O, (a :: t), it; repeat split; auto; try apply X; discriminate].
      destruct IH as (j & t & it' & H1 & H2 & H3); [intros Y; apply N; constructor; auto|]. exists (S j), t, it'. auto. }
    destruct X as (j & t & it & X1 & X2 & X3). eapply idle_moves; eauto.
  - assert (HT : nth_error (q_threads p) (length t1) = Some (map PDo (map AWrite ws2 ++ [AFlush; AUnlock]) ++ b)) by (rewrite <- ET; apply nth_mid).
    destruct ws2 as [|w ws2]; cbn [map app] in HT; do 2 eexists; (split; [now left|]); [eapply fs_flush; eauto|eapply fs_put; eauto].
  - assert (HT : nth_error (q_threads p) (length t1) = Some (PDo AUnlock :: b)) by (rewrite <- ET; apply nth_mid).
    do 2 eexists; (split; [now left|]). eapply fs_unlock; eauto.
  - assert (HT : nth_error (q_threads p) (length t1) = Some (PDo AUnlock :: b)) by (rewrite <- ET; apply nth_mid).
    do 2 eexists; (split; [now left|]). eapply fs_unlock; eauto.
Qed.

Lemma moves_lemma : forall its ths, Forall (every fine) its -> Forall2 (runs code) its ths ->
  forall s, reach B P orderly (fstart B names types ths) s ->
  forall i p, nth_error (f_procs s) i = Some p -> ~ (Forall (eq []) (q_threads p) /\ q_out p = []) ->
  exists l s', In l [LRun i; LFork i; LExit i] /\ fstep B P s l s'.
Proof.
  intros its ths E R s RE i p HP N.
  assert (O : out_ok s).
  { clear -RE BPOS BP. induction RE as [|s l s' RE IH O ST]; [repeat constructor|]. eapply out_step; eauto. }
  assert (I : inv code B H its false s). { eapply reach_inv; eauto. intros ? ? Y. split; auto. discriminate. }
  destruct (q_out p) as [|w ws] eqn:HO.
  - assert (C : Forall (eq []) (q_threads p) \/ exists its m, core code B (q_lock p) (q_threads p) its m).
    { destruct I as [procs left dead order HI F D SM|file q (m & C & M)|file out EQ D|file more e SF SE EQ|file more SF EQ]; cbn [f_procs] in *.
      - right. clear -HP F. revert i HP. induction F as [|q l procs left (m & C & M) F IH]; intros [|i] HP; cbn in HP; try discriminate; eauto.
        injection HP as <-. eauto.
      - right. destruct (one _ _ _ HP) as [_ ->]. eauto.
      - left. destruct (one _ _ _ HP) as [_ ->]. constructor.
      - left. destruct (one _ _ _ HP) as [_ ->]. constructor.
      - left. destruct (one _ _ _ HP) as [_ ->]. constructor. }
    destruct C as [C|(its' & m & C)]; [exfalso; apply N; auto|]. destruct s as [file procs]. cbn [f_procs] in *. eapply core_moves; eauto.
  - destruct s as [file procs]. cbn [f_procs] in *. unfold out_ok in O. cbn [f_procs] in O. rewrite Forall_forall in O.
    specialize (O p (nth_error_In _ _ HP)). rewrite HO in O. inversion O; subst.
    do 2 eexists. split; [now left|]. apply (fs_write B P file procs i p w [] ws); auto. now rewrite app_nil_r.
Qed.

(** ** Single-threaded programs *)
Definition thin (s : fstate) : Prop := Forall (fun p => (length (q_threads p) <= 1)%nat) (f_procs s).
Lemma update_length : forall A (l : list A) i x, length (update l i x) = length l.
Proof. clear BPOS. induction l; intros [|i] x; cbn; auto. Qed.
Lemma thin_step : forall s l s', thin s -> fstep B P s l s' -> thin s'.
Proof. clear BPOS.
  intros s l s' O ST. unfold thin in *.
  assert (U : forall procs i q, Forall (fun p => (length (q_threads p) <= 1)%nat) procs -> (length (q_threads q) <= 1)%nat ->
    Forall (fun p => (length (q_threads p) <= 1)%nat) (update procs i q)).
  { intros procs i q F X. apply Forall_forall. intros y I. apply update_in in I. destruct I as [->|I]; auto. rewrite Forall_forall in F. auto. }
  assert (G : forall i p, nth_error (f_procs s) i = Some p -> (length (q_threads p) <= 1)%nat).
  { intros i p HP. rewrite Forall_forall in O. apply O. eapply nth_error_In; eauto. }
  inversion ST as [? ? i p w1 w2 ws HP HO W1 W2|? ? i p j r HP HO HT HL|? ? i p j r HP HO HT|? ? i p j bs r HP HO HT|? ? i p j r HP HO HT
    |? ? i p j c r HP HO HT|? ? i p j r HP HO HT|? ? i p HP]; subst; cbn [f_procs] in *; specialize (G _ _ HP);
    try (apply U; auto; cbn [q_threads length]; rewrite ?update_length; auto; fail).
  apply Forall_app. split; [apply U; auto; cbn [q_threads]; rewrite update_length; auto|]. constructor; [cbn; lia|constructor].
Qed.

Lemma short_core : forall L T I m x r, core code B L T I m -> (length T <= 1)%nat -> nth_error T 0 = Some (x :: r) -> (forall a, x <> PDo a) -> L = None.
Proof. clear BPOS.
  intros L T I m x r C LE HT N.
  inversion C as [ths its' F EL ET|t1 t2 b l1 l2 q e ws1 ws2 F1 F2 Q X NE S EL ET|t1 t2 b l1 l2 q e F1 F2 Q S EL ET|t1 t2 b l1 l2 q F1 F2 Q EL ET]; auto; exfalso;
    subst T; rewrite app_length in LE; cbn [length] in LE; destruct t1; cbn [length] in LE; try lia; cbn in HT.
  - destruct ws2; cbn in HT; injection HT as <- _; eapply N; reflexivity.
  - injection HT as <- _; eapply N; reflexivity.
  - injection HT as <- _; eapply N; reflexivity.
Qed.

Lemma single_lemma : forall e it ths s, every fine (IPass e :: it) -> Forall2 (runs code) [IPass e :: it] ths ->
  reach B P (fun _ _ => True) (fstart B names types ths) s -> reach B P orderly (fstart B names types ths) s.
Proof. clear BPOS.
  intros e it ths s E R RE.
  assert (T : reach B P orderly (fstart B names types ths) s /\ thin s); [|apply T].
  induction RE as [|s l s' RE (IH & TH) _ ST].
  { split; [constructor|]. unfold thin, fstart. cbn [f_procs]. constructor; [|constructor]. cbn [q_threads]. inversion R as [|? ? ? ? ? R1]; subst.
    inversion R1; subst. cbn. lia. }
  split; [|eapply thin_step; eauto]. eapply re_step; [exact IH| |exact ST].
  assert (I : inv code B H [IPass e :: it] false s). { eapply reach_inv; eauto. intros ? ? Y. split; auto. discriminate. }
  assert (G : forall i p, nth_error (f_procs s) i = Some p -> (length (q_threads p) <= 1)%nat).
  { intros i p HP. unfold thin in TH. rewrite Forall_forall in TH. apply TH. eapply nth_error_In; eauto. }
  assert (J : forall i p j x r, nth_error (f_procs s) i = Some p -> nth_error (q_threads p) j = Some (x :: r) -> (forall a, x <> PDo a) ->
    q_out p = [] -> q_lock p = None /\ ((exists c, x = PFork c) -> q_buf p = [])).
  { intros i p j x r HP HT NX HO. pose proof (G _ _ HP) as LE.
    assert (j = 0%nat). { assert (j < length (q_threads p))%nat by (apply nth_error_Some; congruence). lia. } subst j.
    destruct I as [procs left dead order HI F D SM|file q (m & C & M)|file out EQ D|file more e0 SF SE EQ|file more SF EQ]; cbn [f_procs] in *.
    - assert (C : exists l, proc_ok code B p l).
      { clear -HP F. revert i HP. induction F as [|q l procs left X F IH]; intros [|i] HP; cbn in HP; try discriminate; eauto. injection HP as <-. eauto. }
      destruct C as (l0 & m & C & M). pose proof (short_core _ _ _ _ _ _ C LE HT NX) as LK. split; auto. intros _.
      destruct (core_none _ _ _ _ _ _ C LK) as [-> _]. apply M.
    - destruct (one _ _ _ HP) as [_ ->]. pose proof (short_core _ _ _ _ _ _ C LE HT NX) as LK. split; auto. intros (c & ->).
      destruct (core_none _ _ _ _ _ _ C LK) as [_ X]. inversion X as [|? ? ? ? X1 X2 X3 X4]; subst. rewrite <- X4 in HT. cbn in HT. injection HT as ->.
      apply idle_fork in X1. destruct X1 as (? & ? & ? & _). discriminate.
    - destruct (one _ _ _ HP) as [_ ->]. cbn in HT. discriminate.
    - destruct (one _ _ _ HP) as [_ ->]. cbn in HT. discriminate.
    - destruct (one _ _ _ HP) as [_ ->]. cbn in HT. discriminate. }
  inversion ST as [? ? i p w1 w2 ws HP HO W1 W2|? ? i p j r HP HO HT HL|? ? i p j r HP HO HT|? ? i p j bs r HP HO HT|? ? i p j r HP HO HT
    |? ? i p j c r HP HO HT|? ? i p j r HP HO HT|? ? i p HP]; subst; cbn [orderly f_procs] in *; auto.
  - destruct (J _ _ _ _ _ HP HT ltac:(discriminate) HO) as [J1 J2]. split; intros q HQ; cbn [f_procs] in HQ; rewrite HP in HQ; injection HQ as <-; eauto.
  - destruct (J _ _ _ _ _ HP HT ltac:(discriminate) HO) as [J1 J2]. intros q HQ; cbn [f_procs] in HQ; rewrite HP in HQ; injection HQ as <-; auto.
Qed.
End Forks.

(** ** Running a schedule *)

(** Process [i]: its pending write, or the next action of its thread [j]. *)
Definition fmove (B P : N) (s : fstate) (ij : nat * nat) : option (flabel * fstate) :=
  let i := fst ij in let j := snd ij in
  let file := f_file s in let procs := f_procs s in
  match nth_error procs i with
  | None => None
  | Some p =>
    match q_out p with
    | [] :: _ => None
    | w :: ws => Some (LRun i, mkFs (file ++ w) (update procs i (mkPr (q_buf p) ws (q_lock p) (q_threads p))))
    | [] =>
      match nth_error (q_threads p) j with
      | Some (PDo ALock :: r) =>
        match q_lock p with
        | None => Some (LRun i, mkFs file (update procs i (mkPr (q_buf p) [] (Some j) (update (q_threads p) j r))))
        | Some _ => None
        end
      | Some (PDo AUnlock :: r) => Some (LRun i, mkFs file (update procs i (mkPr (q_buf p) [] None (update (q_threads p) j r))))
      | Some (PDo (AWrite bs) :: r) => Some (LRun i, mkFs file (update procs i
          (mkPr (snd (fput B (q_buf p) bs)) (fst (fput B (q_buf p) bs)) (q_lock p) (update (q_threads p) j r))))
      | Some (PDo AFlush :: r) => Some (LRun i, mkFs file (update procs i (mkPr [] (flush (q_buf p)) (q_lock p) (update (q_threads p) j r))))
      | Some (PFork c :: r) => Some (LFork i, mkFs file (update procs i (mkPr (q_buf p) [] (q_lock p) (update (q_threads p) j r)) ++
          [mkPr (q_buf p) [] (match q_lock p with None => None | Some o => Some (if Nat.eqb o j then 0%nat else 1%nat) end) [c]]))
      | Some (PExit :: r) => Some (LExit i, mkFs file (update procs i (mkPr [] (flush (q_buf p)) None [])))
      | _ => None
      end
    end
  end.
Fixpoint fplay (B P : N) (s : fstate) (l : list (nat * nat)) : option fstate :=
  match l with
  | [] => Some s
  | ij :: l => match fmove B P s ij with Some (_, s') => fplay B P s' l | None => None end
  end.

Lemma fmove_step : forall B P s ij l s', fmove B P s ij = Some (l, s') -> fstep B P s l s'.
Proof.
  intros B P [file procs] [i j] l s' E. unfold fmove in E. cbn [fst snd f_file f_procs] in E.
  destruct (nth_error procs i) as [p|] eqn:HP; [|discriminate]. destruct (q_out p) as [|[|b w] ws] eqn:HO; [|discriminate|].
  - destruct (nth_error (q_threads p) j) as [[|[[]|c|] r]|] eqn:HT; try discriminate.
    + destruct (q_lock p) eqn:HL; [discriminate|]. injection E as <- <-. eapply fs_lock; eauto.
    + injection E as <- <-. eapply fs_unlock; eauto.
    + injection E as <- <-. eapply fs_put; eauto.
    + injection E as <- <-. eapply fs_flush; eauto.
    + injection E as <- <-. eapply fs_fork; eauto.
    + injection E as <- <-. eapply fs_exit; eauto.
  - injection E as <- <-. apply (fs_write B P file procs i p (b :: w) [] ws); auto; [now rewrite app_nil_r|discriminate].
Qed.
Lemma fplay_reach : forall B P s0 l s s', reach B P (fun _ _ => True) s0 s -> fplay B P s l = Some s' -> reach B P (fun _ _ => True) s0 s'.
Proof.
  induction l as [|ij l IH]; intros s s' R E; cbn [fplay] in E; [injection E as <-; auto|].
  destruct (fmove B P s ij) as [[lab s1]|] eqn:M; [|discriminate]. eapply IH; [|exact E]. eapply re_step; eauto. eapply fmove_step; eauto.
Qed.

(** A process whose only thread waits for a lock that nobody gives back. *)
Lemma update_same : forall A (l : list A) i x y, nth_error l i = Some x -> nth_error (update l i y) i = Some y.
Proof. induction l as [|a l IH]; intros [|i] x y E; cbn in *; try discriminate; eauto. Qed.
Lemma update_other : forall A (l : list A) i k y, i <> k -> nth_error (update l i y) k = nth_error l k.
Proof. induction l as [|a l IH]; intros [|i] [|k] y N; cbn; auto; try congruence. Qed.
Lemma blocked_lemma : forall B P s k o r s', 
  (exists buf, nth_error (f_procs s) k = Some (mkPr buf [] (Some o) [PDo ALock :: r])) ->
  reach B P (fun _ _ => True) s s' -> exists p, nth_error (f_procs s') k = Some p /\ (q_threads p = [PDo ALock :: r] \/ p = mkPr [] [] None []).
Proof.
  intros B P s k o r s' S0 R.
  assert (G : exists p, nth_error (f_procs s') k = Some p /\
    ((exists buf, p = mkPr buf [] (Some o) [PDo ALock :: r]) \/ p = mkPr [] [] None [])).
  { induction R as [|s1 l s2 R (p & HP & ST) _ F]; [destruct S0 as (buf & S0); exists (mkPr buf [] (Some o) [PDo ALock :: r]); split; auto; left; eauto|].
    assert (KEEP : forall i q, i <> k -> exists p, nth_error (update (f_procs s1) i q) k = Some p /\
      ((exists buf, p = mkPr buf [] (Some o) [PDo ALock :: r]) \/ p = mkPr [] [] None [])).
    { intros i q N. rewrite update_other by auto. eauto. }
    inversion F as [? ? i q w1 w2 ws HQ HO W1 W2|? ? i q j r0 HQ HO HT HL|? ? i q j r0 HQ HO HT|? ? i q j bs r0 HQ HO HT|? ? i q j r0 HQ HO HT
      |? ? i q j c r0 HQ HO HT|? ? i q j r0 HQ HO HT|? ? i q HQ]; subst; cbn [f_procs] in *;
      (destruct (Nat.eq_dec i k) as [->|NE]; [rewrite HP in HQ; injection HQ as <-|]).
    all: try (apply KEEP; auto; fail).
    all: try (destruct ST as [[buf ->]| ->]; cbn in *; discriminate).
    all: try (destruct ST as [[buf ->]| ->]; cbn in *; destruct j as [|[|j]]; discriminate).
    - destruct (KEEP i (mkPr (q_buf q) [] (q_lock q) (update (q_threads q) j r0)) NE) as (p' & K1 & K2). exists p'. split; auto.
      rewrite nth_error_app1; auto. apply nth_error_Some. congruence.
    - eexists. split; [eapply update_same; eauto|]. auto. }
  destruct G as (p & HP & [[buf ->]| ->]); eexists; (split; [eauto|]); auto.
Qed.
