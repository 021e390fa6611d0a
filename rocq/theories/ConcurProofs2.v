(** Concurrent additions: instances, files without auxiliary entries, progress, readers. *)
From Verif Require Import BaseProofs Types Stream SkipList AMap SkipListProofs FormatSpec Reader ReaderProofs ReaderProofs2 ReaderProofs3 ReaderMore MemMapProofs MemMapMore.
From Verif Require Import Concur ConcurSpec ConcurReadProofs ConcurProofs.
From Coq Require Import Permutation.

Lemma leads_mono : forall V A B (R S : A -> B -> Prop) p o, (forall a b, R a b -> S a b) ->
  leads V R p o -> leads V S p o.
Proof.
  intros V A B R S p o H L. induction L; constructor; auto. destruct o, o'; cbn in *; auto.
Qed.

(** ** The two instances *)
Definition V_exact (d : list byte) (v : N) : Prop := lenN d = 8 -> v = le_val d.
Definition W_exact (s v : N) : Prop := v = s.

Lemma overwrite_full : forall old d, lenN d = 8 -> overwrite old d = le_val d.
Proof.
  intros old d L. unfold overwrite. rewrite L. rewrite dropN_ge by (rewrite lenN_le_bytes; reflexivity).
  rewrite app_nil_r. reflexivity.
Qed.
Lemma VW_exact : forall old d v, W_exact (overwrite old d) v -> V_exact d v.
Proof. intros old d v -> L. apply overwrite_full. exact L. Qed.

Lemma rtrace_eq : forall x y, rtrace eq x y -> x = y.
Proof.
  intros [n t p] [n' t' p'] (E1 & E2 & E3). cbn in *. subst. f_equal.
  induction E3 as [|a b l l' H _ IH]; auto. f_equal; auto.
  destruct a, b, H as (E1 & E2 & E4 & E5 & E6). cbn in *. congruence.
Qed.

Lemma start_exact : forall c, leads V_exact eq (start_input c) (read_input c).
Proof.
  intro c. unfold start_input, read_input. destruct (in_file c) as [(bs & t)|]; [|constructor; reflexivity].
  eapply leads_mono; [apply rtrace_eq|]. apply trace_leads; auto.
  intros l l' d v -> L HV. rewrite HV; auto.
Qed.

Definition VT (d : list byte) (v : N) : Prop := True.
Definition WT (s v : N) : Prop := True.

Lemma rtrace_same : forall x y, rtrace (fun a b => length a = length b) x y -> same_but_aux x y.
Proof. intros x y H. exact H. Qed.

Lemma start_racy : forall c, leads VT same_but_aux (start_input c) (read_input c).
Proof.
  intro c. unfold start_input, read_input. destruct (in_file c) as [(bs & t)|]; [|constructor; reflexivity].
  eapply leads_mono; [apply rtrace_same|]. apply trace_leads; auto.
  intros l l' d v E L HV. rewrite !app_length. cbn. lia.
Qed.

Lemma separate_calm : forall grow sched st, aux_separate grow sched st -> calm_sched W_exact grow sched st.
Proof.
  induction sched as [|i r IH]; intros st H; cbn in *; auto. destruct H as (_ & H). split; auto.
  right. destruct r; cbn in H; apply H.
Qed.
Lemma calm_racy : forall grow sched st, calm_sched WT grow sched st.
Proof. induction sched as [|i r IH]; intros st; cbn; auto. split; auto. left. intros. exact I. Qed.

Lemma separate_lemma : forall grow static l cap cs sched sh ts, (forall n, (n < grow n)%nat) -> (length l <= cap)%nat ->
  aux_separate grow sched (start_state static l cap cs) ->
  exec grow sched (start_state static l cap cs) = (sh, ts) -> Forall returned ts ->
  exists added, contents sh = l ++ added /\ Permutation added (traces_of cs) /\ map answer ts = map answer_alone cs.
Proof.
  intros grow static l cap cs sched sh ts G L SEP E HR.
  assert (I : inv V_exact W_exact eq cs l (exec grow sched (start_state static l cap cs))).
  { apply exec_inv; auto.
    - apply VW_exact.
    - intro s. reflexivity.
    - apply start_inv; auto. apply start_exact.
    - apply separate_calm. exact SEP. }
  rewrite E in I. destruct (returned_end _ _ _ _ _ _ _ I HR) as (added & mine & E1 & P & F & A).
  exists added. split; [exact E1|split; [|exact A]].
  assert (X : mine = traces_of cs) by (clear -F; induction F; congruence). subst. exact P.
Qed.

Lemma racy_lemma : forall grow static l cap cs sched sh ts, (forall n, (n < grow n)%nat) -> (length l <= cap)%nat ->
  exec grow sched (start_state static l cap cs) = (sh, ts) -> Forall returned ts ->
  exists added mine, contents sh = l ++ added /\ Permutation added mine /\ Forall2 same_but_aux mine (traces_of cs) /\
    map answer ts = map answer_alone cs.
Proof.
  intros grow static l cap cs sched sh ts G L E HR.
  assert (X : inv VT WT same_but_aux cs l (exec grow sched (start_state static l cap cs))).
  { apply exec_inv; auto.
    - intros; exact I.
    - apply start_inv; auto. apply start_racy.
    - apply calm_racy. }
  rewrite E in X. exact (returned_end _ _ _ _ _ _ _ X HR).
Qed.

(** No thread crashes because of the others. *)
Lemma crash_lemma_c : forall grow static l cap cs sched sh ts i c o, (forall n, (n < grow n)%nat) -> (length l <= cap)%nat ->
  exec grow sched (start_state static l cap cs) = (sh, ts) -> nth_error cs i = Some (CallAdd c) -> nth_error ts i = Some (TCrash o) ->
  (exists u, o = UB u /\ read_input c = UB u) \/ (o = Abort /\ read_input c = Abort).
Proof.
  intros grow static l cap cs sched sh ts i c o G L E Ec Et.
  assert (X : inv VT WT same_but_aux cs l (exec grow sched (start_state static l cap cs))).
  { apply exec_inv; auto.
    - intros; exact I.
    - apply start_inv; auto. apply start_racy.
    - apply calm_racy. }
  rewrite E in X. destruct X as (log & F & _). destruct (Forall2_nth_r _ _ _ _ _ _ _ F Et) as (c' & Ec' & T).
  rewrite Ec in Ec'. injection Ec' as <-. cbn in T. destruct o; try contradiction; eauto.
Qed.

(** ** Files without auxiliary entries *)
Definition quiet {A} (p : rprog A) : Prop := exists o, p = Fin o.

Section Quiet.
Variable ok : alloc.
Variable coins : nat -> bool.
Variable pos : nat.
Variable names : list name.
Variable types : list tdesc.
Variable t : tail_kind.
Notation SM := (skip_map coins pos).

Lemma enc_tag : forall e r, (forall a, e <> EAux a) -> exists b q, enc_entry types e ++ r = b :: q /\ b <> x04.
Proof. intros [id|nm ty d|a s|a] r H; cbn; try (eexists; eexists; split; [reflexivity|discriminate]). exfalso. apply (H a). reflexivity. Qed.

Lemma entry_quiet : forall b q m acc, b <> x04 ->
  read_entry_s ok SM names types m acc (open_stream (b :: q) t) = Fin (read_entry ok SM names types m acc (open_stream (b :: q) t)).
Proof. intros b q m acc H. unfold read_entry_s. rewrite read_tag. destruct b; try reflexivity. congruence. Qed.

Lemma entries_quiet : forall es f m am acc r, repr m am -> Forall (entry_wf ok names types) es ->
  (forall a, ~ In (EAux a) es) ->
  exists o, read_entries_s f ok SM names types m acc (open_stream (enc_entries types es ++ x00 :: r) t) = Fin o /\
    (forall a' m' s', o = Ok (a', m', s') -> s' = open_stream r t /\ exists am', repr m' am').
Proof.
  induction es as [|e es IH]; intros f m am acc r HR HW HA; (destruct f as [|f]; [eexists; split; [reflexivity|discriminate]|]).
  - cbn [enc_entries map concat app read_entries_s]. rewrite entry_quiet by discriminate.
    unfold read_entry. rewrite read_tag. cbn [bind]. rewrite good_open. cbn. eexists. split; [reflexivity|].
    intros a' m' s' E. injection E as <- <- <-. eauto.
  - inversion HW as [|? ? H1 H2]; subst. cbn [read_entries_s]. unfold enc_entries. cbn [map concat]. rewrite <- app_assoc.
    destruct (enc_tag e (concat (map (enc_entry types) es) ++ x00 :: r)) as (b & q & E & NB).
    { intros a ->. apply (HA a). left. reflexivity. }
    rewrite E, entry_quiet by exact NB. rewrite <- E.
    pose proof (read_entry_transfer ok coins pos names types m am acc
      (open_stream (enc_entry types e ++ concat (map (enc_entry types) es) ++ x00 :: r) t) HR) as T.
    rewrite (read_entry_enc ok names types t am acc e) in T by exact H1.
    destruct (read_entry ok SM names types m acc _) as [(((g & a1) & m1) & s1)| | | |] eqn:ER; cbn [rbind];
      try (eexists; split; [reflexivity|discriminate]).
    destruct (step types am acc e) as [(am1 & acc1)| | | |]; cbn [bind same_entry] in T; try contradiction.
    destruct T as (-> & -> & -> & HR'). apply (IH f m1 am1 acc1 r HR' H2).
    intros a X. apply (HA a). right. exact X.
Qed.

Lemma points_quiet : forall pts f max i m am, repr m am -> Forall (Forall (entry_wf ok names types)) pts ->
  (forall es a, In es pts -> ~ In (EAux a) es) ->
  quiet (read_points_s f ok SM max i names types m (open_stream (enc_points types pts) t)).
Proof.
  induction pts as [|es pts IH]; intros f max i m am HR HW HA; cbn [enc_points map concat];
    (destruct f as [|f]; cbn [read_points_s]; (destruct (good _ && _); [|eexists; reflexivity]); [eexists; reflexivity|]).
  - unfold read_point_s. cbn [read_entries_s s_rest open_stream length].
    unfold read_entry_s. rewrite read_tag_nil. unfold read_entry. rewrite read_tag_nil. cbn [bind]. rewrite good_dead.
    cbn [negb orb rbind].
    destruct f; cbn [read_points_s]; rewrite good_dead; cbn [andb rbind]; eexists; reflexivity.
  - inversion HW as [|? ? H1 H2]; subst. unfold read_point_s.
    replace (enc_point types es ++ concat (map (enc_point types) pts)) with (enc_entries types es ++ x00 :: enc_points types pts)
      by (unfold enc_point; rewrite <- app_assoc; reflexivity).
    destruct (entries_quiet es (S (S (length (s_rest (open_stream (enc_entries types es ++ x00 :: enc_points types pts) t)))))
      m am pacc0 (enc_points types pts) HR H1) as (o & E & HO).
    { intros a. apply (HA es a). left. reflexivity. }
    rewrite E. destruct o as [((a' & m') & s')| | | |]; cbn [rbind]; try (eexists; reflexivity).
    destruct (HO _ _ _ eq_refl) as (-> & am' & HR').
    destruct (IH f max (i + 1) m' am' HR' H2) as (o & E2).
    { intros es' a X. apply (HA es' a). right. exact X. }
    rewrite E2. destruct o as [(ps & s2)| | | |]; cbn [rbind]; eexists; reflexivity.
Qed.

End Quiet.

Lemma trace_quiet : forall ok coins pos t max F, file_wf ok F -> (forall es a, In es (f_points F) -> ~ In (EAux a) es) ->
  quiet (read_trace_s ok (skip_map coins pos) max (open_stream (enc_file F) t)).
Proof.
  intros ok coins pos t max F (H1 & H2 & H3 & H4) HA. unfold read_trace_s, enc_file, enc_header. rewrite <- app_assoc.
  rewrite read_names_enc by exact H1. cbn [rbind].
  rewrite read_types_enc by exact H2. cbn [rbind].
  destruct (points_quiet ok coins pos (f_names F) (f_types F) t (f_points F)
    (S (S (length (s_rest (open_stream (enc_points (f_types F) (f_points F)) t))))) max 0 (mm_new pos) [] (repr_new _) H3 HA) as (o & E).
  cbn [mo_new skip_map]. rewrite E. destruct o as [(ps & s)| | | |]; cbn [rbind]; eexists; reflexivity.
Qed.

(** Threads whose program never touches the static variable *)
Definition calm_thread (th : tstate) : Prop := match th with TRead p => quiet p | _ => True end.

Lemma quiet_step : forall grow i st k, (forall j th, nth_error (snd st) j = Some th -> j <> k -> calm_thread th) ->
  forall j th, nth_error (snd (pick_thread grow i st)) j = Some th -> j <> k -> calm_thread th.
Proof.
  intros grow i (sh & ts) k H j th. unfold pick_thread. cbn [snd] in H.
  destruct (nth_error ts i) as [x|] eqn:E; [|apply H].
  destruct (tstep grow i sh x) as [(sh' & th')|] eqn:ES; [|apply H]. cbn [snd].
  pose proof (nth_lt _ _ _ _ E) as L.
  destruct (Nat.eq_dec i j) as [->|Ne].
  - rewrite set_nth_same by auto. intros X Nk. injection X as <-.
    specialize (H j x E Nk). destruct x as [p|t|t|t|t b|t b|t|r|q|b q|t|o]; cbn [tstep] in ES; cbv zeta in ES;
      repeat match type of ES with
      | Some _ = Some _ => injection ES as <- <-
      | None = Some _ => discriminate
      | context [match ?y with _ => _ end] => destruct y eqn:?
      end; cbn; auto; try (destruct H as (? & H); discriminate).
  - rewrite set_nth_other by auto. apply H.
Qed.

Lemma quiet_separate : forall grow k sched st, (forall j th, nth_error (snd st) j = Some th -> j <> k -> calm_thread th) ->
  aux_separate grow sched st.
Proof.
  induction sched as [|i r IH]; intros st H; cbn.
  - split; auto. intros i j a b Ea Eb (ka & ->) (kb & ->).
    destruct (Nat.eq_dec i k) as [->|Ni].
    + destruct (Nat.eq_dec j k) as [->|Nj]; auto. destruct (H _ _ Eb Nj) as (? & X). discriminate.
    + destruct (H _ _ Ea Ni) as (? & X). discriminate.
  - split.
    + intros i' j a b Ea Eb (ka & ->) (kb & ->).
      destruct (Nat.eq_dec i' k) as [->|Ni].
      * destruct (Nat.eq_dec j k) as [->|Nj]; auto. destruct (H _ _ Eb Nj) as (? & X). discriminate.
      * destruct (H _ _ Ea Ni) as (? & X). discriminate.
    + apply IH. apply quiet_step. exact H.
Qed.
