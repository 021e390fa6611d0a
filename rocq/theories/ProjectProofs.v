(** Instrumented projects: proofs. *)
From Coq Require Import Permutation.
From Verif Require Import BaseProofs Types Stream SkipList AMap MemMapSpec Reader Compare PrintPred FormatSpec ReaderMore ReaderProps.
From Verif Require Import Instr InstrRun InstrSpec InstrText InstrFloat InstrTable InstrConc InstrProofs InstrEnd InstrReq Lisp LispProofs InstrIds InstrIdsProofs Project ProjectSpec.

Section P.
Variable test : name -> name -> bool.

Lemma all_app : forall a b st ca s1 cb s2, instrument_all test a st = (ca, s1) -> instrument_all test b s1 = (cb, s2) ->
  instrument_all test (a ++ b) st = (ca ++ cb, s2).
Proof.
  induction a as [|[id gs] a IH]; intros b st ca s1 cb s2 Ha Hb; cbn [app instrument_all] in *.
  - injection Ha as <- <-. exact Hb.
  - destruct (instrument_ast test id gs st) as [c1 st1]. destruct (instrument_all test a st1) as [c2 st2] eqn:E. injection Ha as <- <-.
    rewrite (IH _ _ _ _ _ _ E Hb). reflexivity.
Qed.
Lemma all_length : forall a st ca s1, instrument_all test a st = (ca, s1) -> length ca = length a.
Proof.
  induction a as [|[id gs] a IH]; intros st ca s1 Ha; cbn [instrument_all] in *.
  - injection Ha as <- <-. reflexivity.
  - destruct (instrument_ast test id gs st) as [c1 st1]. destruct (instrument_all test a st1) as [c2 st2] eqn:E. injection Ha as <- <-. cbn. f_equal. eauto.
Qed.

Lemma files_all : forall l st ds st', do_files test l st = (ds, st') ->
  instrument_all test (concat (map places l)) st = (concat (map df_code ds), st') /\
  Forall2 (fun p d => length (df_code d) = length (places p)) l ds.
Proof.
  induction l as [|p l IH]; intros st ds st' E; cbn [do_files map concat] in *.
  - injection E as <- <-. split; [reflexivity|constructor].
  - destruct (instrument_all test (places p) st) as [c st1] eqn:E1. destruct (do_files test l st1) as [ds' st2] eqn:E2. injection E as <- <-.
    destruct (IH _ _ _ E2) as [A F]. split; [cbn [map concat df_code]; eapply all_app; eauto|].
    constructor; [eapply all_length; eauto|exact F].
Qed.

Lemma files_prefix : forall l st ds st' k d, do_files test l st = (ds, st') -> nth_error ds k = Some d ->
  do_files test (firstn (S k) l) st = (firstn (S k) ds, df_tables d).
Proof.
  induction l as [|p l IH]; intros st ds st' k d E H; cbn [do_files] in E.
  - injection E as <- <-. destruct k; discriminate.
  - destruct (instrument_all test (places p) st) as [c st1] eqn:E1. destruct (do_files test l st1) as [ds' st2] eqn:E2. injection E as <- <-.
    change (firstn (S k) (p :: l)) with (p :: firstn k l). cbn [do_files]. rewrite E1. destruct k as [|k]; cbn [nth_error] in H.
    + injection H as <-. reflexivity.
    + rewrite (IH _ _ _ _ _ E2 H). reflexivity.
Qed.

Lemma project_order : forall fs, instrument_project test fs = do_files test (with_ids (project_files fs)) istate0.
Proof.
  intros fs. unfold instrument_project. f_equal. unfold project_files at 1.
  set (a := filter (fun f => negb (sf_main f)) fs). set (b := filter sf_main fs).
  assert (Fa : forall f, In f a -> sf_main f = false) by (intros f H; apply filter_In in H; destruct H as [_ H]; destruct (sf_main f); auto; discriminate).
  assert (Fb : forall f, In f b -> sf_main f = true) by (intros f H; apply filter_In in H; apply H).
  rewrite filter_app, (filter_all _ _ a), (filter_none _ _ b), app_nil_r.
  2:{ intros f H. rewrite (Fb _ H). reflexivity. }
  2:{ intros f H. rewrite (Fa _ H). reflexivity. }
  unfold project_files. fold a b. unfold with_ids. rewrite app_length, upfrom_app, combine_app by apply upfrom_length.
  rewrite filter_app. f_equal. rewrite filter_none, filter_all; auto.
  - intros [i f] H. apply in_combine_r in H. cbn. auto.
  - intros [i f] H. apply in_combine_r in H. cbn. auto.
Qed.

Lemma with_ids_nth : forall fs k f, nth_error fs k = Some f -> nth_error (with_ids fs) k = Some (N.of_nat k, f).
Proof.
  intros fs k f H. unfold with_ids. apply combine_nth; [|exact H]. rewrite upfrom_nth; [reflexivity|]. apply nth_error_Some. congruence.
Qed.
Lemma with_ids_inv : forall fs k x f, nth_error (with_ids fs) k = Some (x, f) -> x = N.of_nat k /\ nth_error fs k = Some f.
Proof.
  intros fs k x f H. unfold with_ids in H. apply combine_nth_inv in H. destruct H as [H1 H2]. split; [|exact H2].
  rewrite upfrom_nth in H1 by (apply nth_error_Some; congruence). injection H1 as <-. lia.
Qed.

Lemma concat_nth : forall A (ll : list (list A)) k l i, nth_error ll k = Some l -> (i < length l)%nat ->
  nth_error (concat ll) (length (concat (firstn k ll)) + i) = nth_error l i.
Proof.
  induction ll as [|m ll IH]; intros [|k] l i H L; cbn [nth_error] in H; try discriminate.
  - injection H as <-. cbn. rewrite nth_error_app1; auto.
  - cbn [firstn concat]. rewrite app_length, <- Nat.add_assoc, nth_error_app2 by lia.
    replace (length m + (length (concat (firstn k ll)) + i) - length m)%nat with (length (concat (firstn k ll)) + i)%nat by lia. eauto.
Qed.
Lemma nth_firstn : forall A (l : list A) m k, (k < m)%nat -> nth_error (firstn m l) k = nth_error l k.
Proof. induction l as [|x l IH]; intros [|m] [|k] H; cbn; auto; try lia. apply IH. lia. Qed.
Lemma firstn_firstn_le : forall A (l : list A) m k, (k <= m)%nat -> firstn k (firstn m l) = firstn k l.
Proof. intros. rewrite firstn_firstn. f_equal. lia. Qed.

Lemma some_eq : forall A (a b : A), Some a = Some b -> b = a.
Proof. intros A a b H. injection H as ->. reflexivity. Qed.

Variable kf : name -> skind.
Variable fs : list sfile.
Hypothesis OK : project_ok kf fs.
Hypothesis TA : tells_apart test (project_texts fs).

Lemma file_in : forall f, In f (project_files fs) -> In f fs.
Proof. intros f H. unfold project_files in H. apply in_app_or in H. destruct H as [H|H]; apply filter_In in H; apply H. Qed.
Lemma files_length : length (project_files fs) = length fs.
Proof. unfold project_files. rewrite app_length. clear. induction fs as [|f l IH]; auto. cbn. destruct (sf_main f); cbn; lia. Qed.

Lemma place_id : forall k f s, nth_error (project_files fs) k = Some f -> In s (sf_places f) ->
  pack (Some (N.of_nat k)) (fst s) < 2 ^ 64 /\ unpack_f (pack (Some (N.of_nat k)) (fst s)) = Some (N.of_nat k) /\
  unpack_c (pack (Some (N.of_nat k)) (fst s)) = fst s.
Proof.
  intros k f s H I. destruct OK as [LN F]. rewrite Forall_forall in F. specialize (F f (file_in _ (nth_error_In _ _ H))). destruct F as (L & P & _).
  apply pack_ok.
  - assert (X : (k < length (project_files fs))%nat) by (apply nth_error_Some; congruence). rewrite files_length in X. unfold lenN in LN. lia.
  - rewrite Forall_forall in P. specialize (P s I). lia.
Qed.

Lemma site_ok_any : forall s id, site_ok kf s -> id < 2 ^ 64 -> site_ok kf (id, snd s).
Proof. intros [i gs] id (_ & H) L. exact (conj L H). Qed.

(** The places of the first [m] files. *)
Definition sites_up (m : nat) : list site := concat (map places (firstn m (with_ids (project_files fs)))).

Lemma sites_in : forall m s, In s (sites_up m) -> exists k f s', nth_error (project_files fs) k = Some f /\ In s' (sf_places f) /\
  s = (pack (Some (N.of_nat k)) (fst s'), snd s').
Proof.
  intros m s H. apply in_concat in H. destruct H as (l & Hl & Hs). apply in_map_iff in Hl. destruct Hl as ([x f] & <- & Hp).
  assert (Hp' : In (x, f) (with_ids (project_files fs))).
  { rewrite <- (firstn_skipn m (with_ids (project_files fs))). apply in_or_app. auto. }
  apply In_nth_error in Hp'. destruct Hp' as (k & Hk). apply with_ids_inv in Hk. destruct Hk as [-> Hk].
  unfold places in Hs. apply in_map_iff in Hs. destruct Hs as (s' & <- & Hs). cbn [fst snd] in *. eauto 6.
Qed.

Lemma sites_up_ok : forall m, Forall (site_ok kf) (sites_up m).
Proof.
  intros m. apply Forall_forall. intros s H. destruct (sites_in _ _ H) as (k & f & s' & Hk & Is & ->).
  apply site_ok_any; [|apply (place_id _ _ _ Hk Is)]. destruct OK as [_ F]. rewrite Forall_forall in F.
  specialize (F f (file_in _ (nth_error_In _ _ Hk))). destruct F as (_ & _ & F). rewrite Forall_forall in F. auto.
Qed.

Lemma sites_up_texts : forall m, tells_apart test (all_texts (sites_up m)).
Proof.
  intros m. assert (INC : forall x, In x (all_texts (sites_up m)) -> In x (project_texts fs)).
  { intros x H. unfold all_texts in H. apply in_concat in H. destruct H as (l & Hl & Hx). apply in_map_iff in Hl. destruct Hl as (s & <- & Hs).
    destruct (sites_in _ _ Hs) as (k & f & s' & Hk & Is & ->). unfold project_texts, all_texts. apply in_concat.
    exists (site_names s' ++ map type_text (site_types s')). split.
    - apply (in_map (fun s => site_names s ++ map type_text (site_types s))). apply in_concat. exists (sf_places f). split; [|exact Is]. apply in_map. apply file_in. eapply nth_error_In; eauto.
    - exact Hx. }
  intros a b Ha Hb. apply TA; auto.
Qed.

(** A pass as an event of the program of these places. *)
Definition flat (e : pass) : event :=
  (length (concat (map places (firstn (fst (fst e)) (with_ids (project_files fs))))) + snd (fst e), snd e)%nat.

Lemma flat_site : forall m e s, (fst (fst e) < m)%nat -> place_of fs e = Some s ->
  nth_error (sites_up m) (fst (flat e)) = Some (pack (Some (N.of_nat (fst (fst e)))) (fst s), snd s).
Proof.
  intros m [[k i] env] s L H. unfold place_of in H. cbn [fst snd] in *. destruct (nth_error (project_files fs) k) as [f|] eqn:Ef; [|discriminate].
  unfold sites_up, flat. cbn [fst snd].
  assert (E : nth_error (map places (firstn m (with_ids (project_files fs)))) k = Some (places (N.of_nat k, f))).
  { rewrite nth_error_map, nth_firstn, (with_ids_nth _ _ _ Ef) by exact L. reflexivity. }
  assert (LI : (i < length (places (N.of_nat k, f)))%nat) by (unfold places; rewrite map_length; apply nth_error_Some; cbn; congruence).
  pose proof (concat_nth _ _ _ _ _ E LI) as C. rewrite firstn_map, firstn_firstn_le in C by lia. etransitivity; [exact C|].
  unfold places. cbn [fst snd]. rewrite nth_error_map, H. reflexivity.
Qed.

Lemma Forall2_firstn : forall A B (R : A -> B -> Prop) l m, Forall2 R l m -> forall k, Forall2 R (firstn k l) (firstn k m).
Proof. induction 1; intros [|k]; cbn; constructor; auto. Qed.
Lemma concat_same_length : forall A B C D (f : A -> list C) (g : B -> list D) l m, Forall2 (fun a b => length (g b) = length (f a)) l m ->
  length (concat (map g m)) = length (concat (map f l)).
Proof. induction 1; cbn; auto. rewrite !app_length. congruence. Qed.

Lemma flat_run : forall m e s ds, (fst (fst e) < m)%nat -> place_of fs e = Some s ->
  Forall2 (fun p d => length (df_code d) = length (places p)) (with_ids (project_files fs)) ds ->
  event_run (concat (map df_code (firstn m ds))) (flat e) = pass_run ds e.
Proof.
  intros m [[k i] env] s ds L H F. unfold place_of in H. cbn [fst snd] in *. destruct (nth_error (project_files fs) k) as [f|] eqn:Ef; [|discriminate].
  destruct (Forall2_nth _ _ _ _ _ F _ _ (with_ids_nth _ _ _ Ef)) as (d & Hd & LD).
  unfold event_run, flat, pass_run. cbn [fst snd]. rewrite Hd.
  assert (E : nth_error (map df_code (firstn m ds)) k = Some (df_code d)) by (rewrite nth_error_map, nth_firstn, Hd by exact L; reflexivity).
  assert (LI : (i < length (df_code d))%nat). { rewrite LD. unfold places. rewrite map_length. apply nth_error_Some. cbn. congruence. }
  pose proof (concat_nth _ _ _ _ _ E LI) as C. rewrite firstn_map, firstn_firstn_le in C by lia.
  erewrite concat_same_length in C; [|apply Forall2_firstn; exact F]. rewrite C. reflexivity.
Qed.

Lemma project_lemma : forall entry linked names types r, instrument_project test fs = r ->
  arrays test r entry names types -> before entry linked -> fits names types ->
  forall ths, Forall (Forall (pass_ok fs linked)) ths ->
  exists acts, Forall2 (Forall2 (fun e a => pass_run (fst r) e = Ok a)) ths acts /\
    forall s, rsteps (rstart names types (map (@concat action) acts)) s -> Forall (eq []) (r_threads s) ->
    forall ok coins pos t, (forall n, n <= lenN (r_out s) -> ok n = true) ->
    exists order tr, merge ths order /\ reads ok coins pos t 0 (r_out s) = Ok tr /\
      tr_names tr = names /\ tr_types tr = types /\ Forall2 (pass_shows fs tr) order (tr_points tr) /\
      (order <> [] -> r_disk s = lenN (r_out s)).
Proof.
  intros entry linked names types [ds st] E AR BF FIT ths PO. rewrite project_order in E. cbn [fst snd] in *.
  destruct (files_all _ _ _ _ E) as [EA FL].
  assert (LD : length ds = length (with_ids (project_files fs))) by (clear -FL; induction FL; cbn; auto).
  assert (LW : length (with_ids (project_files fs)) = length (project_files fs)) by (unfold with_ids; rewrite combine_length, upfrom_length; lia).
  assert (PM : exists m, instrumented test (sites_up m) names types (concat (map df_code (firstn m ds))) /\
    forall k, In k linked -> (k < length (project_files fs))%nat -> (k < m)%nat).
  { destruct entry as [k|]; cbn [arrays before] in AR, BF.
    - destruct AR as (d & Hd & nal & tal & EM). exists (S k). split.
      + exists (df_tables d), nal, tal. split; [|exact EM]. unfold sites_up. apply (files_all _ _ _ _ (files_prefix _ _ _ _ _ _ E Hd)).
      + intros j Hj _. rewrite Forall_forall in BF. specialize (BF j Hj). lia.
    - destruct AR as (nal & tal & EM). exists (length (with_ids (project_files fs))). split.
      + exists st, nal, tal. split; [|exact EM]. unfold sites_up. rewrite firstn_all, firstn_all2 by lia. exact EA.
      + intros j Hj L. lia. }
  destruct PM as (m & INS & LM).
  assert (PK : forall e, pass_ok fs linked e -> (fst (fst e) < m)%nat /\ exists s, place_of fs e = Some s /\ env_ok s (snd e)).
  { intros e (IL & s & HS & EO). split; eauto. apply LM; auto. unfold place_of in HS. apply nth_error_Some. intros X. rewrite X in HS. discriminate. }
  assert (EV : Forall (Forall (event_ok (sites_up m))) (map (map flat) ths)).
  { apply Forall_map. eapply Forall_impl; [|exact PO]. intros l Hl. apply Forall_map. eapply Forall_impl; [|exact Hl].
    intros e He. destruct (PK _ He) as (L & s & HS & EO). eexists. split; [apply (flat_site _ _ _ L HS)|]. exact EO. }
  destruct (end_lemma test kf (sites_up m) (sites_up_ok m) (sites_up_texts m) names types _ INS FIT _ EV) as (acts & RA & FIN).
  exists acts. split.
  { assert (Q : forall ths acts, Forall (Forall (pass_ok fs linked)) ths ->
       Forall2 (Forall2 (fun e a => event_run (concat (map df_code (firstn m ds))) e = Ok a)) (map (map flat) ths) acts ->
       Forall2 (Forall2 (fun e a => pass_run ds e = Ok a)) ths acts).
    { clear -PK FL. induction ths as [|l ths IH]; intros acts P Q; cbn [map] in Q; inversion Q as [|? b ? acts' QA QB]; subst; constructor.
      - inversion P as [|? ? P1 _]; subst. clear -PK FL QA P1. revert b QA. induction l as [|e l IH]; intros b QA; cbn [map] in QA; inversion QA as [|? c ? b' Q1 Q2]; subst; constructor.
        + inversion P1; subst. destruct (PK e) as (L & s & HS & _); auto. rewrite <- Q1. symmetry. eapply flat_run; eauto.
        + inversion P1; subst. auto.
      - inversion P; subst. auto. }
    apply Q; auto. }
  intros s R F ok coins pos t AL. destruct (FIN s R F ok coins pos t AL) as (order & tr & M & RD & N1 & N2 & SH & DK).
  assert (FF : Forall2 (Forall2 (fun e x => flat e = x /\ pass_ok fs linked e)) ths (map (map flat) ths)).
  { clear -PO. induction PO as [|l ths H P IH]; cbn; constructor; auto. clear -H. induction H; cbn; constructor; auto. }
  destruct (merge_rel _ _ _ _ _ M _ FF) as (order' & M' & FO). exists order', tr.
  repeat match goal with |- _ /\ _ => split end; auto.
  - clear -FO SH PK OK. revert SH. generalize (tr_points tr). induction FO as [|e x order' order [<- Pe] FO IH]; intros ps SH; inversion SH as [|? p ? ps' S1 S2]; subst; constructor; auto.
    destruct (PK e Pe) as (L & s & HS & _). destruct S1 as (s1 & H1 & PS). rewrite (flat_site _ _ _ L HS) in H1. apply some_eq in H1. subst s1.
    unfold place_of in HS. destruct (nth_error (project_files fs) (fst (fst e))) as [f|] eqn:Ef; [|discriminate].
    destruct (place_id _ _ _ Ef (nth_error_In _ _ HS)) as (_ & U1 & U2).
    exists s, (pack (Some (N.of_nat (fst (fst e)))) (fst s)). split; [unfold place_of; rewrite Ef; exact HS|]. split; [apply PS|]. split; [exact U1|]. split; [exact U2|]. exact PS.
  - intros NE. apply DK. intros ->. inversion FO; subst. congruence.
Qed.
End P.
