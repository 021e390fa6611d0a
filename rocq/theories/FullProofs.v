(** Proofs about programs whose writes fail. *)
From Verif Require Import BaseProofs Types Stream SkipList MemMapSpec Reader Compare FormatSpec ReaderMore ReaderProps.
From Verif Require Import Instr InstrRun InstrSpec InstrText InstrFloat InstrTable InstrConc InstrProofs InstrEnd NeedProofs Ilp32 Ilp32Proofs Full.

Lemma rs_trans : forall a b c, rsteps a b -> rsteps b c -> rsteps a c.
Proof. intros a b c H K. induction K; [exact H|]. eapply rs_step; [apply IHK; exact H|eassumption]. Qed.
Lemma fr_trans : forall back whole a b c, fsteps back whole a b -> fsteps back whole b c -> fsteps back whole a c.
Proof. intros back whole a b c H K. induction K; [exact H|]. eapply fr_step; [apply IHK; exact H|eassumption]. Qed.

(** The threads run as they do when nothing fails. *)
Lemma undisturbed : forall back whole names types ths s, fsteps back whole (fstart names types ths) s ->
  exists d, rsteps (rstart names types ths) (mkR (f_lock s) (f_all s) d (f_threads s)).
Proof.
  intros back whole names types ths s R. remember (fstart names types ths) as s0 eqn:E0. induction R as [s|s s' s'' R IH ST].
  - subst s. exists 0. constructor.
  - destruct (IH E0) as (d & H). destruct ST; cbn [f_lock f_all f_threads] in *.
    + exists d. eapply rs_step; [exact H|]. apply st_lock. assumption.
    + exists d. eapply rs_step; [exact H|]. apply st_unlock. assumption.
    + exists d. eapply rs_step; [exact H|]. apply st_write. assumption.
    + eexists. eapply rs_step; [exact H|]. apply st_flush. assumption.
    + eexists. eapply rs_step; [exact H|]. apply st_flush. assumption.
    + eexists. eapply rs_step; [exact H|]. apply st_flush. assumption.
    + exists d. exact H.
    + exists d. exact H.
Qed.

(** As long as nothing failed. *)
Definition intact (s0 : rstate) (s : fstate) : Prop :=
  f_file s ++ f_buf s = f_all s /\ rsteps s0 (mkR (f_lock s) (f_all s) (lenN (f_file s)) (f_threads s)).
Lemma failed_stays : forall back whole s s', fstep back whole s s' -> f_failed s' = false -> f_failed s = false.
Proof. intros back whole s s' ST H. destruct ST; cbn [f_failed] in *; congruence. Qed.
Lemma before_failure : forall back whole names types ths s, fsteps back whole (fstart names types ths) s -> f_failed s = false -> intact (rstart names types ths) s.
Proof.
  intros back whole names types ths s R. remember (fstart names types ths) as s0 eqn:E0. induction R as [s|s s' s'' R IH ST]; intros NF.
  - subst s. split; [reflexivity|]. constructor.
  - destruct (IH E0 (failed_stays _ _ _ _ ST NF)) as [IA IB]. clear IH. destruct ST; unfold intact; cbn [f_lock f_all f_threads f_file f_buf f_failed] in *; try discriminate.
    + split; [exact IA|]. eapply rs_step; [exact IB|]. apply st_lock. assumption.
    + split; [exact IA|]. eapply rs_step; [exact IB|]. apply st_unlock. assumption.
    + split; [rewrite app_assoc, IA; reflexivity|]. eapply rs_step; [exact IB|]. apply st_write. assumption.
    + split; [rewrite app_nil_r; exact IA|]. rewrite IA. eapply rs_step; [exact IB|]. apply st_flush. assumption.
    + split; [exact IA|]. rewrite app_nil_r in IA. subst f. eapply rs_step; [exact IB|]. apply st_flush. assumption.
    + split; [rewrite <- app_assoc, takeN_dropN; exact IA|]. eapply rs_step; [exact IB|]. apply st_spill; [rewrite lenN_app; lia|].
      rewrite <- IA, !lenN_app. pose proof (takeN_dropN _ k b) as T. apply (f_equal lenN) in T. rewrite lenN_app in T. lia.
Qed.

(** The file only grows. *)
Lemma file_grows : forall back whole s s', fsteps back whole s s' -> exists more, f_file s' = f_file s ++ more.
Proof.
  intros back whole s s' R. induction R as [s|s s' s'' R (m & IH) ST]; [exists []; symmetry; apply app_nil_r|].
  assert (E : exists m', f_file s'' = f_file s' ++ m').
  { destruct ST; cbn [f_file]; try (eexists; reflexivity); exists []; symmetry; apply app_nil_r. }
  destruct E as (m' & E). exists (m ++ m'). rewrite E, IH, app_assoc. reflexivity.
Qed.

(** When the disk stays full, the file is the beginning of what was logged. *)
Lemma file_prefix : forall whole names types ths s, fsteps false whole (fstart names types ths) s ->
  exists more, f_all s = f_file s ++ more /\ (f_failed s = false -> more = f_buf s).
Proof.
  intros whole names types ths s R. remember (fstart names types ths) as s0 eqn:E0. induction R as [s|s s' s'' R IH ST].
  - subst s. eexists. split; reflexivity.
  - destruct (IH E0) as (m & E & X). clear IH. destruct ST; cbn [f_lock f_all f_threads f_file f_buf f_failed] in *.
    + exists m. auto.
    + exists m. auto.
    + exists (m ++ bs). split; [rewrite E, app_assoc; reflexivity|]. intro NX. rewrite X by exact NX. reflexivity.
    + destruct H0 as [->|]; [|discriminate]. rewrite X in E by reflexivity. exists []. rewrite app_nil_r. auto.
    + destruct H1 as [->|[_ [->|]]]; [| |discriminate].
      * exists m. replace (takeN 0 b) with (@nil byte) by (destruct b; reflexivity). rewrite app_nil_r. split; [exact E|discriminate].
      * rewrite X in E by reflexivity. exists (dropN k b). rewrite <- app_assoc, takeN_dropN. split; [exact E|discriminate].
    + exists m. auto.
    + destruct H1 as [->|]; [|discriminate]. rewrite X in E by reflexivity. exists (dropN k b). rewrite <- app_assoc, takeN_dropN. auto.
    + destruct H1 as [->|[->|]]; [| |discriminate].
      * exists m. replace (takeN 0 b) with (@nil byte) by (destruct b; reflexivity). rewrite app_nil_r. split; [exact E|discriminate].
      * rewrite X in E by reflexivity. exists (dropN k b). rewrite <- app_assoc, takeN_dropN. split; [exact E|discriminate].
Qed.

Lemma prefix_long : forall A (a b c d : list A), a ++ b = c ++ d -> lenN a <= lenN c -> exists m, c = a ++ m.
Proof.
  intros A a b c d E L. exists (dropN (lenN a) c). rewrite <- (takeN_dropN _ (lenN a) c) at 1. f_equal.
  transitivity (takeN (lenN a) (c ++ d)).
  - rewrite !takeN_firstn, firstn_app. unfold lenN in *. replace (N.to_nat (N.of_nat (length a)) - length c)%nat with 0%nat by lia. cbn [firstn]. rewrite app_nil_r. reflexivity.
  - rewrite <- E. apply takeN_app. reflexivity.
Qed.

(** ** Writes that succeed as a whole or not at all *)
Lemma sub_app : forall A (k l k' l' : list A), sublist k l -> sublist k' l' -> sublist (k ++ k') (l ++ l').
Proof. intros A k l k' l' H K. induction H; cbn; [exact K|constructor; exact IHsublist|constructor; exact IHsublist]. Qed.
Lemma sub_skip1 : forall A (k l : list A) x, sublist k l -> sublist k (l ++ [x]).
Proof. intros. rewrite <- (app_nil_r k). apply sub_app; [assumption|]. repeat constructor. Qed.
Lemma sub_keep1 : forall A (k l : list A) x, sublist k l -> sublist (k ++ [x]) (l ++ [x]).
Proof. intros. apply sub_app; [assumption|]. apply sub_keep. constructor. Qed.

(** [b]: the header is in the file, otherwise in the buffer. *)
Inductive winv (ths : list (list (list action))) (hd : list byte) (b : bool) (o kept : list (list action)) (s : fstate) : Prop :=
| wi_free : forall rem,
    taken ths o rem -> Forall (Forall point_shape) rem ->
    f_lock s = None -> f_threads s = map (@concat action) rem -> sublist kept o -> (b = false -> o = []) ->
    f_buf s = (if b then [] else hd) -> f_file s = (if b then hd else []) ++ wr kept ->
    winv ths hd b o kept s
| wi_before : forall rem i p r pre ws,
    taken ths o rem -> Forall (Forall point_shape) rem ->
    nth_error rem i = Some (p :: r) -> p = pre ++ map AWrite ws ++ [AFlush; AUnlock] ->
    f_lock s = Some i -> f_threads s = update (map (@concat action) rem) i (map AWrite ws ++ [AFlush; AUnlock] ++ concat r) -> sublist kept o -> (b = false -> o = []) ->
    f_buf s = (if b then [] else hd) ++ written pre -> f_file s = (if b then hd else []) ++ wr kept ->
    winv ths hd b o kept s
| wi_after : forall rem i p r pre,
    taken ths o rem -> Forall (Forall point_shape) rem ->
    nth_error rem i = Some (p :: r) -> p = pre ++ [AUnlock] ->
    f_lock s = Some i -> f_threads s = update (map (@concat action) rem) i (AUnlock :: concat r) -> sublist kept o -> b = true ->
    f_buf s = [] -> f_file s = hd ++ wr kept \/ f_file s = hd ++ wr kept ++ written pre ->
    winv ths hd b o kept s.

Lemma winv_step : forall back ths hd b o kept s s', winv ths hd b o kept s -> fstep back true s s' -> b = true \/ f_failed s' = false ->
  exists b' o' kept', winv ths hd b' o' kept' s' /\ (b = true -> b' = true).
Proof.
  intros back ths hd b o kept s s' I ST NF. destruct I as [rem TK HS LK TH SU BO BU FI|rem i p r pre ws TK HS NP EP LK TH SU BO BU FI|rem i p r pre TK HS NP EP LK TH SU BO BU FI].
  - destruct ST as [all b0 f x ths0 j q E|lk all b0 f x ths0 j q E|lk all b0 f x ths0 j bs q E|lk all b0 f x ths0 j q E|lk all b0 f x ths0 j q k E|lk all f x ths0 j q E|lk all b0 f x ths0 k X|lk all b0 f x ths0 k X];
      cbn [f_lock f_threads f_buf f_file f_failed] in *; subst; try discriminate X;
      destruct (next_outside _ _ _ _ HS E) as (p & r & q' & N & EP & EA & EQ & ws & EW); try discriminate EA.
    exists b, o, kept. split; [|auto]. subst p q q'. eapply (wi_before _ _ _ _ _ _ rem j _ r [ALock] ws); cbn [f_lock f_threads f_buf f_file]; eauto.
    + rewrite <- app_assoc. reflexivity.
    + unfold written. cbn. rewrite app_nil_r. reflexivity.
  - assert (Li : (i < length (map (@concat action) rem))%nat) by (rewrite map_length; eapply nth_some; eauto).
    destruct ST as [all b0 f x ths0 j q E|lk all b0 f x ths0 j q E|lk all b0 f x ths0 j bs q E|lk all b0 f x ths0 j q E|lk all b0 f x ths0 j q k E|lk all f x ths0 j q E|lk all b0 f x ths0 k X|lk all b0 f x ths0 k X];
      cbn [f_lock f_threads f_buf f_file f_failed] in *; subst; try discriminate X; try discriminate LK;
      (destruct (Nat.eq_dec i j) as [<-|NE]; [rewrite update_same in E by exact Li; injection E as E|
        rewrite update_other in E by exact NE; destruct (next_outside _ _ _ _ HS E) as (? & ? & ? & _ & _ & EA & _); discriminate EA]).
    + destruct ws; discriminate E.
    + destruct ws as [|w ws]; [discriminate E|]. cbn [map app] in E. injection E as -> <-. exists b, o, kept. split; [|auto].
      eapply (wi_before _ _ _ _ _ _ rem i _ r (pre ++ [AWrite bs]) ws); cbn [f_lock f_threads f_buf f_file]; eauto.
      * rewrite <- app_assoc. reflexivity.
      * rewrite update_update. reflexivity.
      * rewrite written_app, app_assoc. f_equal. unfold written. cbn. rewrite app_nil_r. reflexivity.
    + destruct ws; [|discriminate E]. cbn [map app] in E. injection E as <-. exists true, o, kept. split; [|auto].
      eapply (wi_after _ _ _ _ _ _ rem i _ r (pre ++ [AFlush])); cbn [f_lock f_threads f_buf f_file]; eauto.
      * rewrite <- app_assoc. reflexivity.
      * rewrite update_update. reflexivity.
      * right. rewrite written_app. replace (written [AFlush]) with (@nil byte) by reflexivity. rewrite app_nil_r. destruct b; [cbn [app]; rewrite <- app_assoc; reflexivity|].
        rewrite BO in SU by reflexivity. inversion SU; subst. reflexivity.
    + destruct ws; [|discriminate E]. cbn [map app] in E. injection E as <-. destruct NF as [->|NF]; [|discriminate NF]. exists true, o, kept. split; [|auto].
      destruct H0 as [->|[X _]]; [|discriminate X].
      eapply (wi_after _ _ _ _ _ _ rem i _ r (pre ++ [AFlush])); cbn [f_lock f_threads f_buf f_file]; eauto.
      * rewrite <- app_assoc. reflexivity.
      * rewrite update_update. reflexivity.
      * left. replace (takeN 0 ([] ++ written pre)) with (@nil byte) by (cbn [app]; destruct (written pre); reflexivity). apply app_nil_r.
    + destruct ws; [|discriminate E]. cbn [map app] in E. injection E as <-. exists true, o, kept. split; [|auto].
      eapply (wi_after _ _ _ _ _ _ rem i _ r (pre ++ [AFlush])); cbn [f_lock f_threads f_buf f_file]; eauto.
      * rewrite <- app_assoc. reflexivity.
      * rewrite update_update. reflexivity.
      * left. destruct b; [reflexivity|]. symmetry in BU. apply app_eq_nil in BU. destruct BU as [-> _]. reflexivity.
  - assert (Li : (i < length (map (@concat action) rem))%nat) by (rewrite map_length; eapply nth_some; eauto).
    destruct ST as [all b0 f x ths0 j q E|lk all b0 f x ths0 j q E|lk all b0 f x ths0 j bs q E|lk all b0 f x ths0 j q E|lk all b0 f x ths0 j q k E|lk all f x ths0 j q E|lk all b0 f x ths0 k X|lk all b0 f x ths0 k X];
      cbn [f_lock f_threads f_buf f_file f_failed] in *; subst; try discriminate X; try discriminate LK;
      (destruct (Nat.eq_dec i j) as [<-|NE]; [rewrite update_same in E by exact Li; injection E as E|
        rewrite update_other in E by exact NE; destruct (next_outside _ _ _ _ HS E) as (? & ? & ? & _ & _ & EA & _); discriminate EA]); try discriminate E.
    subst q.
    assert (TK' : taken ths (o ++ [pre ++ [AUnlock]]) (update rem i r)) by (econstructor; eassumption).
    assert (HS' : Forall (Forall point_shape) (update rem i r)).
    { apply Forall_update; auto. rewrite Forall_forall in HS. apply nth_error_In in NP. apply HS in NP. inversion NP; auto. }
    assert (UT : update (update (map (@concat action) rem) i (AUnlock :: concat r)) i (concat r) = map (@concat action) (update rem i r)) by (rewrite update_update, map_update; reflexivity).
    destruct FI as [FI|FI].
    + exists true, (o ++ [pre ++ [AUnlock]]), kept. split; [|auto]. eapply (wi_free _ _ _ _ _ _ (update rem i r)); cbn [f_lock f_threads f_buf f_file]; eauto using sub_skip1. discriminate.
    + exists true, (o ++ [pre ++ [AUnlock]]), (kept ++ [pre ++ [AUnlock]]). split; [|auto]. eapply (wi_free _ _ _ _ _ _ (update rem i r)); cbn [f_lock f_threads f_buf f_file]; eauto using sub_keep1; [discriminate|].
      rewrite FI, wr_snoc, written_app. replace (written [AUnlock]) with (@nil byte) by reflexivity. rewrite app_nil_r. reflexivity.
Qed.

Lemma winv_first : forall back names types ths s, Forall (Forall point_shape) ths -> fsteps back true (fstart names types (map (@concat action) ths)) s -> f_failed s = false ->
  exists b o kept, winv ths (written (write_trace_header names types)) b o kept s.
Proof.
  intros back names types ths s SH R. remember (fstart names types (map (@concat action) ths)) as s0 eqn:E0. induction R as [s|s s' s'' R IH ST]; intros NF.
  - subst s. exists false, [], []. apply (wi_free _ _ _ _ _ _ ths); auto; constructor.
  - destruct (IH E0 (failed_stays _ _ _ _ ST NF)) as (b & o & kept & I). destruct (winv_step _ _ _ _ _ _ _ _ I ST (or_intror NF)) as (b' & o' & kept' & I' & _). eauto.
Qed.
Lemma winv_later : forall back ths hd o kept s s', winv ths hd true o kept s -> fsteps back true s s' -> exists o' kept', winv ths hd true o' kept' s'.
Proof.
  intros back ths hd o kept s s' I R. induction R as [s|s s' s'' R IH ST]; [eauto|]. destruct (IH I) as (o1 & k1 & I1).
  destruct (winv_step _ _ _ _ _ _ _ _ I1 ST (or_introl eq_refl)) as (b' & o' & kept' & I' & B). rewrite (B eq_refl) in I'. eauto.
Qed.
Lemma whole_run : forall back names types ths s1 s2, Forall (Forall point_shape) ths ->
  fsteps back true (fstart names types (map (@concat action) ths)) s1 -> f_failed s1 = false -> f_file s1 <> [] -> fsteps back true s1 s2 -> Forall (eq []) (f_threads s2) ->
  exists o kept, merge ths o /\ sublist kept o /\ f_file s2 = written (write_trace_header names types) ++ wr kept.
Proof.
  intros back names types ths s1 s2 SH R1 NF NE R2 FIN. destruct (winv_first _ _ _ _ _ SH R1 NF) as (b & o & kept & I).
  assert (B : b = true).
  { destruct b; [reflexivity|]. exfalso. apply NE. destruct I as [rem TK HS LK TH SU BO BU FI|rem i p r pre ws TK HS NP EP LK TH SU BO BU FI|rem i p r pre TK HS NP EP LK TH SU BO BU FI]; [| |discriminate BO];
      rewrite BO in SU by reflexivity; inversion SU; subst; exact FI. }
  subst b. destruct (winv_later _ _ _ _ _ _ _ I R2) as (o2 & k2 & I2). clear I.
  destruct I2 as [rem TK HS LK TH SU BO BU FI|rem i p r pre ws TK HS NP EP LK TH SU BO BU FI|rem i p r pre TK HS NP EP LK TH SU BO BU FI].
  - exists o2, k2. split; [|split; [exact SU|exact FI]]. rewrite <- (app_nil_r o2). eapply taken_merge; [exact TK|]. constructor.
    rewrite TH in FIN. apply Forall_forall. intros x Hx. rewrite Forall_forall in FIN, HS.
    specialize (FIN (concat x) (in_map _ _ _ Hx)). specialize (HS x Hx). destruct x as [|p r]; auto.
    inversion HS as [|? ? (ws & ->) ?]; subst. discriminate FIN.
  - exfalso. rewrite TH in FIN. rewrite Forall_forall in FIN. assert (X : [] = map AWrite ws ++ [AFlush; AUnlock] ++ concat r).
    { apply FIN. eapply nth_error_In. apply update_same. rewrite map_length. eapply nth_some; eauto. } destruct ws; discriminate X.
  - exfalso. rewrite TH in FIN. rewrite Forall_forall in FIN. assert (X : [] = AUnlock :: concat r).
    { apply FIN. eapply nth_error_In. apply update_same. rewrite map_length. eapply nth_some; eauto. } discriminate X.
Qed.

Section Program.
Variable test : name -> name -> bool.
Variable kf : name -> skind.
Variable sites : list site.
Variables (names : list name) (types : list tdesc) (code : list (list istmt)).
Hypothesis SOK : Forall (site_ok kf) sites.
Hypothesis TA : tells_apart test (all_texts sites).
Hypothesis PROG : instrumented test sites names types code.
Hypothesis FIT : fits names types.

Notation first_passes := (first_passes sites names types).
Lemma Forall2_firstn : forall A B (R : A -> B -> Prop) l m n, Forall2 R l m -> Forall2 R (firstn n l) (firstn n m).
Proof. intros A B R l m n F. revert n. induction F; intros [|n]; cbn; constructor; auto. Qed.

Lemma first_read : forall order o n more, Forall2 (fun e a => exists es, good_point sites names types code e a es) order o -> (0 < n <= length order)%nat ->
  first_passes (enc_header names types ++ concat (map written (firstn n o)) ++ more) n order.
Proof.
  intros order o n more F L ok coins pos t OK. fold (reads ok coins pos t (N.of_nat n) (enc_header names types ++ concat (map written (firstn n o)) ++ more)). pose proof (Forall2_firstn _ _ _ _ _ n F) as Fn.
  destruct (points_read test sites names types code PROG FIT _ _ Fn) as (pts & E1 & E2 & E3 & E4 & E5).
  assert (OE : enc_header names types ++ concat (map written (firstn n o)) = enc_file (mkF names types pts)) by (unfold wr in E1; rewrite E1; reflexivity).
  rewrite app_assoc, OE in *.
  assert (WF : file_wf ok (mkF names types pts)).
  { apply file_wf_ok; [exact (file_fine test kf sites SOK TA names types code PROG FIT pts E3 E4)|]. intros m Hm. apply OK. rewrite lenN_app. lia. }
  destruct (complete_lemma ok coins pos t _ WF) as (tr & _ & D & _). exists tr.
  assert (LO : length o = length order) by (clear -F; induction F; cbn; congruence).
  assert (X : reads ok coins pos t (N.of_nat n) (enc_file (mkF names types pts) ++ more) = Ok tr).
  { apply rest_ignored_lemma; auto.
    - cbn [f_points]. rewrite E2. unfold lenN. rewrite firstn_length. lia.
    - lia. }
  destruct D as (D1 & D2 & D3). cbn [f_names f_types f_points] in *. repeat split; auto. eapply E5; eauto.
Qed.

(** What the file of any state holds, relative to a state of the program without failures. *)
Lemma at_moment : forall ths, Forall (Forall (event_ok sites)) ths ->
  exists acts, Forall2 (Forall2 (fun e a => event_run code e = Ok a)) ths acts /\
    forall s, rsteps (rstart names types (map (@concat action) acts)) s ->
    exists order rest done part, merge ths (order ++ rest) /\ Forall2 (fun e a => event_run code e = Ok a) order done /\
      r_out s = enc_header names types ++ concat (map written done) ++ part /\
      (r_lock s = None -> part = []) /\
      (part <> [] -> exists e rest' a more, rest = e :: rest' /\ event_run code e = Ok a /\ written a = part ++ more) /\
      (order <> [] -> lenN (enc_header names types ++ concat (map written done)) <= r_disk s) /\
      forall n more, (0 < n <= length order)%nat -> first_passes (enc_header names types ++ concat (map written (firstn n done)) ++ more) n order.
Proof.
  intros ths HO. destruct (threads_good test kf sites SOK TA names types code PROG FIT _ HO) as (acts & G). exists acts. split.
  { clear -G. induction G as [|a b l m X F IH]; constructor; auto. clear -X. induction X as [|e x l m (es & X) F IH]; constructor; auto. apply X. }
  assert (SH : Forall (Forall point_shape) acts).
  { clear -G. induction G as [|a b l m X F IH]; constructor; auto. clear -X. induction X as [|e x l m (es & X) F IH]; constructor; auto. apply X. }
  intros s R. destruct (anytime_lemma _ _ _ _ SH R) as (o & rest & part & M & OUT & PART & LK & DL & DK).
  destruct (merge_rel _ _ _ _ _ M _ G) as (order' & M' & F'). apply Forall2_app_inv_r in F'. destruct F' as (order & rest' & F1 & F2 & ->).
  pose proof FIT as (L1 & L2 & L3). rewrite header_bytes in * by (exact (names_free test kf sites SOK TA names types code PROG) || exact L3).
  exists order, rest', o, part. split; [exact M'|]. split; [|split; [exact OUT|split; [exact LK|split; [|split]]]].
  - clear -F1. induction F1 as [|e x l m (es & X) F IH]; constructor; auto. apply X.
  - intros NE. destruct (PART NE) as (p & r' & more & -> & HP). inversion F2 as [|e ? ? ? (es & GP) F3]; subst.
    exists e, l, p, more. repeat split; auto. apply GP.
  - intros NE. apply DK. intros ->. inversion F1; subst. congruence.
  - intros n more L. apply first_read; assumption.
Qed.

Lemma sub_rel : forall A B (R : A -> B -> Prop) kept o, sublist kept o -> forall order, Forall2 R order o -> exists k, sublist k order /\ Forall2 R k kept.
Proof.
  intros A B R kept o S. induction S as [|x k l S IH|x k l S IH]; intros order F; inversion F; subst.
  - exists []. split; constructor.
  - destruct (IH _ H3) as (k' & A1 & A2). exists k'. split; [constructor; exact A1|exact A2].
  - destruct (IH _ H3) as (k' & A1 & A2). eexists. split; [apply sub_keep; exact A1|constructor; assumption].
Qed.

Lemma shapes_of : forall ths acts, Forall2 (Forall2 (fun e a => exists es, good_point sites names types code e a es)) ths acts ->
  Forall2 (Forall2 (fun e a => event_run code e = Ok a)) ths acts /\ Forall (Forall point_shape) acts.
Proof.
  intros ths acts G. split.
  - induction G as [|a b l m X F IH]; constructor; auto. clear -X. induction X as [|e x l m (es & X) F IH]; constructor; auto. apply X.
  - induction G as [|a b l m X F IH]; constructor; auto. clear -X. induction X as [|e x l m (es & X) F IH]; constructor; auto. apply X.
Qed.

Lemma whole_read : forall ths, Forall (Forall (event_ok sites)) ths ->
  exists acts, Forall2 (Forall2 (fun e a => event_run code e = Ok a)) ths acts /\
    forall back s1 s2, fsteps back true (fstart names types (map (@concat action) acts)) s1 -> f_failed s1 = false -> f_file s1 <> [] ->
    fsteps back true s1 s2 -> Forall (eq []) (f_threads s2) ->
    forall ok coins pos t, (forall n, n <= lenN (f_file s2) -> ok n = true) ->
    exists order kept tr, merge ths order /\ sublist kept order /\ reads ok coins pos t 0 (f_file s2) = Ok tr /\
      tr_names tr = names /\ tr_types tr = types /\ Forall2 (event_shows sites tr) kept (tr_points tr).
Proof.
  intros ths HO. destruct (threads_good test kf sites SOK TA names types code PROG FIT _ HO) as (acts & G). exists acts. destruct (shapes_of _ _ G) as [G1 SH]. split; [exact G1|].
  intros back s1 s2 R1 NF NE R2 FIN ok coins pos t OK. destruct (whole_run _ _ _ _ _ _ SH R1 NF NE R2 FIN) as (o & kept & M & SU & FE).
  destruct (merge_rel _ _ _ _ _ M _ G) as (order & M' & F'). destruct (sub_rel _ _ _ _ _ SU _ F') as (ko & S1 & S2).
  destruct (points_read test sites names types code PROG FIT _ _ S2) as (pts & E1 & E2 & E3 & E4 & E5).
  pose proof FIT as (L1 & L2 & L3).
  assert (OE : f_file s2 = enc_file (mkF names types pts)).
  { rewrite FE, E1. rewrite header_bytes by (exact (names_free test kf sites SOK TA names types code PROG) || exact L3). reflexivity. }
  assert (WF : file_wf ok (mkF names types pts)).
  { apply file_wf_ok; [exact (file_fine test kf sites SOK TA names types code PROG FIT pts E3 E4)|]. rewrite <- OE. exact OK. }
  destruct (complete_lemma ok coins pos t _ WF) as (tr & RD & (D1 & D2 & D3) & _). cbn [f_names f_types f_points] in *.
  exists order, ko, tr. rewrite OE. repeat split; auto. eapply E5; eauto.
Qed.

(** Threads go on whatever fails. *)
Lemma goes_on : forall ths acts, Forall (Forall (event_ok sites)) ths -> Forall2 (Forall2 (fun e a => event_run code e = Ok a)) ths acts ->
  forall back whole s, fsteps back whole (fstart names types (map (@concat action) acts)) s -> exists s', fsteps back whole s s' /\ Forall (eq []) (f_threads s').
Proof.
  intros ths acts HO G back whole s. remember (length (concat (f_threads s))) as n eqn:EN. revert s EN. induction n as [|n IH]; intros s EN R.
  - exists s. split; [constructor|]. symmetry in EN. apply length_zero_iff_nil in EN.
    apply Forall_forall. intros x Hx. destruct x as [|y x]; auto. exfalso.
    assert (X : In y (concat (f_threads s))) by (apply in_concat; exists (y :: x); split; [auto|now left]). rewrite EN in X. destruct X.
  - destruct (undisturbed _ _ _ _ _ _ R) as (d & U).
    destruct (live_lemma test kf sites SOK TA names types code PROG FIT ths acts HO G _ U) as (r & ST & L).
    { cbn [r_threads]. intros F. assert (Z : concat (f_threads s) = []) by (clear -F; induction F as [|x l <- F IH]; auto). rewrite Z in EN. discriminate. }
    assert (X : exists s1, fstep back whole s s1 /\ f_threads s1 = r_threads r).
    { destruct s as [lk all b f x th]. cbn [f_lock f_all f_threads r_threads] in *. inversion ST; subst; cbn [r_threads] in *.
      - eexists. split; [eapply fs_lock; eassumption|reflexivity].
      - eexists. split; [eapply fs_unlock; eassumption|reflexivity].
      - eexists. split; [eapply fs_write; eassumption|reflexivity].
      - destruct b as [|y b].
        + eexists. split; [eapply fs_flush_nothing; eassumption|reflexivity].
        + eexists. split; [eapply (fs_flush_fails _ _ _ _ _ _ _ _ _ _ 0); [eassumption|rewrite lenN_cons; lia|left; reflexivity]|reflexivity].
      - exfalso. rewrite <- EN in L. clear -L. lia. }
    destruct X as (s1 & ST1 & TE). cbn [r_threads] in L. rewrite <- TE in L. destruct (IH s1) as (s' & R' & F).
    + rewrite <- EN in L. injection L as L. exact L.
    + eapply fr_step; eassumption.
    + exists s'. split; [|exact F]. eapply fr_trans; [|exact R']. eapply fr_step; [constructor|exact ST1].
Qed.
End Program.

(** ** Holes *)
Lemma fr_one : forall back whole a b c, fstep back whole a b -> fsteps back whole b c -> fsteps back whole a c.
Proof. intros back whole a b c H K. eapply fr_trans; [|exact K]. eapply fr_step; [constructor|exact H]. Qed.
Definition bare (id : N) : list action := write_trace_id id ++ write_end_entry.
Definition bare_bytes (id : N) : list byte := [x01] ++ le_bytes 8 id ++ [x00].

(** One thread, two points without variables; of the first write only [k] bytes arrive. *)
Lemma hole_run : forall whole names types id1 id2 k, k < lenN (written (write_trace_header names types) ++ bare_bytes id1) -> (whole = true -> k = 0) ->
  exists s, fsteps true whole (fstart names types [bare id1 ++ bare id2]) s /\ Forall (eq []) (f_threads s) /\
    f_file s = takeN k (written (write_trace_header names types) ++ bare_bytes id1) ++ bare_bytes id2.
Proof.
  intros whole names types id1 id2 k L K. unfold fstart. set (H := written (write_trace_header names types)) in *.
  eexists. split; [|split; [|shelve]].
  - unfold bare, write_trace_id, write_end_entry. cbn [app].
    eapply fr_one; [eapply fs_lock with (i := 0%nat); reflexivity|]. cbn [update].
    eapply fr_one; [eapply fs_write with (i := 0%nat); reflexivity|]. cbn [update].
    eapply fr_one; [eapply fs_write with (i := 0%nat); reflexivity|]. cbn [update].
    eapply fr_one; [eapply fs_write with (i := 0%nat); reflexivity|]. cbn [update].
    eapply fr_one; [eapply fs_flush_fails with (i := 0%nat) (k := k); [reflexivity| |]|].
    { rewrite <- !app_assoc. exact L. }
    { destruct whole; [left; apply K; reflexivity|right; auto]. }
    cbn [update].
    eapply fr_one; [eapply fs_unlock with (i := 0%nat); reflexivity|]. cbn [update].
    eapply fr_one; [eapply fs_lock with (i := 0%nat); reflexivity|]. cbn [update].
    eapply fr_one; [eapply fs_write with (i := 0%nat); reflexivity|]. cbn [update].
    eapply fr_one; [eapply fs_write with (i := 0%nat); reflexivity|]. cbn [update].
    eapply fr_one; [eapply fs_write with (i := 0%nat); reflexivity|]. cbn [update].
    eapply fr_one; [eapply fs_flush with (i := 0%nat); [reflexivity|right; reflexivity]|]. cbn [update].
    eapply fr_one; [eapply fs_unlock with (i := 0%nat); reflexivity|]. cbn [update].
    apply fr_refl.
  - cbn [f_threads]. constructor; [reflexivity|constructor].
  Unshelve. cbn [f_file]. unfold bare_bytes. rewrite <- !app_assoc. reflexivity.
Qed.

Lemma shifted : forall id, id < 2 ^ 56 -> bare_bytes id = le_bytes 8 (256 * id + 1) ++ [x00] ++ [x00].
Proof.
  intros id H. unfold bare_bytes. cbn [le_bytes].
  assert (E : (256 * id + 1) / two8 = id) by (rewrite N.add_comm, N.mul_comm; apply N.div_add; discriminate). rewrite E.
  assert (Z : id / two8 / two8 / two8 / two8 / two8 / two8 / two8 = 0).
  { rewrite !N.div_div by discriminate. apply N.div_small. exact H. }
  rewrite Z. cbn [app]. f_equal. unfold byte_of_N. change two8 with 256. rewrite N.add_comm, N.mul_comm, N.mod_add by discriminate. reflexivity.
Qed.

Lemma first_bytes : forall (a b r : list byte), lenN a = lenN b -> forall q, a ++ r = b ++ q -> a = b.
Proof.
  induction a as [|x a IH]; intros [|y b] r L q E; rewrite ?lenN_cons in L; try (change (lenN (@nil byte)) with 0 in L; lia); auto.
  injection E as -> E. f_equal. eapply IH; [|exact E]. lia.
Qed.

(** What is left when the header is lost is no trace. *)
Lemma no_trace : forall ok max id, 0 < id -> id < 2 ^ 56 -> forall tr, ~ accepted ok max (bare_bytes id) tr.
Proof.
  intros ok max id P Q tr A.
  assert (LB : lenN (bare_bytes id) = 10) by (unfold bare_bytes; rewrite !lenN_app, lenN_le_bytes; reflexivity).
  inversion A as [F es A1 A2 A3 E|F r A1 A2 A3 E|ns k A1 A2 E|ns ts t part missing A1 A2 E1 E2 E].
  - apply (f_equal lenN) in E. unfold enc_file in E. rewrite !lenN_app, enc_header_len, LB in E. lia.
  - apply (f_equal lenN) in E. unfold enc_file in E. rewrite !lenN_app, enc_header_len, LB in E. lia.
  - pose proof (f_equal lenN E) as L. rewrite lenN_app, enc_names_len, LB in L.
    rewrite (shifted _ Q) in E. unfold enc_names in E. rewrite <- app_assoc in E.
    apply first_bytes in E; [|rewrite !lenN_le_bytes; reflexivity].
    apply (f_equal le_val) in E. rewrite !le_val_le_bytes in E.
    change (two8 ^ N.of_nat 8) with (2 ^ 64) in E. change (2 ^ 56) with 72057594037927936 in Q. change (2 ^ 64) with 18446744073709551616 in E. rewrite !N.mod_small in E by lia. lia.
  - apply (f_equal lenN) in E. rewrite lenN_app, enc_header_len, LB in E. rewrite lenN_app in E. change (lenN [t]) with 1 in E.
    pose proof (missing_len _ _ _ E1). lia.
Qed.

Lemma bare_run : forall code env n id, nth_error code n = Some [IId id; IEnd] -> event_run code (n, env) = Ok (bare id).
Proof. intros code env n id E. unfold event_run. cbn [fst snd]. rewrite E. reflexivity. Qed.

Lemma hole_read : forall names types id, tables_ok names types -> id < 2 ^ 56 ->
  forall bs, bs = written (write_trace_header names types) ++ [x01] ++ bare_bytes id ->
  forall ok coins pos t, (forall n, n <= lenN bs -> ok n = true) ->
  exists tr, reads ok coins pos t 0 bs = Ok tr /\ map p_stmt (tr_points tr) = [Some (256 * id + 1); None].
Proof.
  intros names types id TO Q bs EB ok coins pos t OK. pose proof TO as (NF & TW & L1 & L2 & L3).
  assert (OE : bs = enc_file (mkF names types [[EStmt (256 * id + 1)]; []])).
  { rewrite EB, header_bytes by assumption. unfold enc_file. cbn [f_names f_types f_points]. f_equal. rewrite (shifted _ Q). reflexivity. }
  assert (WF : file_wf ok (mkF names types [[EStmt (256 * id + 1)]; []])).
  { apply file_wf_ok; [|rewrite <- OE; exact OK]. apply file_fine32; [exact TO| |apply no_sentinel; constructor].
    repeat constructor. cbn [entry_wf]. change (2 ^ 56) with 72057594037927936 in Q. change (2 ^ 64) with 18446744073709551616. lia. }
  destruct (complete_lemma ok coins pos t _ WF) as (tr & RD & (D1 & D2 & D3) & _). cbn [f_names f_types f_points] in *.
  exists tr. rewrite OE. split; [exact RD|]. inversion D3 as [|i h es p pts ps P1 P2]; subst. inversion P2 as [|i' h' es' p' pts' ps' P1' P2']; subst. inversion P2'; subst.
  destruct P1 as (_ & S1 & _). destruct P1' as (_ & S2 & _). cbn [map]. rewrite S1, S2. reflexivity.
Qed.

Lemma all_grows : forall back whole s s', fsteps back whole s s' -> exists more, f_all s' = f_all s ++ more.
Proof.
  intros back whole s s' R. induction R as [s|s s' s'' R (m & IH) ST]; [exists []; symmetry; apply app_nil_r|].
  assert (E : exists m', f_all s'' = f_all s' ++ m').
  { destruct ST; cbn [f_all]; try (eexists; reflexivity); exists []; symmetry; apply app_nil_r. }
  destruct E as (m' & E). exists (m ++ m'). rewrite E, IH, app_assoc. reflexivity.
Qed.

Lemma same_tables : forall sites tr tr' l ps, tr_names tr' = tr_names tr -> tr_types tr' = tr_types tr -> Forall2 (event_shows sites tr) l ps -> Forall2 (event_shows sites tr') l ps.
Proof.
  intros sites tr tr' l ps E1 E2 F. induction F as [|e p l ps (s & A & B1 & B2 & B3 & v & B4 & B5) F IH]; constructor; auto.
  exists s. split; [exact A|]. repeat split; auto. exists v. split; [exact B4|]. clear -B5 E1 E2.
  induction B5 as [|y x l m (C1 & C2 & C3) F IH]; constructor; auto. unfold var_shows. rewrite E1, E2. auto.
Qed.
