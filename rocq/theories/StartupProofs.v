(** Start and end of an instrumented program: proofs. *)
From Coq Require Import Strings.String Permutation Sorted.
From Verif Require Import BaseProofs Types Stream SkipList AMap MemMapSpec Reader Writer Compare PrintPred FormatSpec FormatUB CanonSpec ReaderMore ReaderProps.
From Verif Require Import Instr InstrRun InstrSpec InstrText InstrFloat InstrTable InstrConc InstrProofs InstrEnd.
From Verif Require Import Startup StartupSpec.

(** ** Orders *)
Lemma na_refl : forall f, not_after f f.
Proof. intros f. unfold not_after. destruct (in_priority f); auto. lia. Qed.
Lemma na_trans : forall f g h, not_after f g -> not_after g h -> not_after f h.
Proof. intros f g h. unfold not_after. destruct (in_priority f), (in_priority g), (in_priority h); try tauto; lia. Qed.
Lemma na_dec : forall f g, not_after f g \/ not_after g f /\ ~ not_after f g.
Proof. intros f g. unfold not_after. destruct (in_priority f) as [p|], (in_priority g) as [q|]; try tauto. destruct (N.le_gt_cases p q); [left; auto|right; split; lia]. Qed.

(** A function can be put behind all that may come before it. *)
Lemma insert_last : forall l x, StronglySorted not_after l -> exists a b, l = a ++ b /\
  Forall (fun y => not_after y x) a /\ Forall (fun y => ~ not_after y x) b /\ StronglySorted not_after (a ++ x :: b).
Proof.
  induction l as [|y l IH]; intros x H.
  - exists [], []. repeat split; constructor; constructor.
  - inversion H as [|? ? H1 H2]; subst. destruct (na_dec y x) as [L|(L & G)].
    + destruct (IH x H1) as (a & b & -> & A & B & C). exists (y :: a), b. split; [reflexivity|]. split; [constructor; auto|]. split; [exact B|].
      cbn [app]. constructor; [exact C|]. apply Forall_app in H2. destruct H2. apply Forall_app. split; auto.
    + exists [], (y :: l). split; [reflexivity|]. split; [constructor|]. split.
      * constructor; [exact G|]. eapply Forall_impl; [|exact H2]. intros z Z W. apply G. eapply na_trans; eauto.
      * cbn [app]. constructor; [exact H|]. constructor; [exact L|]. eapply Forall_impl; [|exact H2]. intros z Z. eapply na_trans; eauto.
Qed.
Lemma sort_exists : forall l, exists o, init_order l o.
Proof.
  induction l as [|x l (o & P & H)]; [exists []; repeat constructor|]. destruct (insert_last o x H) as (a & b & -> & _ & _ & C).
  exists (a ++ x :: b). split; [|exact C]. apply Permutation_cons_app. exact P.
Qed.
Lemma sorts_exist : forall ll, exists oo, Forall2 init_order ll oo.
Proof. induction ll as [|l ll (oo & H)]; [exists []; constructor|]. destruct (sort_exists l) as (o & O). exists (o :: oo). constructor; auto. Qed.
Lemma bad_order : forall fs f, In f fs -> ~ late f -> exists a b, init_order (setup_fn :: fs) (a ++ setup_fn :: b) /\ In f a.
Proof.
  intros fs f I L. destruct (sort_exists fs) as (o & P & H). destruct (insert_last o setup_fn H) as (a & b & -> & _ & B & C).
  exists a, b. split; [split; [apply Permutation_cons_app; exact P|exact C]|]. apply (Permutation_in _ P) in I. apply in_app_or in I.
  destruct I as [I|I]; [exact I|]. exfalso. rewrite Forall_forall in B. apply (B f I). unfold late in L. unfold not_after. cbn [in_priority setup_fn].
  destruct (in_priority f) as [p|]; [unfold setup_priority; lia|]. apply L. exact Logic.I.
Qed.
Lemma split_order : forall fs o, init_order (setup_fn :: fs) o -> exists a b, o = a ++ setup_fn :: b /\ Permutation fs (a ++ b) /\
  Forall (fun f => not_after f setup_fn) a /\ Forall (fun f => not_after setup_fn f) b.
Proof.
  intros fs o (P & H). assert (I : In setup_fn o) by (eapply Permutation_in; [exact P|left; reflexivity]).
  destruct (in_split _ _ I) as (a & b & ->). exists a, b. split; [reflexivity|]. split; [eapply Permutation_cons_app_inv; exact P|].
  clear P I. induction a as [|y a IH]; cbn [app] in H; inversion H as [|? ? H1 H2]; subst; [split; [constructor|exact H2]|].
  destruct (IH H1) as (A & B). split; [|exact B]. constructor; [|exact A]. apply Forall_app in H2. destruct H2 as [_ H2]. inversion H2; subst. assumption.
Qed.

(** ** Running *)
Section Run.
Variable names : list name.
Variable types : list tdesc.
Variable code : list (list istmt).
Notation run := (run names types code).

Lemma steps_cases : forall s, no_setup s -> s = [] \/ exists e r, s = SPass e :: r.
Proof. intros [|[|e] r] H; auto; [|eauto]. exfalso. apply H. left. reflexivity. Qed.
Lemma null_run : forall e r, run None (SPass e :: r) = UB UNull.
Proof. reflexivity. Qed.
(** Something passes before the log is set up. *)
Lemma early_run : forall a b, no_setup a -> a <> [] -> run None (a ++ b) = UB UNull.
Proof. intros a b N E. destruct (steps_cases a N) as [->|(e & r & ->)]; [congruence|reflexivity]. Qed.
Lemma passes_nil : forall s, no_setup s -> passes s = [] -> s = [].
Proof. intros s N E. destruct (steps_cases s N) as [->|(e & r & ->)]; [reflexivity|discriminate E]. Qed.

Lemma log_run : forall s l out, no_setup s -> Forall2 (fun e a => event_run code e = Ok a) (passes s) l ->
  run (Some out) s = Ok (Some (out ++ wr l)).
Proof.
  induction s as [|[|e] s IH]; intros l out N F; cbn [passes flat_map] in F.
  - inversion F; subst. unfold wr. cbn. now rewrite app_nil_r.
  - exfalso. apply N. left. reflexivity.
  - cbn [app] in F. inversion F as [|? a ? l' E F']; subst. cbn [Startup.run]. rewrite E. cbn [bind]. rewrite (IH l').
    + unfold wr. cbn [map concat]. now rewrite app_assoc.
    + intro X. apply N. right. exact X.
    + exact F'.
Qed.
End Run.

Lemma no_setup_app : forall a b, no_setup (a ++ b) <-> no_setup a /\ no_setup b.
Proof. unfold no_setup. intros a b. rewrite in_app_iff. tauto. Qed.
Lemma no_setup_fns : forall fs, Forall (fun f => no_setup (in_steps f)) fs -> no_setup (concat (map in_steps fs)).
Proof.
  induction 1 as [|f fs H _ IH]; [intros []|]. cbn [map concat]. apply no_setup_app. auto.
Qed.
Lemma no_setup_libs : forall ll, Forall (Forall (fun f => no_setup (in_steps f))) ll -> no_setup (concat (map (fun l => concat (map in_steps l)) ll)).
Proof.
  induction 1 as [|l ll H _ IH]; [intros []|]. cbn [map concat]. apply no_setup_app. split; [apply no_setup_fns|]; auto.
Qed.
Lemma perm_forall : forall A (P : A -> Prop) l m, Permutation l m -> Forall P l -> Forall P m.
Proof. intros A P l m H F. rewrite Forall_forall in *. intros x I. apply F. eapply Permutation_in; [symmetry; exact H|exact I]. Qed.
Lemma libs_forall : forall (P : initfn -> Prop) ll oo, Forall2 init_order ll oo -> Forall (Forall P) ll -> Forall (Forall P) oo.
Proof.
  intros P ll oo H. induction H as [|l o ll oo (X & _) _ IH]; intros F; [constructor|]. inversion F; subst. constructor; auto. eapply perm_forall; eauto.
Qed.
Lemma passes_app : forall a b, passes (a ++ b) = passes a ++ passes b.
Proof. intros. apply flat_map_app. Qed.
Lemma passes_fns : forall fs, passes (concat (map in_steps fs)) = flat_map (fun f => passes (in_steps f)) fs.
Proof. induction fs as [|f fs IH]; [reflexivity|]. cbn [map concat flat_map]. now rewrite passes_app, IH. Qed.
Lemma quiet_steps : forall fs, Forall quiet fs -> concat (map in_steps fs) = [].
Proof. induction 1 as [|f fs H _ IH]; [reflexivity|]. cbn [map concat]. now rewrite H, IH. Qed.
Lemma quiet_libs : forall ll, Forall (Forall quiet) ll -> concat (map (fun l => concat (map in_steps l)) ll) = [].
Proof. induction 1 as [|l ll H _ IH]; [reflexivity|]. cbn [map concat]. now rewrite (quiet_steps l H), IH. Qed.
Lemma not_quiet : forall fs f, In f fs -> in_steps f <> [] -> concat (map in_steps fs) <> [].
Proof.
  intros fs f I NE E. apply NE. destruct (in_steps f) as [|x r] eqn:S; [reflexivity|].
  assert (In x (concat (map in_steps fs))) by (apply in_concat; exists (in_steps f); split; [apply in_map; exact I|rewrite S; left; reflexivity]).
  rewrite E in H. destruct H.
Qed.

(** The passes of a run when nothing comes too early. *)
Lemma good_steps : forall g ls o, one_setup g -> late_enough g -> Forall2 init_order (g_libs g) ls -> init_order (setup_fn :: g_inits g) o ->
  exists rest, steps_of g ls o = SSetup :: rest /\ no_setup rest /\
    passes rest = flat_map (fun f => passes (in_steps f)) o ++ passes (g_main g) ++ passes (g_exit g).
Proof.
  intros g ls o (N1 & N2 & N3 & N4 & N5) (L1 & L2 & L3) HL HO. unfold steps_of. rewrite L1. cbn [app].
  rewrite quiet_libs by (eapply libs_forall; eauto). cbn [app].
  destruct (split_order _ _ HO) as (a & b & -> & P & A & B).
  assert (QA : Forall quiet a).
  { rewrite Forall_forall in *. intros f I. destruct (L3 f) as [Q|Q]; [eapply Permutation_in; [symmetry; exact P|apply in_or_app; left; exact I]|exact Q|].
    specialize (A f I). unfold late in Q. unfold not_after in A. cbn [setup_fn in_priority] in A. destruct (in_priority f) as [p|]; [unfold setup_priority in A; lia|destruct A]. }
  assert (NB : no_setup (concat (map in_steps b))).
  { apply no_setup_fns. pose proof (perm_forall _ _ _ _ P N3) as X. apply Forall_app in X. apply X. }
  rewrite map_app, concat_app, (quiet_steps a QA). cbn [map concat app in_steps setup_fn].
  exists (concat (map in_steps b) ++ g_main g ++ g_exit g). split; [reflexivity|]. split.
  - apply no_setup_app. split; [exact NB|]. apply no_setup_app. auto.
  - rewrite flat_map_app. rewrite <- (passes_fns a), (quiet_steps a QA). cbn [flat_map in_steps setup_fn passes app].
    rewrite !passes_app, passes_fns. reflexivity.
Qed.
Lemma good_passes : forall sites g o, passes_ok sites g -> init_order (setup_fn :: g_inits g) o ->
  Forall (event_ok sites) (flat_map (fun f => passes (in_steps f)) o ++ passes (g_main g) ++ passes (g_exit g)).
Proof.
  intros sites g o (_ & _ & O3 & O4 & O5) (P & _). apply Forall_app. split; [|apply Forall_app; auto].
  assert (X : Forall (fun f => Forall (event_ok sites) (passes (in_steps f))) o).
  { eapply perm_forall; [exact P|]. constructor; [constructor|exact O3]. }
  clear -X. induction X as [|f o H _ IH]; [constructor|]. cbn [flat_map]. apply Forall_app. auto.
Qed.

Section Prog.
Variable test : name -> name -> bool.
Variable kf : name -> skind.
Variable sites : list site.
Hypothesis SOK : Forall (site_ok kf) sites.
Hypothesis TA : tells_apart test (all_texts sites).
Variable names : list name.
Variable types : list tdesc.
Variable code : list (list istmt).
Hypothesis PROG : instrumented test sites names types code.
Hypothesis FIT : fits names types.

Lemma start_lemma : forall g, one_setup g -> passes_ok sites g -> late_enough g ->
  forall ls o, Forall2 init_order (g_libs g) ls -> init_order (setup_fn :: g_inits g) o ->
  exists out, run names types code None (steps_of g ls o) = Ok (Some out) /\
    forall ok coins pos t, (forall n, n <= lenN out -> ok n = true) ->
    exists tr, reads ok coins pos t 0 out = Ok tr /\ tr_names tr = names /\ tr_types tr = types /\
      Forall2 (event_shows sites tr) (flat_map (fun f => passes (in_steps f)) o ++ passes (g_main g) ++ passes (g_exit g)) (tr_points tr).
Proof.
  intros g ONE OKS LATE ls o HL HO. destruct (good_steps g ls o ONE LATE HL HO) as (rest & E & N & P). rewrite E.
  pose proof (good_passes sites g o OKS HO) as G. rewrite <- P in G |- *.
  destruct (events_good test kf sites SOK TA names types code PROG FIT _ G) as (acts & A).
  assert (A' : Forall2 (fun e a => event_run code e = Ok a) (passes rest) acts).
  { clear -A. induction A as [|e a l m (es & X) _ IH]; constructor; [apply X|exact IH]. }
  exists (written (write_trace_header names types) ++ wr acts). split; [cbn [run]; now apply log_run|].
  intros ok coins pos t OK. destruct (points_read test sites names types code PROG FIT _ _ A) as (pts & E1 & E2 & E3 & E4 & E5).
  pose proof FIT as (L1 & L2 & L3).
  pose proof (names_free test kf sites SOK TA names types code PROG) as NF.
  assert (OE : written (write_trace_header names types) ++ wr acts = enc_file (mkF names types pts)).
  { rewrite header_bytes, E1 by auto. reflexivity. }
  rewrite OE in *.
  assert (WF : file_wf ok (mkF names types pts)).
  { apply file_wf_ok; [eapply file_fine; eauto|exact OK]. }
  destruct (complete_lemma ok coins pos t _ WF) as (tr & RD & (D1 & D2 & D3) & _). cbn [f_names f_types f_points] in *.
  exists tr. repeat split; auto. eapply E5; eauto.
Qed.
End Prog.

(** ** When something comes too early *)
Lemma preinit_bad : forall names types code g s, one_setup g -> g_preinit g <> [] -> runs g s -> run names types code None s = UB UNull.
Proof. intros names types code g s (N1 & _) E (ls & o & _ & _ & ->). unfold steps_of. apply early_run; auto. Qed.
Lemma lib_bad : forall names types code g s l f, one_setup g -> In l (g_libs g) -> In f l -> in_steps f <> [] -> runs g s ->
  run names types code None s = UB UNull.
Proof.
  intros names types code g s l f (N1 & N2 & _) I1 I2 E (ls & o & HL & _ & ->). unfold steps_of. rewrite app_assoc. apply early_run.
  - apply no_setup_app. split; [exact N1|]. apply no_setup_libs. eapply libs_forall; eauto.
  - intros X. apply app_eq_nil in X. destruct X as [_ X].
    assert (exists l', In l' ls /\ In f l') as (l' & J1 & J2).
    { clear -HL I1 I2. induction HL as [|a b ll oo (P & _) _ IH]; [destruct I1|]. destruct I1 as [->|I1].
      - exists b. split; [left; reflexivity|]. eapply Permutation_in; eauto.
      - destruct (IH I1) as (l' & A & B). exists l'. split; [right; exact A|exact B]. }
    apply (not_quiet l' f J2 E). destruct (concat (map in_steps l')) as [|x r] eqn:C; [reflexivity|]. exfalso.
    assert (In x (concat (map (fun l => concat (map in_steps l)) ls))).
    { apply in_concat. exists (x :: r). split; [|left; reflexivity]. rewrite <- C. exact (in_map (fun l => concat (map in_steps l)) _ _ J1). }
    rewrite X in H. destruct H.
Qed.
Lemma split_bad : forall names types code g ls a b f, one_setup g -> Forall2 init_order (g_libs g) ls ->
  init_order (setup_fn :: g_inits g) (a ++ setup_fn :: b) -> In f a -> in_steps f <> [] ->
  run names types code None (steps_of g ls (a ++ setup_fn :: b)) = UB UNull.
Proof.
  intros names types code g ls a b f (N1 & N2 & N3 & _) HL (P & _) I E. apply Permutation_cons_app_inv in P. unfold steps_of.
  rewrite map_app, concat_app, <- !app_assoc, (app_assoc (g_preinit g)), (app_assoc (g_preinit g ++ _)). apply early_run.
  - apply no_setup_app. split; [apply no_setup_app; split; [exact N1|apply no_setup_libs; eapply libs_forall; eauto]|]. apply no_setup_fns.
    pose proof (perm_forall _ _ _ _ P N3) as X. apply Forall_app in X. apply X.
  - intros X. apply app_eq_nil in X. destruct X as [_ X]. exact (not_quiet a f I E X).
Qed.
Lemma always_bad : forall names types code g s f p, one_setup g -> In f (g_inits g) -> in_priority f = Some p -> p < setup_priority -> in_steps f <> [] ->
  runs g s -> run names types code None s = UB UNull.
Proof.
  intros names types code g s f p ONE I E L NE (ls & o & HL & HO & ->). destruct (split_order _ _ HO) as (a & b & -> & P & A & B).
  apply (Permutation_in _ P) in I. apply in_app_or in I. destruct I as [I|I]; [eapply split_bad; eauto|].
  exfalso. rewrite Forall_forall in B. specialize (B f I). unfold not_after in B. rewrite E in B. cbn [setup_fn in_priority] in B. lia.
Qed.
Lemma sometimes_bad : forall names types code g f, one_setup g -> In f (g_inits g) -> ~ late f -> in_steps f <> [] ->
  exists s, runs g s /\ run names types code None s = UB UNull.
Proof.
  intros names types code g f ONE I L NE. destruct (bad_order _ _ I L) as (a & b & HO & IA). destruct (sorts_exist (g_libs g)) as (ls & HL).
  exists (steps_of g ls (a ++ setup_fn :: b)). split; [exists ls, (a ++ setup_fn :: b); auto|]. eapply split_bad; eauto.
Qed.
Lemma run_exists : forall g, exists s, runs g s.
Proof.
  intros g. destruct (sort_exists (setup_fn :: g_inits g)) as (o & HO). destruct (sorts_exist (g_libs g)) as (ls & HL). exists (steps_of g ls o), ls, o. auto.
Qed.
Lemma exact_lemma : forall names types code g, one_setup g ->
  (forall s, runs g s -> run names types code None s <> UB UNull) -> late_enough g.
Proof.
  intros names types code g ONE H. destruct (run_exists g) as (s0 & R0). split; [|split].
  - destruct (g_preinit g) eqn:E; [reflexivity|]. exfalso. apply (H s0 R0). eapply preinit_bad; eauto. rewrite E. discriminate.
  - apply Forall_forall. intros l I1. apply Forall_forall. intros f I2. unfold quiet. destruct (in_steps f) eqn:E; [reflexivity|].
    exfalso. apply (H s0 R0). eapply lib_bad; eauto. rewrite E. discriminate.
  - apply Forall_forall. intros f I. destruct (in_steps f) eqn:E; [left; exact E|]. right. unfold late. destruct (in_priority f) as [p|] eqn:P; [|exact Logic.I].
    destruct (N.le_gt_cases p 101) as [L|L]; [|exact L]. exfalso.
    destruct (sometimes_bad names types code g f ONE I) as (s1 & R & B); [unfold late; rewrite P; lia|rewrite E; discriminate|]. exact (H s1 R B).
Qed.
