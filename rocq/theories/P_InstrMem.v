(** Property C81: when the calls that log variables are safe.
    A pass through a place that logs is given by the memory of the program and
    the contents of its variables, which may be uninitialised and, for pointers,
    any address. *)
From Coq Require Import Strings.String Permutation.
From Verif Require Import BaseProofs Types Reader Writer Compare PrintPred FormatSpec Instr InstrRun InstrSpec InstrText InstrEnd InstrMem InstrMemSpec InstrMemProofs P_Instr.

(** The calls inserted at a site run without undefined behaviour exactly if all
    variables of logged types are initialised and those logged as C strings
    point to C strings; otherwise their behaviour is undefined. *)
Theorem C81_exact : forall test kf sites names types code,
  Forall (site_ok kf) sites -> tells_apart test (all_texts sites) -> instrumented test sites names types code ->
  forall i s m env, nth_error sites i = Some s -> mem_ok m -> site_typed s m env ->
  ((exists acts, mevent_run code (i, (m, env)) = Ok acts) <-> site_ready s m env) /\
  (~ site_ready s m env -> exists k, mevent_run code (i, (m, env)) = UB k).
Proof.
  intros test kf sites names types code S T P i s m env Hs M TY.
  destruct (run_exact test kf sites S T names types code P i s m env Hs M TY) as [A _]. split; auto.
  intros NR. destruct (run_total sites code i s m env Hs) as [X|X]; auto. destruct NR. now apply A.
Qed.
Print Assumptions C81_exact.

(** Safe passes do what the passes of C40 and C41 do, with the values the
    variables are seen to have. *)
Theorem C81_same : forall test kf sites names types code,
  Forall (site_ok kf) sites -> tells_apart test (all_texts sites) -> instrumented test sites names types code ->
  forall e, mevent_ready sites e ->
  exists a, event_seen sites e a /\ mevent_run code e = event_run code a /\ exists acts, mevent_run code e = Ok acts.
Proof.
  intros test kf sites names types code S T P e R. exists (abs_event e). split; [now apply abs_seen|].
  split; [exact (abs_run test kf sites S T names types code P e R)|].
  destruct e as [i [m env]]. destruct R as (M & s & Hs & TY & R). apply (run_exact test kf sites S T names types code P i s m env Hs M TY). exact R.
Qed.
Print Assumptions C81_same.

(** So the log of a program all of whose passes are safe shows them, whatever
    the schedule of its threads. *)
Theorem C81_log_read_back : forall test kf sites names types code,
  Forall (site_ok kf) sites -> tells_apart test (all_texts sites) ->
  instrumented test sites names types code -> fits names types ->
  forall ths, Forall (Forall (fun e => mevent_ready sites e /\ mevent_small sites e)) ths ->
  exists aths acts, Forall2 (Forall2 (event_seen sites)) ths aths /\
    Forall2 (Forall2 (fun e a => mevent_run code e = Ok a)) ths acts /\
    forall s, rsteps (rstart names types (map (@concat action) acts)) s -> Forall (eq []) (r_threads s) ->
    forall ok coins pos t, (forall n, n <= lenN (r_out s) -> ok n = true) ->
    exists order tr, merge aths order /\ reads ok coins pos t 0 (r_out s) = Ok tr /\
      tr_names tr = names /\ tr_types tr = types /\ Forall2 (event_shows sites tr) order (tr_points tr).
Proof. exact read_back. Qed.
Print Assumptions C81_log_read_back.

(** What a variable is seen to be is determined. *)
Theorem C81_seen : forall m v, mem_ok m -> v <> LUninit -> exists! r, seen m v r.
Proof.
  intros m v M NU. exists (absv m v). split; [now apply seen_fun|]. intros r S. symmetry. now apply seen_det.
Qed.
Print Assumptions C81_seen.

(** If strings are not logged the calls never look at the memory pointers point
    to, so dangling and null pointers are harmless: only uninitialised variables
    are not. *)
Theorem C81_no_strings : forall test kf sites names types code,
  Forall (site_ok kf) sites -> tells_apart test (all_texts sites) -> instrumented test sites names types code ->
  (forall s ps l, In s sites -> In (ps, l) (snd s) -> ps = false) ->
  (forall i m m' env, mevent_run code (i, (m, env)) = mevent_run code (i, (m', env))) /\
  forall i s m env, nth_error sites i = Some s -> mem_ok m -> site_typed s m env ->
  ((exists acts, mevent_run code (i, (m, env)) = Ok acts) <->
   forall ps l x k, In (ps, l) (snd s) -> In x l -> has_kind (snd x) k -> env (fst x) <> LUninit).
Proof.
  intros test kf sites names types code S T P NS. split; [exact (no_strings test sites names types code P NS)|].
  intros i s m env Hs M TY. destruct (run_exact test kf sites S T names types code P i s m env Hs M TY) as [A _]. rewrite A.
  unfold site_ready. split.
  - intros R ps l x k Ig Ix HK. apply (R ps l x k Ig Ix HK).
  - intros R ps l x k Ig Ix HK. split; [exact (R ps l x k Ig Ix HK)|]. intros E. rewrite (NS s ps l (nth_error_In _ _ Hs) Ig) in E. discriminate E.
Qed.
Print Assumptions C81_no_strings.

(** ** The example program of C41 *)
Definition ex_mem : memory := [(4096, [Some x68; Some x69; Some x00; None]); (8192, [Some x68; Some x69])].
Definition ex_menv (s p : lvalue) (n : name) : lvalue :=
  if bytes_eqb n (text "x") then LInt (-3)
  else if bytes_eqb n (text "s") then s
  else if bytes_eqb n (text "f") then LFloat 1065353216
  else p.

Lemma ex_mem_ok : mem_ok ex_mem.
Proof.
  split; [intros b [<-|[<-|[]]]; reflexivity|]. intros b c a Hb Hc A B. unfold in_block in *.
  apply andb_true_iff in A, B. destruct A as [A1 A2], B as [B1 B2]. apply N.leb_le in A1, B1. apply N.ltb_lt in A2, B2.
  destruct Hb as [<-|[<-|[]]], Hc as [<-|[<-|[]]]; auto; cbn in *; lia.
Qed.
Lemma ex_hi : c_string_at ex_mem 4096 (text "hi").
Proof. exists 4096, [], [None]. split; [now left|]. split; [reflexivity|]. intro H. vm_compute in H. intuition discriminate. Qed.
Lemma ex_typed : forall i s sv pv, nth_error ex_sites i = Some s ->
  (sv = LUninit \/ exists a, sv = LPtr a /\ a < 2 ^ 64) -> (pv = LUninit \/ exists a, pv = LPtr a /\ a < 2 ^ 64) ->
  site_typed s ex_mem (ex_menv sv pv).
Proof.
  intros i s sv pv Hs HS HP.
  assert (K : forall t k k', kind_fn t = Some k' -> has_kind t k -> k = k') by (intros t k k' E H; apply has_kind_fn in H; congruence).
  assert (K0 : forall t k, kind_fn t = None -> has_kind t k -> False) by (intros t k E H; apply has_kind_fn in H; congruence).
  assert (PT : forall k v, k = CPointer \/ k = CCharPointer -> (v = LUninit \/ exists a, v = LPtr a /\ a < 2 ^ 64) -> typed ex_mem k v).
  { intros k v HK [->|(a & -> & L)]; [left; split; auto; destruct HK as [->| ->]; discriminate|]. right.
    exists (absv ex_mem (LPtr a)). pose proof (seen_fun ex_mem (LPtr a) ex_mem_ok ltac:(discriminate)) as SN. split; auto.
    inversion SN as [| | | |b str C|b NC]; subst; destruct HK as [->| ->]; cbn; auto.
    - split; auto. destruct C as (? & ? & ? & _ & _ & NF). congruence.
    - split; auto. replace (string_of ex_mem a) with (@nil byte) by congruence. intros []. }
  assert (V : ex_menv sv pv (text "x") = LInt (-3) /\ ex_menv sv pv (text "s") = sv /\ ex_menv sv pv (text "f") = LFloat 1065353216 /\ ex_menv sv pv (text "p") = pv)
    by (repeat split; crunch).
  destruct V as (V1 & V2 & V3 & V4).
  assert (TI : typed ex_mem (CInt true 4) (LInt (-3))) by (right; exists (RInt (-3)); split; [constructor|cbn; lia]).
  assert (TF : typed ex_mem CFloat (LFloat 1065353216)) by (right; exists (RFloat 1065353216); split; [constructor|reflexivity]).
  assert (S1 : kind_fn t_int = Some (CInt true 4)) by crunch. assert (S2 : kind_fn t_cstr = Some CCharPointer) by crunch.
  assert (S3 : kind_fn t_ptr = Some CPointer) by crunch. assert (S4 : kind_fn t_float = Some CFloat) by crunch.
  assert (S5 : kind_fn t_struct = None) by crunch.
  destruct i as [|[|i]]; cbn [nth_error ex_sites] in Hs; [injection Hs as <-|injection Hs as <-|destruct i; discriminate]; unfold site_typed; cbn [snd].
  - apply Forall_cons; [|apply Forall_nil]. cbn [snd].
    repeat apply Forall_cons; try apply Forall_nil; cbn [fst snd]; intros k HK.
    + rewrite (K _ _ _ S1 HK), V1. exact TI.
    + destruct (K0 _ _ S5 HK).
    + rewrite (K _ _ _ S2 HK), V2. auto.
    + rewrite (K _ _ _ S3 HK), V4. auto.
  - apply Forall_cons; [|apply Forall_cons; [|apply Forall_nil]]; cbn [snd]; repeat apply Forall_cons; try apply Forall_nil; cbn [fst snd]; intros k HK.
    + rewrite (K _ _ _ S4 HK), V3. exact TF.
    + rewrite (K _ _ _ S2 HK), V2. auto.
    + rewrite (K _ _ _ S1 HK), V1. exact TI.
Qed.
Lemma ex_ready : forall i s pa, nth_error ex_sites i = Some s -> site_ready s ex_mem (ex_menv (LPtr 4096) (LPtr pa)).
Proof.
  intros i s pa Hs.
  assert (NU : forall n, ex_menv (LPtr 4096) (LPtr pa) n <> LUninit).
  { intros n. unfold ex_menv. destruct (bytes_eqb n (text "x")), (bytes_eqb n (text "s")), (bytes_eqb n (text "f")); discriminate. }
  intros ps l x k Ig Ix HK. split; auto. intros E1 E2. subst.
  assert (x = (text "s", t_cstr)) as ->.
  { destruct i as [|[|i]]; cbn [nth_error ex_sites] in Hs; [injection Hs as <-|injection Hs as <-|destruct i; discriminate].
    - destruct Ig as [E|[]]. injection E as <-. apply has_kind_fn in HK.
      destruct Ix as [<-|[<-|[<-|[<-|[]]]]]; auto; vm_compute in HK; discriminate HK.
    - destruct Ig as [E|[E|[]]]; discriminate E. }
  exists 4096, (text "hi"). split; [crunch|exact ex_hi].
Qed.

(** The hypotheses are met by a program with two threads, with a pointer to
    freed memory (not logged as a string). *)
Example C81_hyps : forall ths, ths = [[(0%nat, (ex_mem, ex_menv (LPtr 4096) (LPtr 64))); (1%nat, (ex_mem, ex_menv (LPtr 4096) (LPtr 0)))];
                                      [(1%nat, (ex_mem, ex_menv (LPtr 4096) (LPtr 64)))]] ->
  Forall (Forall (fun e => mevent_ready ex_sites e /\ mevent_small ex_sites e)) ths /\
  exists acts, mevent_run ex_code (0%nat, (ex_mem, ex_menv (LPtr 4096) (LPtr 64))) = Ok acts /\
    written acts = [x01; x05; x00; x00; x00; x00; x00; x00; x00;
                    x02; x01; x00; x00; x00; x00; x00; x00; x00; xfd; xff; xff; xff;
                    x02; x05; x00; x00; x00; x02; x00; x00; x00; x40; x00; x00; x00; x00; x00; x00; x00;
                    x02; x03; x00; x00; x00; x01; x00; x00; x00; x02; x00; x00; x00; x68; x69; x00].
Proof.
  assert (R : forall i pa, (i < 2)%nat -> pa < 2 ^ 64 ->
    mevent_ready ex_sites (i, (ex_mem, ex_menv (LPtr 4096) (LPtr pa))) /\ mevent_small ex_sites (i, (ex_mem, ex_menv (LPtr 4096) (LPtr pa)))).
  { intros i pa Hi HP. assert (exists s, nth_error ex_sites i = Some s) as (s & Hs) by (destruct i as [|[|i]]; [cbn; eauto|cbn; eauto|lia]).
    assert (TY : site_typed s ex_mem (ex_menv (LPtr 4096) (LPtr pa))).
    { eapply ex_typed; [exact Hs|right; exists 4096; split; [auto|reflexivity]|right; exists pa; auto]. }
    split.
    - split; [exact ex_mem_ok|]. exists s. cbn [fst snd]. split; auto. split; auto. eapply ex_ready; eauto.
    - intros s' _. cbn [fst snd]. apply Forall_forall. intros g _. apply Forall_forall. intros x _ k r HK SN IN. split; auto.
      unfold ex_menv in SN.
      destruct (bytes_eqb (fst x) (text "x")); [inversion SN; subst; destruct k as [[]| | | | |]; cbn in *; auto|].
      destruct (bytes_eqb (fst x) (text "s")).
      { inversion SN as [| | | |b str C|b NC]; subst; destruct k as [[]| | | | |]; cbn in *; auto; try reflexivity.
        rewrite (string_unique ex_mem 4096 str (text "hi") ex_mem_ok C ex_hi). reflexivity. }
      destruct (bytes_eqb (fst x) (text "f")); [inversion SN; subst; destruct k as [[]| | | | |]; cbn in IN; try contradiction; intros [X _]; vm_compute in X; discriminate X|].
      inversion SN as [| | | |b str C|b NC]; subst; destruct k as [[]| | | | |]; cbn in *; auto; try reflexivity.
      destruct C as (base & pre & post & I & _ & _). assert (L : lenN (pre ++ map Some str ++ Some x00 :: post) <= 4).
      { destruct I as [E|[E|[]]]; injection E as _ <-; cbn; lia. }
      rewrite !lenN_app, lenN_map in L. lia. }
  intros ths ->. split.
  - repeat (apply Forall_cons || apply Forall_nil); apply R; (lia || reflexivity).
  - eexists. split; [crunch|]. crunch.
Qed.

(** ** What C programs may do with their variables is not always safe to log *)

(** A null pointer of type char *, logged as a string: strlen(NULL). *)
Theorem C81_null_refuted : exists test kf sites names types code i s m env,
  Forall (site_ok kf) sites /\ tells_apart test (all_texts sites) /\ instrumented test sites names types code /\
  nth_error sites i = Some s /\ mem_ok m /\ site_typed s m env /\ (forall n, env n <> LUninit) /\
  env (text "s") = LPtr 0 /\ mevent_run code (i, (m, env)) = UB UNull.
Proof.
  exists equal_test, ex_kf, ex_sites, ex_names, ex_types, ex_code, 0%nat. eexists. exists ex_mem, (ex_menv (LPtr 0) (LPtr 64)).
  split; [exact ex_sites_ok|]. split; [apply C48_single_file|]. split; [exact (proj1 ex_instrumented)|]. split; [reflexivity|].
  split; [exact ex_mem_ok|]. split; [eapply (ex_typed 0); [reflexivity|right; exists 0; split; [auto|reflexivity]|right; exists 64; split; [auto|reflexivity]]|].
  split; [|split; crunch].
  intros n. unfold ex_menv. destruct (bytes_eqb n (text "x")), (bytes_eqb n (text "s")), (bytes_eqb n (text "f")); discriminate.
Qed.
Print Assumptions C81_null_refuted.

(** Characters without a terminating NUL: strlen runs past the end of the object. *)
Theorem C81_unterminated_refuted : exists test kf sites names types code i s m env,
  Forall (site_ok kf) sites /\ tells_apart test (all_texts sites) /\ instrumented test sites names types code /\
  nth_error sites i = Some s /\ mem_ok m /\ site_typed s m env /\ (forall n, env n <> LUninit) /\
  env (text "s") = LPtr 8192 /\ In (8192, map Some (text "hi")) m /\ mevent_run code (i, (m, env)) = UB UOob.
Proof.
  exists equal_test, ex_kf, ex_sites, ex_names, ex_types, ex_code, 0%nat. eexists. exists ex_mem, (ex_menv (LPtr 8192) (LPtr 64)).
  split; [exact ex_sites_ok|]. split; [apply C48_single_file|]. split; [exact (proj1 ex_instrumented)|]. split; [reflexivity|].
  split; [exact ex_mem_ok|]. split; [eapply (ex_typed 0); [reflexivity|right; exists 8192; split; [auto|reflexivity]|right; exists 64; split; [auto|reflexivity]]|].
  split; [|split; [crunch|split; [right; now left|crunch]]].
  intros n. unfold ex_menv. destruct (bytes_eqb n (text "x")), (bytes_eqb n (text "s")), (bytes_eqb n (text "f")); discriminate.
Qed.
Print Assumptions C81_unterminated_refuted.

(** A variable that is in scope but not yet initialised, strings or not. *)
Theorem C81_uninitialised_refuted : exists test kf sites names types code i s m env,
  Forall (site_ok kf) sites /\ tells_apart test (all_texts sites) /\ instrumented test sites names types code /\
  nth_error sites i = Some s /\ mem_ok m /\ site_typed s m env /\
  env (text "s") = LUninit /\ (forall ps l, In (ps, l) (snd s) -> ps = false) /\ mevent_run code (i, (m, env)) = UB UUninit.
Proof.
  exists equal_test, ex_kf, ex_sites, ex_names, ex_types, ex_code, 1%nat. eexists. exists ex_mem, (ex_menv LUninit (LPtr 64)).
  split; [exact ex_sites_ok|]. split; [apply C48_single_file|]. split; [exact (proj1 ex_instrumented)|]. split; [reflexivity|].
  split; [exact ex_mem_ok|]. split; [eapply (ex_typed 1); [reflexivity|left; auto|right; exists 64; split; [auto|reflexivity]]|].
  split; [crunch|]. split; [|crunch]. intros ps l [E|[E|[]]]; now injection E as <- _.
Qed.
Print Assumptions C81_uninitialised_refuted.
