(** Property C45: opening trace files with a timeout. *)
From Verif Require Import BaseProofs OpenFile.

(** The environment opens the file with a usable descriptor that is not in use. *)
Definition opens (e : os) (s : sys) (fd : N) : Prop :=
  os_fd e = Some fd /\ fd < 1024 /\ ~ In fd (map fst (s_fds s)).
(** The file is readable after [r] microseconds and no signal comes first. *)
Definition readable_after (e : os) (r : N) : Prop :=
  os_ready e = Some r /\ forall g, os_signal e = Some g -> r <= g.

Lemma close_fresh : forall fds n, ~ In n (map fst fds) -> close_ fds (Some n) = fds.
Proof.
  induction fds as [|[m b] r IH]; intros n H; [reflexivity|]. cbn in *. destruct (N.eqb_spec m n); [exfalso; auto|]. cbn. f_equal. apply IH. auto.
Qed.
Lemma block_fresh : forall fds n, ~ In n (map fst fds) -> map (fun x => if fst x =? n then (n, false) else x) fds = fds.
Proof.
  induction fds as [|[m b] r IH]; intros n H; [reflexivity|]. cbn in *. destruct (N.eqb_spec m n); [exfalso; auto|]. f_equal. apply IH. auto.
Qed.
Lemma tv_sec_small : forall t, t < 2 ^ 63 -> tv_sec t = Z.of_N t.
Proof. intros t H. unfold tv_sec, s64. change two63 with (2 ^ 63). destruct (N.ltb_spec t (2 ^ 63)); [reflexivity|lia]. Qed.

(** A readable file: the stream is returned as soon as it is readable, in
    blocking mode. *)
Theorem C45_readable : forall len e s timeout fd r, opens e s fd -> readable_after e r ->
  timeout < 2 ^ 63 -> timeout = 0 \/ r <= timeout * 1000000 ->
  open_with_timeout len e s timeout = (Ok fd, mkSys ((fd, false) :: s_fds s) (s_clock s + r)).
Proof.
  intros len e s timeout fd r (Ef & Hfd & Hin) (Er & Hg) Ht Hr. unfold open_with_timeout, select_. rewrite Ef, Er. cbv beta iota.
  destruct (N.ltb_spec fd fd_setsize) as [_|X]; [|unfold fd_setsize in X; lia].
  assert (HB : map (fun x => if fst x =? fd then (fd, false) else x) ((fd, true) :: s_fds s) = (fd, false) :: s_fds s).
  { cbn. rewrite N.eqb_refl. f_equal. apply block_fresh. exact Hin. }
  destruct (N.eqb_spec timeout 0) as [E0|E0].
  - destruct (os_signal e) as [g|]; cbn [earlier fst]; [|cbn [s_fds]; rewrite HB; reflexivity].
    specialize (Hg g eq_refl). destruct (N.leb_spec r g); [|lia]. cbn [s_fds]; rewrite HB; reflexivity.
  - rewrite tv_sec_small by exact Ht. destruct (Z.ltb_spec (Z.of_N timeout) 0); [lia|].
    rewrite N2Z.id. destruct Hr as [Hr|Hr]; [contradiction|].
    destruct (os_signal e) as [g|]; cbn [earlier fst].
    + specialize (Hg g eq_refl). destruct (N.leb_spec g (timeout * second)); cbn [fst].
      * destruct (N.leb_spec r g); [|lia]. cbn [s_fds]; rewrite HB; reflexivity.
      * unfold second in *. destruct (N.leb_spec r (timeout * 1000000)); [|lia]. cbn [s_fds]; rewrite HB; reflexivity.
    + unfold second in *. destruct (N.leb_spec r (timeout * 1000000)); [|lia]. cbn [s_fds]; rewrite HB; reflexivity.
Qed.
Print Assumptions C45_readable.

(** Otherwise (with a timeout) an error is reported within the timeout, and the
    descriptor is closed. *)
Theorem C45_not_readable : forall len e s timeout fd, opens e s fd -> 0 < timeout < 2 ^ 63 ->
  ~ (exists r, readable_after e r /\ r <= timeout * 1000000) ->
  exists dt, dt <= timeout * 1000000 /\
    open_with_timeout len e s timeout = (Throw ECannotOpen, mkSys (s_fds s) (s_clock s + dt)).
Proof.
  intros len e s timeout fd (Ef & Hfd & Hin) Ht HN. unfold open_with_timeout, select_. rewrite Ef. cbv beta iota.
  destruct (N.ltb_spec fd fd_setsize) as [_|X]; [|unfold fd_setsize in X; lia].
  destruct (N.eqb_spec timeout 0); [lia|]. rewrite tv_sec_small by lia. destruct (Z.ltb_spec (Z.of_N timeout) 0); [lia|]. rewrite N2Z.id.
  assert (HC : close_ ((fd, true) :: s_fds s) (Some fd) = s_fds s).
  { cbn [close_ filter fst]. rewrite N.eqb_refl. cbn [negb]. apply close_fresh in Hin. cbn in Hin. exact Hin. }
  unfold readable_after, second in *. destruct (os_ready e) as [r|], (os_signal e) as [g|]; cbn [earlier fst snd] in *;
    repeat match goal with |- context [if ?a <=? ?b then _ else _] => destruct (N.leb_spec a b); cbn [earlier fst snd] end;
    try (eexists; split; [|cbn [s_fds s_clock]; rewrite HC; reflexivity]; cbn; lia);
    exfalso; apply HN; exists r; (split; [split; [reflexivity|]|lia]); intros g' E; inversion E; subst; lia.
Qed.
Print Assumptions C45_not_readable.

(** Timeout 0: wait as long as it takes. *)
Theorem C45_no_timeout : forall len e s fd, opens e s fd -> os_ready e = None -> os_signal e = None ->
  fst (open_with_timeout len e s 0) = Diverge.
Proof.
  intros len e s fd (Ef & Hfd & _) Er Eg. unfold open_with_timeout, select_. rewrite Ef, Er, Eg. cbv beta iota.
  destruct (N.ltb_spec fd fd_setsize) as [_|X]; [reflexivity|unfold fd_setsize in X; lia].
Qed.
Print Assumptions C45_no_timeout.

(** A stream is returned only for an opened, readable file. *)
Theorem C45_only_readable : forall len e s timeout fd s', open_with_timeout len e s timeout = (Ok fd, s') ->
  os_fd e = Some fd /\ exists r, readable_after e r /\ s_clock s' = s_clock s + r /\ (timeout = 0 \/ r <= timeout * 1000000).
Proof.
  intros len e s timeout fd s' H. unfold open_with_timeout, select_ in H. destruct (os_fd e) as [n|] eqn:Ef.
  - destruct (n <? fd_setsize); [|discriminate]. unfold readable_after, second in *.
    destruct (N.eqb_spec timeout 0) as [E0|E0].
    + destruct (os_ready e) as [r|] eqn:Er, (os_signal e) as [g|] eqn:Eg; cbn [earlier fst] in H; try discriminate.
      * destruct (N.leb_spec r g) as [L|L]; [|discriminate]. inversion H; subst. split; [reflexivity|]. exists r. split; [split; [reflexivity|]|auto]. intros g' E; inversion E; subst; exact L.
      * inversion H; subst. split; [reflexivity|]. exists r. split; [split; [reflexivity|discriminate]|auto].
    + destruct (Z.ltb_spec (tv_sec timeout) 0) as [Z0|Z0]; [discriminate|].
      assert (HT : Z.to_N (tv_sec timeout) <= timeout).
      { unfold tv_sec, s64 in *. destruct (timeout <? two63); [lia|]. unfold two64 in *. lia. }
      destruct (os_ready e) as [r|] eqn:Er, (os_signal e) as [g|] eqn:Eg; cbn [earlier fst] in H;
        repeat match type of H with context [if ?a <=? ?b then _ else _] => destruct (N.leb_spec a b); cbn [earlier fst] in H end; try discriminate;
        inversion H; subst; (split; [reflexivity|]); exists r; (split; [split; [reflexivity|]; intros g' E; inversion E; subst; lia|]); (split; [reflexivity|]); right;
        assert (Z.to_N (tv_sec timeout) * 1000000 <= timeout * 1000000) by (apply N.mul_le_mono_r; exact HT); lia.
  - destruct len; [|discriminate]. destruct (if timeout =? 0 then None else Some (tv_sec timeout)) as [t|].
    + destruct (t <? 0)%Z; [discriminate|]. destruct (os_signal e); cbn [earlier fst] in H; [destruct (_ <=? _) in H|]; discriminate.
    + destruct (os_signal e); discriminate.
Qed.
Print Assumptions C45_only_readable.

(** Expected: a file that cannot be opened is reported within the timeout.
    False: FD_SET is called with -1. *)
Theorem C45_unopenable_refuted : forall e s timeout, os_fd e = None -> fst (open_with_timeout false e s timeout) = UB UOob.
Proof. intros e s timeout E. unfold open_with_timeout. rewrite E. reflexivity. Qed.
Print Assumptions C45_unopenable_refuted.
(** Even where this has no effect, the call never returns without a timeout ... *)
Theorem C45_unopenable_hangs_refuted : forall e s, os_fd e = None -> os_signal e = None -> fst (open_with_timeout true e s 0) = Diverge.
Proof. intros e s E G. unfold open_with_timeout, select_. rewrite E, G. reflexivity. Qed.
Print Assumptions C45_unopenable_hangs_refuted.
(** ... and with a timeout reports the error only at its end (or on a signal). *)
Theorem C45_unopenable_waits : forall e s timeout, os_fd e = None -> 0 < timeout < 2 ^ 63 ->
  open_with_timeout true e s timeout =
  (Throw ECannotOpen, mkSys (s_fds s) (s_clock s + match os_signal e with Some g => N.min g (timeout * 1000000) | None => timeout * 1000000 end)).
Proof.
  intros e s timeout E Ht. unfold open_with_timeout, select_. rewrite E. cbv beta iota. destruct (N.eqb_spec timeout 0); [lia|].
  rewrite tv_sec_small by lia. destruct (Z.ltb_spec (Z.of_N timeout) 0); [lia|]. rewrite N2Z.id. unfold second.
  destruct (os_signal e) as [g|]; cbn [earlier fst]; [|reflexivity].
  destruct (N.leb_spec g (timeout * 1000000)); cbn [close_ s_fds s_clock]; do 3 f_equal; lia.
Qed.
Print Assumptions C45_unopenable_waits.
(** Also undefined with 1024 or more open files. *)
Theorem C45_many_files_refuted : forall len e s timeout fd, os_fd e = Some fd -> 1024 <= fd -> fst (open_with_timeout len e s timeout) = UB UOob.
Proof.
  intros len e s timeout fd E H. unfold open_with_timeout. rewrite E. cbv beta iota. destruct (N.ltb_spec fd fd_setsize) as [X|_]; [unfold fd_setsize in X; lia|]. reflexivity.
Qed.
Print Assumptions C45_many_files_refuted.
(** A timeout of 2^63 seconds or more (not possible through the C interface)
    fails at once even for a readable file. *)
Theorem C45_large_timeout_refuted : forall len e s timeout fd, opens e s fd -> 2 ^ 63 <= timeout < 2 ^ 64 ->
  open_with_timeout len e s timeout = (Throw ECannotOpen, mkSys (s_fds s) (s_clock s + 0)).
Proof.
  intros len e s timeout fd (Ef & Hfd & Hin) Ht. unfold open_with_timeout, select_. rewrite Ef. cbv beta iota.
  destruct (N.ltb_spec fd fd_setsize) as [_|X]; [|unfold fd_setsize in X; lia].
  destruct (N.eqb_spec timeout 0); [lia|].
  assert (HT : (tv_sec timeout < 0)%Z).
  { unfold tv_sec, s64. change two63 with (2 ^ 63). change two64 with (2 ^ 64). destruct (N.ltb_spec timeout (2 ^ 63)); [lia|]. lia. }
  destruct (Z.ltb_spec (tv_sec timeout) 0); [|lia]. cbn [s_fds s_clock close_ filter fst]. rewrite N.eqb_refl. cbn [negb].
  apply close_fresh in Hin. cbn in Hin. rewrite Hin. reflexivity.
Qed.
Print Assumptions C45_large_timeout_refuted.

(** No descriptor is leaked: after any sequence of completed calls of read_trace
    and add_trace, successful or not, exactly the same files are open. *)
Lemma with_file_fds : forall A len e s timeout (body : outcome A) dur x s', with_file len e s timeout body dur = (Ok x, s') ->
  (forall fd, os_fd e = Some fd -> ~ In fd (map fst (s_fds s))) -> s_fds s' = s_fds s.
Proof.
  intros A len e s timeout body dur x s' H HF. unfold with_file in H.
  destruct (open_with_timeout len e s timeout) as [[n| | | |] s1] eqn:E; try discriminate.
  - assert (HO := E). apply C45_only_readable in HO. destruct HO as (Ef & _). specialize (HF n Ef).
    assert (E1 : s_fds s1 = (n, false) :: s_fds s).
    { unfold open_with_timeout in E. rewrite Ef in E. destruct (_ <? _); [|discriminate]. destruct (select_ e _) as [[dt res]|]; [|discriminate].
      destruct res as [|[]|]; try discriminate. inversion E; subst. cbn. rewrite N.eqb_refl. f_equal. apply block_fresh. exact HF. }
    assert (HC : close_ (s_fds s1) (Some n) = s_fds s).
    { rewrite E1. cbn [close_ filter fst]. rewrite N.eqb_refl. cbn [negb]. apply close_fresh in HF. cbn in HF. exact HF. }
    destruct body; try discriminate; inversion H; subst; exact HC.
  - inversion H; subst. unfold open_with_timeout in E. destruct (os_fd e) as [n|].
    + specialize (HF n eq_refl). destruct (_ <? _); [|discriminate]. destruct (select_ e _) as [[dt res]|]; [|discriminate].
      assert (HC : close_ ((n, true) :: s_fds s) (Some n) = s_fds s).
      { cbn [close_ filter fst]. rewrite N.eqb_refl. cbn [negb]. apply close_fresh in HF. cbn in HF. exact HF. }
      destruct res as [|[]|]; inversion E; subst; exact HC.
    + destruct len; [|discriminate]. destruct (select_ e _) as [[dt res]|]; [|discriminate]. destruct res as [|[]|]; inversion E; subst; reflexivity.
Qed.
Theorem C45_no_leak : forall A len s (l : list (os * N * outcome A * N)) xs s', with_files len s l = (Ok xs, s') ->
  Forall (fun c => forall fd, os_fd (fst (fst (fst c))) = Some fd -> ~ In fd (map fst (s_fds s))) l -> s_fds s' = s_fds s.
Proof.
  intros A len s l. revert s. induction l as [|[[[e t] b] dur] r IH]; intros s xs s' H HF; cbn in H; [inversion H; reflexivity|].
  inversion HF as [|c l' H1 H2]; subst. destruct (with_file len e s t b dur) as [[x| | | |] s1] eqn:E; try discriminate.
  apply with_file_fds in E; [|exact H1]. destruct (with_files len s1 r) as [[ys| | | |] s2] eqn:E2; try discriminate. inversion H; subst.
  rewrite <- E in H2. rewrite (IH s1 ys s' E2 H2). exact E.
Qed.
Print Assumptions C45_no_leak.

Example C45_ex_file : opens (mkOS (Some 3) (Some 0) None) (mkSys [(0, false); (1, false); (2, false)] 50) 3 /\
  readable_after (mkOS (Some 3) (Some 0) None) 0.
Proof. split; [split; [reflexivity|split; [lia|cbn; intuition lia]]|split; [reflexivity|discriminate]]. Qed.
(** A fifo whose writer appears after 7 seconds: found with a timeout of 10
    seconds or none, not with one of 5 seconds. *)
Example C45_ex_fifo :
  let e := mkOS (Some 3) (Some 7000000) None in let s := mkSys [(0, false)] 0 in
  open_with_timeout false e s 10 = (Ok 3, mkSys [(3, false); (0, false)] 7000000) /\
  open_with_timeout false e s 0 = (Ok 3, mkSys [(3, false); (0, false)] 7000000) /\
  open_with_timeout false e s 5 = (Throw ECannotOpen, mkSys [(0, false)] 5000000) /\
  with_files (A := N) false s [(e, 5, Ok 1, 20); (e, 10, Ok 2, 20); (e, 10, Throw EEof, 20)] = (Ok [None; Some 2; None], mkSys [(0, false)] 19000040).
Proof. intros e s. conj_split; vm_compute; reflexivity. Qed.
