(** Property C92: where the log of an instrumented program goes.
    [bi_setup env hv sticky reads c]: the destination of the log of a program that
    was instrumented with choice [c], when the handshake file, if there is one,
    appears to grow as [reads] says ([]: at its end). *)
From Coq Require Import Strings.String.
From Verif Require Import Base Types Dest PrintPred.

(** The part of a text before its first newline or NUL. *)
Fixpoint visible (s : list byte) : list byte :=
  match s with
  | [] => []
  | c :: r => if Byte.eqb c x00 || Byte.eqb c newline then [] else c :: visible r
  end.
(** Contents that the program comes to see: nothing for [k] readings, then the
    pieces [chunks], then the end of the file. *)
Definition seen (k : nat) (chunks : list (list byte)) (rest : list (list byte)) : list (list byte) :=
  repeat [] k ++ chunks ++ [] :: rest.

Lemma line_spec : forall n s, let '(l, d) := line n s in
  (d = false -> l = s /\ (length s < n)%nat /\ ~ In newline s) /\ (length l <= n)%nat /\ visible l = visible (firstn n s).
Proof.
  induction n as [|n IH]; intros s; cbn [line]; [repeat split; auto; discriminate|].
  destruct s as [|c r]; [repeat split; auto; cbn; lia|]. destruct (Byte.eqb c newline) eqn:E.
  - repeat split; try discriminate; cbn; [lia|]. rewrite E, orb_true_r. reflexivity.
  - specialize (IH r). destruct (line n r) as [l d]. destruct IH as (I1 & I2 & I3). split; [|split].
    + intros D. destruct (I1 D) as (-> & L & N). split; [reflexivity|]. split; [cbn; lia|]. intros [H|H]; [|exact (N H)].
      subst c. unfold newline in E. discriminate.
    + cbn. lia.
    + cbn. rewrite I3. reflexivity.
Qed.
(** Once a line is complete, more text does not change it. *)
Lemma line_app : forall n s t l, line n s = (l, true) -> visible (firstn n (s ++ t)) = visible (firstn n s).
Proof.
  induction n as [|n IH]; intros s t l H; [reflexivity|]. destruct s as [|c r]; [discriminate|]. cbn [line] in H. cbn [app firstn visible].
  destruct (Byte.eqb c newline) eqn:E; [rewrite orb_true_r; reflexivity|]. destruct (line n r) as [l' d] eqn:F. injection H as <- ->.
  rewrite (IH r t l' F). reflexivity.
Qed.
Lemma fgets_spec : forall chunks acc rest, (acc <> [] \/ chunks <> []) -> Forall (fun x => x <> []) chunks ->
  line 1023 acc = (acc, false) ->
  exists l r, fgets acc (chunks ++ [] :: rest) = (Some l, r) /\ (length l <= 1023)%nat /\ visible l = visible (firstn 1023 (acc ++ concat chunks)).
Proof.
  induction chunks as [|x chunks IH]; intros acc rest NE F LA.
  - cbn [app fgets concat]. destruct NE as [NE|NE]; [|congruence]. exists acc, rest. rewrite app_nil_r.
    pose proof (line_spec 1023 acc) as S. rewrite LA in S. destruct S as (S1 & S2 & S3). split; [destruct acc; [congruence|reflexivity]|]. split; [exact S2|exact S3].
  - inversion F as [|? ? X F']; subst. cbn [app fgets concat]. destruct x as [|b x]; [congruence|].
    destruct (line 1023 (acc ++ b :: x)) as [l d] eqn:E. pose proof (line_spec 1023 (acc ++ b :: x)) as S. rewrite E in S. destruct S as (S1 & S2 & S3). destruct d.
    + exists l, (chunks ++ [] :: rest). split; [reflexivity|]. split; [exact S2|]. rewrite S3, app_assoc. symmetry. exact (line_app 1023 (acc ++ b :: x) (concat chunks) l E).
    + destruct (S1 eq_refl) as (-> & _ & _).
      destruct (IH (acc ++ b :: x) rest) as (l' & r' & A & B & C); auto.
      * left. destruct acc; discriminate.
      * exists l', r'. split; [exact A|]. split; [exact B|]. rewrite C, <- app_assoc. reflexivity.
Qed.
Lemma get_line_spec : forall sticky chunks rest k fuel, (sticky = true -> k = O) -> chunks <> [] -> Forall (fun x => x <> []) chunks -> (k < fuel)%nat ->
  exists l, get_line fuel sticky (seen k chunks rest) = Ok l /\ (length l <= 1023)%nat /\ visible l = visible (firstn 1023 (concat chunks)).
Proof.
  intros sticky chunks rest. induction k as [|k IH]; intros fuel ST NE F L; (destruct fuel as [|fuel]; [lia|]); unfold seen; cbn [repeat app get_line].
  - destruct (fgets_spec chunks [] rest (or_intror NE) F eq_refl) as (l & r & -> & A & B). eauto.
  - destruct sticky; [discriminate (ST eq_refl)|]. cbn [fgets]. destruct (IH fuel) as (l & A & B & C); [discriminate|auto|auto|lia|].
    exists l. unfold seen in A. rewrite A. destruct (repeat [] k ++ chunks ++ [] :: rest) eqn:E; auto. destruct (repeat (@nil byte) k); [destruct chunks; discriminate|discriminate].
Qed.

(** The end of the handshake, for any line of at most 1023 bytes. *)
Lemma strcspn_spec : forall l r, exists n, strcspn_newline (l ++ x00 :: r) = Some n /\ (n <= length l)%nat /\ firstn n l = visible l /\ firstn n (l ++ x00 :: r) = visible l.
Proof.
  induction l as [|c l IH]; intros r; cbn [app strcspn_newline visible]; [exists O; repeat split; cbn; auto|].
  destruct (Byte.eqb c x00 || Byte.eqb c newline); [exists O; repeat split; cbn; auto; lia|].
  destruct (IH r) as (n & -> & A & B & C). exists (S n). cbn. rewrite B, C. repeat split; auto. lia.
Qed.
Lemma visible_plain : forall s, Forall (fun c => Byte.eqb c x00 = false) (visible s).
Proof. induction s as [|c s IH]; cbn; [constructor|]. destruct (Byte.eqb c x00) eqn:E; cbn; [constructor|]. destruct (Byte.eqb c newline); constructor; auto. Qed.
Lemma c_string_app : forall s r, Forall (fun c => Byte.eqb c x00 = false) s -> c_string (s ++ x00 :: r) = Some s.
Proof. induction s as [|c s IH]; intros r F; [reflexivity|]. inversion F as [|? ? E F']; subst. cbn [app c_string]. rewrite E, (IH r F'). reflexivity. Qed.
Lemma after_line : forall l, (length l <= 1023)%nat -> exists b,
  (b0 <- store buffer0 0 (l ++ [x00]) ;; match strcspn_newline b0 with Some n => store b0 n [x00] | None => UB UOob end) = Ok b /\
  length b = 1024%nat /\ c_string b = Some (visible l).
Proof.
  intros l L. assert (LB : length buffer0 = 1024%nat) by reflexivity. unfold store at 1. rewrite LB, app_length. cbn [length plus firstn app].
  destruct (Nat.leb_spec (length l + 1) 1024); [|lia]. cbn [bind]. set (rest := skipn (length l + 1) buffer0).
  assert (LR : length rest = (1024 - (length l + 1))%nat) by (unfold rest; rewrite skipn_length, LB; reflexivity).
  rewrite <- app_assoc. cbn [app]. destruct (strcspn_spec l rest) as (n & -> & A & B & C). unfold store. rewrite app_length. cbn [length].
  destruct (Nat.leb_spec (n + 1) (length l + S (length rest))); [|lia]. eexists. split; [reflexivity|]. rewrite C. split.
  - rewrite app_length, <- B, firstn_length. cbn [app length]. rewrite skipn_length, app_length. cbn [length]. lia.
  - apply c_string_app, visible_plain.
Qed.

(** C92.  A program that logs to the pipe it is told waits for the name, and then
    logs to the file with the name it has seen (up to 1023 bytes, and to the first
    newline or NUL), in how many pieces it may have seen it. *)
Theorem C92_told : forall env hv f sticky k chunks rest, env hv = Some f ->
  (sticky = true -> k = O) -> chunks <> [] -> Forall (fun x => x <> []) chunks ->
  bi_setup env hv sticky (seen k chunks rest) ToBuffer = Ok (DFile (visible (firstn 1023 (concat chunks)))).
Proof.
  intros env hv f sticky k chunks rest E ST NE F. unfold bi_setup, handshake. rewrite E.
  destruct (get_line_spec sticky chunks rest k (S (length (seen k chunks rest))) ST NE F) as (l & A & B & C).
  { unfold seen. rewrite app_length, repeat_length. lia. }
  rewrite A. cbn [bind]. destruct (after_line l B) as (b & D & _ & G). rewrite D. cbn [bind]. rewrite G, C. reflexivity.
Qed.
Print Assumptions C92_told.

(** So if the collector writes the name of a pipe (with fewer than 1024 bytes, no
    newline and no NUL) in one piece, the log goes to the pipe. *)
Theorem C92_pipe : forall env hv f sticky k name rest, env hv = Some f -> (sticky = true -> k = O) ->
  name <> [] -> (length name < 1024)%nat -> ~ In newline name -> ~ In x00 name ->
  bi_setup env hv sticky (seen k [name] rest) ToBuffer = Ok (DFile name).
Proof.
  intros env hv f sticky k name rest E ST NE L N Z. rewrite (C92_told env hv f sticky k [name] rest E ST); [|discriminate|repeat constructor; exact NE].
  cbn [concat]. rewrite app_nil_r, firstn_all2 by lia. f_equal. f_equal. clear -N Z. induction name as [|c r IH]; [reflexivity|]. cbn [visible].
  destruct (Byte.eqb c x00) eqn:E1; [apply Byte.byte_dec_bl in E1; subst; destruct Z; left; reflexivity|].
  destruct (Byte.eqb c newline) eqn:E2; [apply Byte.byte_dec_bl in E2; subst; destruct N; left; reflexivity|].
  cbn. rewrite IH; auto; intro H; [apply N|apply Z]; right; exact H.
Qed.
Print Assumptions C92_pipe.

(** Whatever the handshake file contains and however it grows: no memory outside
    the buffer is touched, and if the loop ends, the buffer holds a string. *)
Theorem C92_safe : forall sticky reads, handshake sticky reads = Diverge \/
  exists b s, handshake sticky reads = Ok b /\ length b = 1024%nat /\ c_string b = Some s.
Proof.
  intros sticky reads. unfold handshake.
  assert (G : forall fuel reads, get_line fuel sticky reads = Diverge \/ exists l, get_line fuel sticky reads = Ok l /\ (length l <= 1023)%nat).
  { assert (FG : forall reads acc, (length acc <= 1023)%nat -> match fgets acc reads with (Some l, _) => (length l <= 1023)%nat | _ => True end).
    { clear. induction reads as [|x reads IH]; intros acc L; cbn [fgets]; [exact Logic.I|]. destruct x as [|b x].
      - destruct acc; [exact Logic.I|exact L].
      - pose proof (line_spec 1023 (acc ++ b :: x)) as S. destruct (line 1023 (acc ++ b :: x)) as [l d]. destruct S as (_ & S & _). destruct d; [exact S|]. apply IH, S. }
    clear reads. induction fuel as [|fuel IH]; intros reads; cbn [get_line]; [left; reflexivity|].
    specialize (FG reads [] ltac:(cbn; lia)). destruct (fgets [] reads) as [[l|] r]; [right; eauto|]. destruct sticky; [left; reflexivity|]. destruct r; [left; reflexivity|apply IH]. }
  destruct (G (S (length reads)) reads) as [->|(l & -> & L)]; cbn [bind]; [left; reflexivity|]. right.
  destruct (after_line l L) as (b & -> & B & C). eauto.
Qed.
Print Assumptions C92_safe.

(** While nothing is in the file, the program does not start. *)
Theorem C92_waits : forall env hv f sticky k c, env hv = Some f -> bi_setup env hv sticky (repeat [] k) c = Diverge.
Proof.
  intros env hv f sticky k c E. unfold bi_setup, handshake. rewrite E.
  assert (G : forall fuel k, get_line fuel sticky (repeat [] k) = Diverge).
  { induction fuel as [|fuel IH]; intros j; cbn [get_line]; [reflexivity|]. destruct j as [|j]; cbn [repeat fgets]; [destruct sticky; reflexivity|].
    destruct sticky; [reflexivity|]. destruct (repeat (@nil byte) j) eqn:R; [reflexivity|]. rewrite <- R. apply IH. }
  rewrite G. reflexivity.
Qed.
Print Assumptions C92_waits.

(** Without the environment variable there is no handshake: the log goes where
    instrument was told, by default to /dev/null. *)
Theorem C92_alone : forall env hv sticky reads, env hv = None ->
  bi_setup env hv sticky reads ToBuffer = Ok (DFile (text "/dev/null")) /\
  bi_setup env hv sticky reads ToStderr = Ok DStderr /\ bi_setup env hv sticky reads ToStdout = Ok DStdout /\
  (forall p, bi_setup env hv sticky reads (ToFile p) = Ok (DFile p)) /\
  (forall v p, env v = Some p -> bi_setup env hv sticky reads (ToEnv v) = Ok (DFile p)).
Proof.
  intros env hv sticky reads E. unfold bi_setup. rewrite E. cbn [bind]. repeat split; auto.
  intros v p V. rewrite V. reflexivity.
Qed.
Print Assumptions C92_alone.

(** With it, a program instrumented for a fixed file also takes part in the
    handshake, and then logs to its file, not to the pipe. *)
Theorem C92_fixed : forall env hv f sticky k chunks rest p, env hv = Some f ->
  (sticky = true -> k = O) -> chunks <> [] -> Forall (fun x => x <> []) chunks ->
  bi_setup env hv sticky (seen k chunks rest) (ToFile p) = Ok (DFile p).
Proof.
  intros env hv f sticky k chunks rest p E ST NE F. pose proof (C92_told env hv f sticky k chunks rest E ST NE F) as T.
  unfold bi_setup in *. rewrite E in *. destruct (handshake sticky (seen k chunks rest)); try discriminate. reflexivity.
Qed.
Print Assumptions C92_fixed.

Definition env92 (v : list byte) : option (list byte) := if list_eq_dec Byte.byte_eq_dec v (text "H") then Some (text "/tmp/h") else None.
Example C92_ex : bi_setup env92 (text "H") false (seen 2 [text "/tmp/pi"; text "pe1"] []) ToBuffer = Ok (DFile (text "/tmp/pipe1")) /\
  bi_setup env92 (text "H") true (seen 0 [text "/tmp/pipe1"] []) ToBuffer = Ok (DFile (text "/tmp/pipe1")) /\
  bi_setup env92 (text "G") true [] ToBuffer = Ok (DFile (text "/dev/null")).
Proof. vm_compute. repeat split. Qed.

(** Expected: the log goes to the pipe whatever its name is.  False for longer
    names, and for names with a newline. *)
Theorem C92_long_refuted : forall env hv f name rest, env hv = Some f -> (1024 <= length name)%nat -> exists p,
  bi_setup env hv false (seen 0 [name] rest) ToBuffer = Ok (DFile p) /\ p <> name.
Proof.
  intros env hv f name rest E L. rewrite (C92_told env hv f false O [name] rest E); [|discriminate|discriminate|].
  2:{ repeat constructor. intro H. subst. cbn in L. lia. }
  eexists. split; [reflexivity|]. intros H. cbn [concat] in H. rewrite app_nil_r in H. apply (f_equal (@length byte)) in H.
  assert (V : forall s, (length (visible s) <= length s)%nat) by (induction s as [|c s IH]; cbn; [lia|destruct (_ || _); cbn; lia]).
  specialize (V (firstn 1023 name)). rewrite firstn_length in V. lia.
Qed.
Print Assumptions C92_long_refuted.
Theorem C92_newline_refuted : forall env hv f name rest, env hv = Some f -> In newline name -> exists p,
  bi_setup env hv false (seen 0 [name] rest) ToBuffer = Ok (DFile p) /\ p <> name.
Proof.
  intros env hv f name rest E L. rewrite (C92_told env hv f false O [name] rest E); [|discriminate|discriminate|].
  2:{ repeat constructor. intro H. subst. destruct L. }
  eexists. split; [reflexivity|]. intros H. rewrite <- H in L. clear -L. cbn [concat] in L. revert L. generalize (firstn 1023 (name ++ [])) as s.
  induction s as [|c s IH]; cbn; [auto|]. destruct (Byte.eqb c x00); cbn; [auto|]. destruct (Byte.eqb c newline) eqn:X; cbn; [auto|].
  intros [->|H]; [discriminate|auto].
Qed.
Print Assumptions C92_newline_refuted.

(** Expected: the name is read as a whole.  False: if the program looks when only
    a part is in the file, it takes that part for the name.  (The collector writes
    the name through a stream; a name longer than the stream's buffer, or an
    interrupted write, takes several writes.) *)
Theorem C92_part_refuted : forall env hv f part more rest, env hv = Some f ->
  part <> [] -> (length part < 1024)%nat -> ~ In newline part -> ~ In x00 part -> more <> [] -> exists p,
  bi_setup env hv false (seen 0 [part] (more :: rest)) ToBuffer = Ok (DFile p) /\ p <> part ++ more.
Proof.
  intros env hv f part more rest E NE L N Z M. exists part. split; [eapply C92_pipe; eauto|].
  intros H. apply M. apply (app_inv_head part). rewrite app_nil_r. symmetry. exact H.
Qed.
Print Assumptions C92_part_refuted.

(** Expected: the program goes on when the name has been written.  False where a
    stream that has met its end stays there (glibc from 2.28 on): if the file is
    empty at the first look, the program waits for ever. *)
Theorem C92_early_refuted : forall env hv f reads c, env hv = Some f -> bi_setup env hv true ([] :: reads) c = Diverge.
Proof. intros env hv f reads c E. unfold bi_setup, handshake. rewrite E. reflexivity. Qed.
Print Assumptions C92_early_refuted.

(** A variable given as trace-env that is not set: a null pointer goes to fopen. *)
Theorem C92_env_refuted : forall env hv sticky reads v, env hv = None -> env v = None -> bi_setup env hv sticky reads (ToEnv v) = UB UNull.
Proof. intros env hv sticky reads v E V. unfold bi_setup. rewrite E. cbn [bind]. rewrite V. reflexivity. Qed.
Print Assumptions C92_env_refuted.
