(** Reading with the limited map is reading. *)
From Verif Require Import Base BaseProofs Types Stream SkipList AMap MemMapSpec MemMapProofs MemMapMore Reader
  ReaderProofs ReaderProofs2 ReaderProofs3 ReaderMore Cost CostProofs CostRead.

Section Transfer.
Variable ok : alloc.
Variable coins : nat -> bool.
Variable pos : nat.
Notation LM := (limited_map coins pos).

Definition rel (st : memory_map * nat) (am : amap) : Prop :=
  repr (fst st) am /\ exists h, am_ok h am /\ length h = snd st.

Lemma rel_new : rel (mm_new pos, 0%nat) [].
Proof. split; [apply repr_new|]. exists []. split; [apply am_ok_nil|reflexivity]. Qed.

Lemma live_keys : forall h a k v, live h k v -> k <= a -> In k (map fst h).
Proof. intros h a k v [H _] _. apply last_size_in with v. exact H. Qed.

Lemma rel_compute : forall st am a, rel st am -> a <= max64 -> limited_compute st a = Ok (am_compute am a).
Proof.
  intros [m u] am a [HR (h & HO & Hu)] Ha. unfold limited_compute. cbn [fst snd] in *.
  pose proof (mm_compute_erase m a) as E. rewrite (repr_compute m am a HR Ha) in E.
  destruct (erase_ok _ _ _ E) as (n & En). rewrite En. cbn [bind].
  pose proof (compute_bound h m am (map fst h) a _ n HR HO Ha (live_keys h a) En) as Hb. rewrite map_length in Hb.
  destruct (Nat.leb_spec n (u + 32)); [reflexivity|lia].
Qed.

Lemma rel_update : forall st am a s, rel st am -> a <= max64 ->
  match am_update am a s with
  | Ok am' => exists st', limited_update coins st a s = Ok st' /\ rel st' am'
  | UB k => limited_update coins st a s = UB k
  | _ => False
  end.
Proof.
  intros [m u] am a s [HR (h & HO & Hu)] Ha. unfold limited_update. cbn [fst snd] in *.
  pose proof (repr_update coins m am a s HR Ha) as HU. pose proof (am_ok_step h am a s HO Ha) as HS.
  pose proof (mm_update_erase coins m a s) as E.
  destruct (am_update am a s) as [am'| |k| |]; try contradiction.
  - destruct HU as (m' & Hm & HR'). rewrite Hm in E. destruct (erase_ok _ _ _ E) as (n & En). rewrite En. cbn [bind].
    pose proof (update_bound h coins m am (map fst h) a s _ n HR HO Ha (live_keys h a) En) as Hb. rewrite map_length in Hb.
    destruct (Nat.leb_spec n (2 * u + 65)); [|destruct (s =? 0); lia].
    eexists. split; [reflexivity|]. split; [exact HR'|]. exists (h ++ [(a, s)]). split; [exact HS|].
    rewrite app_length. cbn [length snd]. lia.
  - rewrite HU in E. unfold erase in E. destruct (mm_update_n coins m a s) as [[? ?]| |k'| |]; try discriminate.
    cbn [bind] in *. congruence.
Qed.

Lemma value_same : forall st am f size s, rel st am -> read_value ok LM st f size s = read_value ok abs_map am f size s.
Proof.
  intros st am f size s HR. destruct f; try reflexivity. cbn [read_value].
  destruct (binary_read size s) as [[d s1]| | | |] eqn:E; cbn [bind]; try reflexivity.
  destruct (N.ltb_spec 8 (lenN d)); [reflexivity|]. cbn [mo_compute limited_map abs_map].
  rewrite (rel_compute st am) by (auto; apply le_max64, le_val_lt64; exact H). reflexivity.
Qed.

Lemma var_same : forall names types st am s, rel st am ->
  read_var ok LM names types st s = read_var ok abs_map names types am s.
Proof.
  intros names types st am s HR. unfold read_var.
  destruct (read_word 4 0 s) as [[nm s1]| | | |]; cbn [bind]; try reflexivity.
  destruct (read_word 4 0 s1) as [[ty s2]| | | |]; cbn [bind]; try reflexivity.
  destruct (nthN types ty); [|reflexivity]. rewrite (value_same st am) by exact HR. reflexivity.
Qed.

Definition same_entry (o1 : outcome (bool * pacc * (memory_map * nat) * istream)) (o2 : outcome (bool * pacc * amap * istream)) : Prop :=
  match o1, o2 with
  | Ok (b, a, m, s), Ok (b', a', m', s') => b = b' /\ a = a' /\ s = s' /\ rel m m'
  | Throw e, Throw e' => e = e'
  | UB k, UB k' => k = k'
  | Diverge, Diverge => True
  | Abort, Abort => True
  | _, _ => False
  end.

Lemma entry_same : forall names types st am acc s, rel st am ->
  same_entry (read_entry ok LM names types st acc s) (read_entry ok abs_map names types am acc s).
Proof.
  intros names types st am acc s HR. unfold read_entry.
  destruct (binary_read_into [x05] s) as [[d s1]| | | |]; cbn [bind same_entry]; auto.
  set (c := schar _).
  destruct (negb (good s1) || (c =? 0)%Z); [cbn [same_entry]; auto|].
  destruct (5 <=? c)%Z; [cbn [same_entry]; auto|].
  destruct (c =? 1)%Z.
  { destruct (binary_read 8 s1) as [[d2 s2]| | | |]; cbn [bind same_entry]; auto. }
  destruct (c =? 3)%Z.
  { unfold read_bufsz. destruct (read_word 8 0 s1) as [[a s2]| | | |] eqn:Ea; cbn [bind same_entry]; auto.
    destruct (read_word 8 0 s2) as [[z s3]| | | |]; cbn [bind same_entry b_addr b_size mo_update limited_map abs_map]; auto.
    apply (read_word_lt coins pos) in Ea. rewrite two8_pow8 in Ea.
    pose proof (rel_update st am a z HR (le_max64 _ Ea)) as HU.
    destruct (am_update am a z) as [am'| | | |]; cbn [bind same_entry]; try contradiction.
    - destruct HU as (m' & -> & HR'). cbn [bind same_entry]. auto.
    - rewrite HU. cbn [bind same_entry]. auto. }
  destruct (c =? 2)%Z.
  { rewrite (var_same names types st am) by exact HR.
    destruct (read_var ok abs_map names types am s1) as [[v s2]| | | |]; cbn [bind same_entry]; auto. }
  destruct (c =? 4)%Z; [|cbn [same_entry]; auto].
  destruct (read_word 8 0 s1) as [[a s2]| | | |]; cbn [bind same_entry]; auto.
Qed.

Definition same_entries (o1 : outcome (pacc * (memory_map * nat) * istream)) (o2 : outcome (pacc * amap * istream)) : Prop :=
  match o1, o2 with
  | Ok (a, m, s), Ok (a', m', s') => a = a' /\ s = s' /\ rel m m'
  | Throw e, Throw e' => e = e'
  | UB k, UB k' => k = k'
  | Diverge, Diverge => True
  | Abort, Abort => True
  | _, _ => False
  end.

Lemma entries_same : forall f names types st am acc s, rel st am ->
  same_entries (read_entries f ok LM names types st acc s) (read_entries f ok abs_map names types am acc s).
Proof.
  induction f as [|f IH]; intros names types st am acc s HR; [exact I|]. cbn [read_entries].
  pose proof (entry_same names types st am acc s HR) as HE.
  destruct (read_entry ok LM names types st acc s) as [[[[b a] m'] s']| | | |];
    destruct (read_entry ok abs_map names types am acc s) as [[[[b2 a2] m2] s2]| | | |]; cbn [same_entry] in HE; try contradiction; cbn [bind]; auto.
  destruct HE as (-> & -> & -> & HR'). destruct b2; [apply IH; exact HR'|]. cbn [same_entries]. auto.
Qed.

Lemma points_same : forall f max i names types st am s, rel st am ->
  read_points f ok LM max i names types st s = read_points f ok abs_map max i names types am s.
Proof.
  induction f as [|f IH]; intros max i names types st am s HR; cbn [read_points]; [reflexivity|].
  destruct (good s && ((i <? max) || (max =? 0))); [|reflexivity]. unfold read_point.
  pose proof (entries_same (S (S (length (s_rest s)))) names types st am pacc0 s HR) as HE.
  destruct (read_entries _ ok LM names types st pacc0 s) as [[[a m'] s']| | | |];
    destruct (read_entries _ ok abs_map names types am pacc0 s) as [[[a2 m2] s2]| | | |]; cbn [same_entries] in HE; try contradiction; cbn [bind]; auto; try congruence.
  destruct HE as (-> & -> & HR'). rewrite (IH max (i + 1) names types m' m2 s2 HR'). reflexivity.
Qed.

Lemma limited_lemma : forall max s, read_trace ok LM max s = read_trace ok (skip_map coins pos) max s.
Proof.
  intros max s. rewrite read_trace_transfer. unfold read_trace.
  destruct (read_names ok s) as [[names s1]| | | |]; cbn [bind]; try reflexivity.
  destruct (read_types ok s1) as [[types s2]| | | |]; cbn [bind]; try reflexivity.
  rewrite (points_same _ max 0 names types (mo_new LM) (mo_new abs_map)); [reflexivity|]. exact rel_new.
Qed.
End Transfer.
