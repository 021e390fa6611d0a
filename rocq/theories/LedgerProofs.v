(** Proofs about Ledger.v. *)
From Verif Require Import BaseProofs Types Stream SkipList AMap MemMapSpec MemMapProofs MemMapMore Reader FormatSpec FormatUB.
From Verif Require Import ReaderProofs ReaderProofs2 ReaderProofs3 ReaderMore ReaderProps Ledger LedgerSpec.

(** ** Growing ledgers *)
Definition fresh (l : ledger) : Prop := Forall (fun e => fst e < l_next l) (l_live l).
Definition grow (l l' : ledger) (b : list block) : Prop :=
  exists ext, l_live l' = l_live l ++ ext /\ map snd ext = b /\ l_next l <= l_next l' /\
    Forall (fun e => l_next l <= fst e < l_next l') ext.

Lemma grow_refl l : grow l l [].
Proof. exists []. rewrite app_nil_r. split; [reflexivity|]. split; [reflexivity|]. split; [lia|constructor]. Qed.
Lemma grow_trans l l1 l2 a b : grow l l1 a -> grow l1 l2 b -> grow l l2 (a ++ b).
Proof.
  intros (e1 & L1 & <- & N1 & F1) (e2 & L2 & <- & N2 & F2). exists (e1 ++ e2). rewrite L2, L1, app_assoc, map_app.
  split; [reflexivity|]. split; [reflexivity|]. split; [lia|]. apply Forall_app. split; eapply Forall_impl; try eassumption; cbn; intros; lia.
Qed.
Lemma grow_obtain b l : grow l (snd (obtain b l)) [b].
Proof. exists [(l_next l, b)]. cbn. split; [reflexivity|]. split; [reflexivity|]. split; [lia|]. repeat constructor; cbn; lia. Qed.
Lemma grow_fresh l l' b : fresh l -> grow l l' b -> fresh l'.
Proof.
  intros F (e & L & _ & N & Fe). unfold fresh in *. rewrite L. apply Forall_app. split; eapply Forall_impl; try eassumption; cbn; intros; lia.
Qed.
Lemma grow_live l l' b : grow l l' b -> live l' = live l ++ b.
Proof. intros (e & L & <- & _). unfold live. rewrite L, map_app. reflexivity. Qed.

(** Obtained, then other blocks, then released. *)
Lemma release_grow l x l' b : fresh l -> grow (snd (obtain x l)) l' b ->
  exists l'', release (l_next l) l' = (Ok tt, l'') /\ grow l l'' b /\ l_next l'' = l_next l'.
Proof.
  intros F (e & L & <- & N & Fe). cbn [obtain snd l_live l_next] in L, N, Fe. unfold release.
  assert (E : existsb (fun e0 => fst e0 =? l_next l) (l_live l') = true).
  { rewrite L, !existsb_app. cbn. rewrite N.eqb_refl. cbn. rewrite orb_true_r. reflexivity. }
  rewrite E. eexists. split; [reflexivity|]. split; [|reflexivity]. exists e. cbn [l_live l_next].
  rewrite L, !filter_app. cbn [filter fst]. rewrite N.eqb_refl. cbn [negb]. rewrite app_nil_r.
  split; [|split; [reflexivity|split; [lia|]]].
  - f_equal.
    + clear -F. unfold fresh in F. induction F as [|y r Hy _ IH]; [reflexivity|]. cbn [filter].
      destruct (N.eqb_spec (fst y) (l_next l)); [lia|]. cbn [negb]. rewrite IH. reflexivity.
    + clear -Fe. induction Fe as [|y r Hy _ IH]; [reflexivity|]. cbn [filter].
      destruct (N.eqb_spec (fst y) (l_next l)); [lia|]. cbn [negb]. rewrite IH. reflexivity.
  - eapply Forall_impl; [|exact Fe]. cbn. intros; lia.
Qed.

(** ** Values *)
Definition var_blobs (v : var) : list block := match v_fmt v with BLOB => [BBlob (v_size v)] | _ => [] end.
Definition vblobs (vs : list var) : list block := flat_map var_blobs vs.
Lemma vblobs_app a b : vblobs (a ++ b) = vblobs a ++ vblobs b.
Proof. apply flat_map_app. Qed.

Lemma mret_bind A B (o : outcome A) (f : A -> mem B) l :
  (x <~ mret o ;; f x) l = match o with Ok a => f a l | Throw e => (Throw e, l) | UB k => (UB k, l) | Abort => (Abort, l) | Diverge => (Diverge, l) end.
Proof. reflexivity. Qed.

(** What a step of the reader does to the ledger: [b] new blocks, all of them blobs,
    none unless [can]. *)
Definition blobs (can : Prop) (l l' : ledger) (b : list block) : Prop :=
  grow l l' b /\ Forall is_blob b /\ (~ can -> b = []).
Lemma blobs_none can l : blobs can l l [].
Proof. split; [apply grow_refl|]. split; [constructor|reflexivity]. Qed.
Lemma blobs_trans can l l1 l2 a b : blobs can l l1 a -> blobs can l1 l2 b -> blobs can l l2 (a ++ b).
Proof.
  intros (G1 & F1 & C1) (G2 & F2 & C2). split; [exact (grow_trans _ _ _ _ _ G1 G2)|]. split; [apply Forall_app; auto|].
  intros C. rewrite (C1 C), (C2 C). reflexivity.
Qed.

Lemma good_short n s d s' : binary_read n s = Ok (d, s') -> lenN d < n -> good s' = false.
Proof.
  unfold binary_read. destruct (negb (good s)) eqn:G; [destruct (s_eof s); discriminate|]. intros E. injection E as E. revert E.
  unfold s_read. destruct (N.ltb_spec (lenN (takeN n (s_rest s))) n); intros E L; injection E as <- <-; [|lia].
  unfold good. cbn. destruct (s_tail s); rewrite ?andb_false_r; reflexivity.
Qed.

Lemma value_ledger ok M map f size s l :
  exists o l' b, read_value_l ok M map f size s l = (o, l') /\ o = read_value ok M map f size s /\
    blobs (f = BLOB) l l' b /\
    (forall v z bs h s', o = Ok (v, z, bs, h, s') -> good s' = true -> b = match f with BLOB => [BBlob z] | _ => [] end).
Proof.
  unfold read_value_l, read_value. destruct f;
    try (eexists; exists l, []; split; [reflexivity|]; split; [reflexivity|]; split; [apply blobs_none|]; intros; reflexivity).
  cbv [mbind mret].
  destruct (if size =? 0 then read_word 4 0 s else Ok (size, s)) as [[z s1]|e|k| |]; cbn [bind];
    try (eexists; exists l, []; split; [reflexivity|]; split; [reflexivity|]; split; [apply blobs_none|]; discriminate).
  destruct (ok z || (z =? 0)) eqn:EO.
  - assert (B : blobs (BLOB = BLOB) l (snd (obtain (BBlob z) l)) [BBlob z]).
    { split; [apply grow_obtain|]. split; [repeat constructor; exists z; reflexivity|congruence]. }
    cbn [obtain snd] in B.
    destruct (binary_read z s1) as [[d s2]|e|k| |] eqn:E; cbn [bind obtain];
      try (eexists; eexists; exists [BBlob z]; split; [reflexivity|]; split; [reflexivity|]; split; [exact B|]; discriminate).
    destruct (lenN d <? z); eexists; eexists; exists [BBlob z]; (split; [reflexivity|]; split; [reflexivity|]; split; [exact B|]);
      intros v z' bs h s' X _; injection X as <- <- <- <- <-; reflexivity.
  - destruct (binary_read z s1) as [[d s2]|e|k| |] eqn:E; cbn [bind];
      try (eexists; exists l, []; split; [reflexivity|]; split; [reflexivity|]; split; [apply blobs_none|]; discriminate).
    destruct (N.eqb_spec (lenN d) 0) as [Z|Z].
    + eexists; exists l, []; split; [reflexivity|]; split; [reflexivity|]; split; [apply blobs_none|].
      intros v z' bs h s' X G. injection X as <- <- <- <- <-. exfalso.
      apply orb_false_iff in EO. destruct EO as [_ EO]. apply N.eqb_neq in EO.
      rewrite (good_short _ _ _ _ E) in G by lia. discriminate G.
    + eexists; exists l, []; split; [reflexivity|]; split; [reflexivity|]; split; [apply blobs_none|]; discriminate.
Qed.

Lemma var_ledger ok M names types map s l :
  exists o l' b, read_var_l ok M names types map s l = (o, l') /\ o = read_var ok M names types map s /\
    blobs (Exists (fun t => t_fmt t = BLOB) types) l l' b /\
    (forall v s', o = Ok (v, s') -> good s' = true -> b = var_blobs v).
Proof.
  unfold read_var_l, read_var. cbv [mbind mret].
  destruct (read_word 4 0 s) as [[nm s1]|e|k| |]; cbn [bind];
    try (eexists; exists l, []; split; [reflexivity|]; split; [reflexivity|]; split; [apply blobs_none|]; discriminate).
  destruct (read_word 4 0 s1) as [[ty s2]|e|k| |]; cbn [bind];
    try (eexists; exists l, []; split; [reflexivity|]; split; [reflexivity|]; split; [apply blobs_none|]; discriminate).
  destruct (nthN types ty) as [t|] eqn:ET;
    [|eexists; exists l, []; split; [reflexivity|]; split; [reflexivity|]; split; [apply blobs_none|]; discriminate].
  destruct (lenN names <=? nm);
    [eexists; exists l, []; split; [reflexivity|]; split; [reflexivity|]; split; [apply blobs_none|]; discriminate|].
  destruct (value_ledger ok M map (t_fmt t) (t_size t) s2 l) as (o & l' & b & -> & -> & B & R).
  assert (B' : blobs (Exists (fun t => t_fmt t = BLOB) types) l l' b).
  { destruct B as (G & F & C). split; [exact G|]. split; [exact F|]. intros X. apply C. intros Y. apply X.
    apply Exists_exists. exists t. split; [|exact Y]. exact (nthN_In _ _ _ _ ET). }
  destruct (read_value ok M map (t_fmt t) (t_size t) s2) as [[[[[v z] bs] h] s3]|e|k| |]; cbn [bind];
    eexists; exists l', b; (split; [reflexivity|]; split; [reflexivity|]; split; [exact B'|]); try discriminate.
  intros v' s' X G. injection X as <- <-. exact (R _ _ _ _ _ eq_refl G).
Qed.

Lemma not_good_throws ok M names types map acc s : good s = false ->
  exists e, read_entry ok M names types map acc s = Throw e.
Proof.
  intros G. unfold read_entry, binary_read_into, binary_read. rewrite G. cbn [negb]. destruct (s_eof s); eexists; reflexivity.
Qed.

Lemma entry_ledger ok M names types map acc s l :
  exists o l' b, read_entry_l ok M names types map acc s l = (o, l') /\ o = read_entry ok M names types map acc s /\
    blobs (Exists (fun t => t_fmt t = BLOB) types) l l' b /\
    (forall again acc' map' s', o = Ok (again, acc', map', s') ->
       exists vs, a_vars acc' = a_vars acc ++ vs /\ (good s' = true \/ again = false -> b = vblobs vs)).
Proof.
  unfold read_entry_l. rewrite mret_bind. unfold read_entry at 2.
  destruct (binary_read_into [x05] s) as [[d s1]|e|k| |] eqn:ED; cbn [bind];
    try (eexists; exists l, []; split; [reflexivity|]; split; [reflexivity|]; split; [apply blobs_none|]; discriminate).
  cbv zeta. set (c := schar _).
  destruct (negb (good s1) || (c =? 0)%Z) eqn:E0.
  { eexists; exists l, []; split; [reflexivity|]; split; [reflexivity|]; split; [apply blobs_none|].
    intros again acc' map' s' X. injection X as <- <- <- <-. exists []. rewrite app_nil_r. split; [reflexivity|]. reflexivity. }
  destruct (c =? 2)%Z eqn:E2.
  - apply Z.eqb_eq in E2. rewrite E2. change (5 <=? 2)%Z with false. change (2 =? 1)%Z with false. change (2 =? 3)%Z with false.
    cbv iota. cbv [mbind mret].
    destruct (var_ledger ok M names types map s1 l) as (o & l' & b & -> & -> & B & R).
    destruct (read_var ok M names types map s1) as [[v s2]|e|k| |]; cbn [bind];
      eexists; exists l', b; (split; [reflexivity|]; split; [reflexivity|]; split; [exact B|]); try discriminate.
    intros again acc' map' s' X. injection X as <- <- <- <-. exists [v]. split; [reflexivity|].
    intros [G|G]; [|discriminate G]. rewrite (R _ _ eq_refl G). cbn. rewrite app_nil_r. reflexivity.
  - cbv [mret]. unfold read_entry. rewrite ED. cbn [bind]. fold c. rewrite E0, E2.
    eexists; exists l, []; split; [reflexivity|]; split; [reflexivity|]; split; [apply blobs_none|].
    intros again acc' map' s'. destruct (5 <=? c)%Z; [discriminate|].
    destruct (c =? 1)%Z; [|destruct (c =? 3)%Z; [|destruct (c =? 4)%Z; [|discriminate]]]; intros X.
    + destruct (binary_read 8 s1) as [[d2 s2]|e|k| |]; cbn [bind] in X; try discriminate X. injection X as <- <- <- <-.
      exists []. rewrite app_nil_r. split; reflexivity.
    + destruct (read_bufsz s1) as [[d2 s2]|e|k| |]; cbn [bind] in X; try discriminate X.
      destruct (mo_update M map (b_addr d2) (b_size d2)) as [m|e|k| |]; cbn [bind] in X; try discriminate X. injection X as <- <- <- <-.
      exists []. rewrite app_nil_r. split; reflexivity.
    + destruct (read_word 8 0 s1) as [[d2 s2]|e|k| |]; cbn [bind] in X; try discriminate X. injection X as <- <- <- <-.
      exists []. rewrite app_nil_r. split; reflexivity.
Qed.

Lemma entries_ledger ok M names types f : forall map acc s l,
  exists o l' b, read_entries_l f ok M names types map acc s l = (o, l') /\ o = read_entries f ok M names types map acc s /\
    blobs (Exists (fun t => t_fmt t = BLOB) types) l l' b /\
    (forall acc' map' s', o = Ok (acc', map', s') -> exists vs, a_vars acc' = a_vars acc ++ vs /\ b = vblobs vs).
Proof.
  induction f as [|f IH]; intros map acc s l; cbn [read_entries_l read_entries].
  { eexists; exists l, []; split; [reflexivity|]; split; [reflexivity|]; split; [apply blobs_none|]; discriminate. }
  unfold mbind. destruct (entry_ledger ok M names types map acc s l) as (o & l1 & b1 & -> & -> & B1 & R1).
  destruct (read_entry ok M names types map acc s) as [[[[again acc1] map1] s1]|e|k| |]; cbn [bind];
    try (eexists; exists l1, b1; split; [reflexivity|]; split; [reflexivity|]; split; [exact B1|]; discriminate).
  destruct (R1 _ _ _ _ eq_refl) as (vs1 & V1 & C1). destruct again.
  - destruct (IH map1 acc1 s1 l1) as (o & l2 & b2 & -> & -> & B2 & R2).
    eexists; exists l2, (b1 ++ b2); split; [reflexivity|]; split; [reflexivity|]. split; [exact (blobs_trans _ _ _ _ _ _ B1 B2)|].
    intros acc' map' s' X. destruct (R2 _ _ _ X) as (vs2 & V2 & ->). exists (vs1 ++ vs2).
    rewrite V2, V1, app_assoc, vblobs_app. split; [reflexivity|]. f_equal. apply C1. left.
    destruct (good s1) eqn:G; [reflexivity|]. exfalso. destruct f as [|f]; [discriminate X|].
    cbn [read_entries] in X. destruct (not_good_throws ok M names types map1 acc1 s1 G) as (e & E). rewrite E in X. discriminate X.
  - eexists; exists l1, b1; split; [reflexivity|]; split; [reflexivity|]; split; [exact B1|].
    intros acc' map' s' X. injection X as <- <- <-. exists vs1. split; [exact V1|]. apply C1. right. reflexivity.
Qed.

Lemma point_ledger ok M i names types map s l :
  exists o l' b, read_point_l ok M i names types map s l = (o, l') /\ o = read_point ok M i names types map s /\
    blobs (Exists (fun t => t_fmt t = BLOB) types) l l' b /\
    (forall p map' s', o = Ok (p, map', s') -> b = vblobs (p_vars p)).
Proof.
  unfold read_point_l, read_point, mbind. 
  destruct (entries_ledger ok M names types (S (S (length (s_rest s)))) map pacc0 s l) as (o & l1 & b1 & -> & -> & B1 & R1).
  destruct (read_entries _ ok M names types map pacc0 s) as [[[acc1 map1] s1]|e|k| |]; cbn [bind mret];
    eexists; exists l1, b1; (split; [reflexivity|]; split; [reflexivity|]; split; [exact B1|]); try discriminate.
  intros p map' s' X. injection X as <- <- <-. destruct (R1 _ _ _ eq_refl) as (vs & V & ->). cbn [p_vars]. rewrite V. reflexivity.
Qed.

(** The points read, and the variables of the point that is dropped. *)
Fixpoint read_points_d (fuel : nat) (ok : alloc) (M : map_ops) (max i : N) (names : list name)
  (types : list tdesc) (map : mo_state M) (s : istream) : outcome (list (point (option N)) * list var * istream) :=
  if good s && ((i <? max) || (max =? 0)) then
    match fuel with
    | O => Diverge
    | S fuel' =>
        '(p, map', s1) <- read_point ok M i names types map s ;;
        '(ps, vs, s2) <- read_points_d fuel' ok M max (i + 1) names types map' s1 ;;
        if good s1 then Ok (p :: ps, vs, s2) else Ok (ps, p_vars p ++ vs, s2)
    end
  else Ok ([], [], s).
Lemma points_d_eq ok M max names types f : forall i map s,
  read_points f ok M max i names types map s =
  ('(ps, _, s') <- read_points_d f ok M max i names types map s ;; Ok (ps, s')).
Proof.
  induction f as [|f IH]; intros i map s; cbn [read_points read_points_d]; destruct (good s && _); try reflexivity.
  destruct (read_point ok M i names types map s) as [[[p map'] s1]|e|k| |]; cbn [bind]; try reflexivity.
  rewrite IH. destruct (read_points_d f ok M max (i + 1) names types map' s1) as [[[ps vs] s2]|e|k| |]; cbn [bind]; try reflexivity.
  destruct (good s1); reflexivity.
Qed.
Definition pblobs (ps : list (point (option N))) : list block := flat_map (fun p => vblobs (p_vars p)) ps.

Lemma points_ledger ok M max names types f : forall i map s l,
  exists o l' b, read_points_l f ok M max i names types map s l = (o, l') /\ o = read_points f ok M max i names types map s /\
    blobs (Exists (fun t => t_fmt t = BLOB) types) l l' b /\
    (forall ps vs s', read_points_d f ok M max i names types map s = Ok (ps, vs, s') -> b = pblobs ps ++ vblobs vs).
Proof.
  induction f as [|f IH]; intros i map s l; cbn [read_points_l read_points read_points_d]; destruct (good s && _);
    try (eexists; exists l, []; split; [reflexivity|]; split; [reflexivity|]; split; [apply blobs_none|];
         intros ps vs s' X; try discriminate X; injection X as <- <- <-; reflexivity).
  unfold mbind. destruct (point_ledger ok M i names types map s l) as (o & l1 & b1 & -> & -> & B1 & R1).
  destruct (read_point ok M i names types map s) as [[[p map1] s1]|e|k| |]; cbn [bind];
    try (eexists; exists l1, b1; split; [reflexivity|]; split; [reflexivity|]; split; [exact B1|]; discriminate).
  destruct (IH (i + 1) map1 s1 l1) as (o & l2 & b2 & -> & -> & B2 & R2).
  pose proof (points_d_eq ok M max names types f (i + 1) map1 s1) as PE.
  assert (B : blobs (Exists (fun t => t_fmt t = BLOB) types) l l2 (b1 ++ b2)) by exact (blobs_trans _ _ _ _ _ _ B1 B2).
  assert (A : forall ps vs s', ('(ps, vs, s2) <- read_points_d f ok M max (i + 1) names types map1 s1 ;;
    if good s1 then Ok (p :: ps, vs, s2) else Ok (ps, p_vars p ++ vs, s2)) = Ok (ps, vs, s') -> b1 ++ b2 = pblobs ps ++ vblobs vs).
  { intros ps vs s' X. apply bind_ok in X. destruct X as ([[ps2 vs2] s2] & X2 & X). rewrite (R2 _ _ _ X2), (R1 _ _ _ eq_refl).
    destruct (good s1) eqn:G; injection X as <- <- <-.
    - unfold pblobs. cbn [flat_map]. rewrite app_assoc. reflexivity.
    - assert (ps2 = []) as ->.
      { destruct f; cbn [read_points_d] in X2; rewrite G in X2; cbn [andb] in X2; injection X2 as <- <- <-; reflexivity. }
      cbn [pblobs flat_map app]. rewrite vblobs_app. reflexivity. }
  destruct (read_points f ok M max (i + 1) names types map1 s1) as [[ps s2]|e|k| |]; cbn [bind mret];
    eexists; exists l2, (b1 ++ b2); (split; [reflexivity|]); (split; [reflexivity|]); (split; [exact B|exact A]).
Qed.

(** ** The header *)
Lemma names_ledger ok s l : fresh l ->
  exists o l' b, read_names_l ok s l = (o, l') /\ o = read_names ok s /\ grow l l' b /\
    (forall x, o = Ok x -> b = []) /\
    (forall e, o = Throw e -> (b = [] /\ forall n s1, read_word 8 0 s = Ok (n, s1) -> 0 < n -> ok n = true -> False) \/
       exists n s1, read_word 8 0 s = Ok (n, s1) /\ 0 < n /\ ok n = true /\ good s1 = false /\ b = [BChars n]).
Proof.
  intros F. unfold read_names_l, read_names. rewrite mret_bind.
  destruct (read_word 8 0 s) as [[n s1]|e|k| |]; cbn [bind];
    try (eexists; exists l, []; split; [reflexivity|]; split; [reflexivity|]; split; [apply grow_refl|]; split; [auto|]; intros; left; split; [reflexivity|]; intros; congruence; fail).
  destruct (N.ltb_spec 0 n) as [N0|N0];
    [|eexists; exists l, []; split; [reflexivity|]; split; [reflexivity|]; split; [apply grow_refl|]; split; [auto|discriminate]].
  destruct (ok n) eqn:EO;
    [|eexists; exists l, []; split; [reflexivity|]; split; [reflexivity|]; split; [apply grow_refl|]; split; [auto|]; intros; left; split; [reflexivity|]; intros; congruence].
  pose proof (grow_obtain (BChars n) l) as GO.
  unfold mbind at 1. change (obtain (BChars n) l) with (Ok (l_next l), snd (obtain (BChars n) l)). cbv iota beta.
  rewrite mret_bind.
  destruct (binary_read n s1) as [[d s2]|e|k| |] eqn:EB; cbn [bind];
    try (eexists; eexists; exists [BChars n]; split; [reflexivity|]; split; [reflexivity|]; split; [exact GO|]; split; discriminate).
  - destruct (lenN d <? n);
      [eexists; eexists; exists [BChars n]; split; [reflexivity|]; split; [reflexivity|]; split; [exact GO|]; split; discriminate|].
    rewrite mret_bind. 
    destruct (scan_names d []) as [names|e|k| |] eqn:ES; cbn [bind];
      try (eexists; eexists; exists [BChars n]; split; [reflexivity|]; split; [reflexivity|]; split; [exact GO|]; split; discriminate).
    + destruct (release_grow l (BChars n) _ [] F (grow_refl _)) as (l'' & ER & G & _).
      unfold mbind. rewrite ER. cbn [mret]. eexists; exists l'', []. split; [reflexivity|]. split; [reflexivity|]. split; [exact G|].
      split; [auto|discriminate].
    + exfalso. clear -ES. revert ES. generalize (@nil byte). induction d as [|x d IH]; intros c; cbn [scan_names].
      * destruct c; discriminate.
      * destruct (N_of_byte x =? 0); [|apply IH]. intros E. pose proof (IH []) as I2. destruct (scan_names d []); cbn in E; try discriminate E.
        injection E as ->. exact (I2 eq_refl).
  - eexists; eexists; exists [BChars n]; split; [reflexivity|]; split; [reflexivity|]; split; [exact GO|]. split; [discriminate|].
    intros e' X. right. exists n, s1. split; [reflexivity|]. split; [exact N0|]. split; [exact EO|]. split; [|reflexivity].
    unfold binary_read in EB. destruct (good s1); [discriminate EB|reflexivity].
Qed.
