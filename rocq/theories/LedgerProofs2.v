(** The whole reader, and the functions of the C API. *)
From Verif Require Import BaseProofs Types Stream SkipList AMap MemMapSpec MemMapProofs MemMapMore Reader FormatSpec FormatUB.
From Verif Require Import ReaderProofs ReaderProofs2 ReaderProofs3 ReaderMore ReaderProps Ledger LedgerSpec LedgerProofs.

(** ** Blobs of entries *)
Lemma dec_var_blobs map nm ty d data : var_blobs (dec_var map nm ty d data) = match t_fmt d with BLOB => [BBlob (lenN data)] | _ => [] end.
Proof. unfold dec_var, var_blobs. destruct (t_fmt d); try reflexivity. destruct (negb _); reflexivity. Qed.
Lemma steps_blobs types es : forall map acc map' acc', steps types map acc es = Ok (map', acc') ->
  vblobs (a_vars acc') = vblobs (a_vars acc) ++ flat_map (entry_blobs types) es.
Proof.
  induction es as [|e es IH]; intros map acc map' acc' E; cbn [steps flat_map] in *.
  - injection E as <- <-. rewrite app_nil_r. reflexivity.
  - apply bind_ok in E. destruct E as ([m c] & E1 & E2). rewrite (IH _ _ _ _ E2), app_assoc. f_equal. clear E2 IH.
    destruct e as [id|nm ty data|a s|a]; cbn [step entry_blobs] in *.
    + injection E1 as <- <-. rewrite app_nil_r. reflexivity.
    + destruct (nthN types ty) as [d|]; [|discriminate E1]. injection E1 as <- <-. cbn [a_vars].
      rewrite vblobs_app. cbn [vblobs flat_map]. rewrite dec_var_blobs, app_nil_r. reflexivity.
    + apply bind_ok in E1. destruct E1 as (m2 & _ & E1). injection E1 as <- <-. rewrite app_nil_r. reflexivity.
    + injection E1 as <- <-. rewrite app_nil_r. reflexivity.
Qed.
Lemma psteps_blobs types pts : forall i map map' ps, psteps types i map pts = Ok (map', ps) ->
  pblobs ps = flat_map (entry_blobs types) (concat pts).
Proof.
  induction pts as [|es pts IH]; intros i map map' ps E; cbn [psteps concat] in *.
  - injection E as <- <-. reflexivity.
  - apply bind_ok in E. destruct E as ([m c] & E1 & E2). apply bind_ok in E2. destruct E2 as ([m2 qs] & E2 & E3). injection E3 as <- <-.
    rewrite flat_map_app, <- (IH _ _ _ _ E2). cbn [pblobs flat_map point_acc p_vars]. f_equal.
    exact (steps_blobs _ _ _ _ _ _ E1).
Qed.

(** ** Points, with the one that is dropped *)
Section D.
Variables (ok : alloc) (names : list name) (types : list tdesc) (t : tail_kind).
Notation ewf := (entry_wf ok names types).

Lemma points_d_dead : forall f max i (map : amap),
  read_points_d f ok abs_map max i names types map (dead t) = Ok ([], [], dead t).
Proof. intros. destruct f; cbn [read_points_d]; rewrite good_dead; reflexivity. Qed.

Lemma points_d_enc : forall pts f max i (map : amap) map' ps r, Forall (Forall ewf) pts ->
  psteps types i map pts = Ok (map', ps) -> (max = 0 \/ i + lenN pts <= max) ->
  read_points_d (length pts + f) ok abs_map max i names types map (open_stream (enc_points types pts ++ r) t) =
  ('(qs, vs, s) <- read_points_d f ok abs_map max (i + lenN pts) names types map' (open_stream r t) ;; Ok (ps ++ qs, vs, s)).
Proof.
  induction pts as [|es pts IH]; intros f max i map map' ps r HF E Hmax.
  - cbn [psteps length Nat.add enc_points concat List.map app] in *. inversion E; subst. rewrite lenN_nil, N.add_0_r.
    destruct (read_points_d f ok abs_map max i names types map' (open_stream r t)) as [[[]]| | | |]; reflexivity.
  - cbn [psteps] in E. apply bind_ok in E. destruct E as ([m c] & E1 & E2). apply bind_ok in E2. destruct E2 as ([m2 qs] & E2 & E3).
    inversion E3; subst. inversion HF; subst. rewrite lenN_cons in *.
    cbn [length Nat.add read_points_d]. rewrite good_open.
    replace (true && ((i <? max) || (max =? 0))) with true.
    2:{ destruct Hmax as [->|Hm]; [rewrite orb_true_r; reflexivity|].
        destruct (N.ltb_spec i max); [reflexivity|lia]. }
    unfold enc_points. cbn [List.map concat]. rewrite <- app_assoc. fold (enc_points types pts).
    rewrite read_point_enc with (map' := m) (acc' := c) by assumption. cbn [bind].
    rewrite IH with (map' := map') (ps := qs); auto; [|lia].
    replace (i + N.succ (lenN pts)) with (i + 1 + lenN pts) by lia.
    destruct (read_points_d f ok abs_map max (i + 1 + lenN pts) names types map' (open_stream r t)) as [[[]]| | | |]; cbn [bind]; rewrite ?good_open; reflexivity.
Qed.

Lemma points_d_prefix : forall pts max (map : amap) map' ps r i,
  Forall (Forall ewf) pts -> psteps types i map pts = Ok (map', ps) ->
  (max = 0 \/ i + lenN pts <= max) ->
  exists f, (S (length r) < f)%nat /\
  read_points_d (S (S (length (enc_points types pts ++ r)))) ok abs_map max i names types map
    (open_stream (enc_points types pts ++ r) t) =
  ('(qs, vs, s) <- read_points_d f ok abs_map max (i + lenN pts) names types map' (open_stream r t) ;; Ok (ps ++ qs, vs, s)).
Proof.
  intros pts max map map' ps r i HW HP Hm. rewrite app_length.
  pose proof (enc_points_len types pts) as HL.
  remember (S (S (length (enc_points types pts) + length r))) as n eqn:En.
  exists (n - length pts)%nat. split; [lia|].
  pose proof (points_d_enc pts (n - length pts) max i map map' ps r HW HP Hm) as HE.
  replace (length pts + (n - length pts))%nat with n in HE by lia. exact HE.
Qed.

Lemma points_d_tail : forall f es max i h (map : amap), hist_ok h map -> Forall ewf es ->
  sentinel_safe (h ++ records es) -> (max = 0 \/ i < max) -> (0 < f)%nat ->
  exists vs, read_points_d f ok abs_map max i names types map (open_stream (enc_entries types es) t) = Ok ([], vs, dead t) /\
    vblobs vs = flat_map (entry_blobs types) es.
Proof.
  intros f es max i h map Hh HW HS Hm Hf. destruct f; [lia|]. cbn [read_points_d]. rewrite good_open.
  replace (true && ((i <? max) || (max =? 0))) with true.
  2:{ destruct Hm as [->|Hm]; [rewrite orb_true_r; reflexivity|]. destruct (N.ltb_spec i max); [reflexivity|lia]. }
  destruct (steps_total ok names types es h map pacc0 Hh HW HS) as (m & c & E).
  destruct (read_point_steps ok names types t i map es m c [] HW E) as (f' & Hf' & HE).
  rewrite app_nil_r in HE. rewrite HE.
  destruct f'; [lia|]. cbn [read_entries]. unfold read_entry. rewrite read_tag_nil. cbn [bind].
  rewrite good_dead. cbn [negb orb bind].
  pose proof (points_d_dead f max (i + 1) m) as RD. cbn [mo_state abs_map] in RD |- *. rewrite RD.
  cbn [bind]. rewrite good_dead. exists (a_vars c). cbn [point_acc p_vars]. rewrite app_nil_r. split; [reflexivity|].
  exact (steps_blobs _ _ _ _ _ _ E).
Qed.
End D.

Section T.
Variables (ok : alloc) (coins : nat -> bool) (pos : nat).
Notation SM := (skip_map coins pos).

Lemma points_d_transfer : forall f max i names types m am s, repr m am ->
  read_points_d f ok SM max i names types m s = read_points_d f ok abs_map max i names types am s.
Proof.
  induction f as [|f IH]; intros max i names types m am s HR; cbn [read_points_d]; [reflexivity|].
  destruct (good s && ((i <? max) || (max =? 0))); [|reflexivity]. unfold read_point.
  pose proof (read_entries_transfer ok coins pos (S (S (length (s_rest s)))) names types m am pacc0 s HR) as HE.
  destruct (read_entries _ ok SM names types m pacc0 s) as [[[a m'] s']| | | |];
    destruct (read_entries _ ok abs_map names types am pacc0 s) as [[[a2 m2] s2]| | | |]; cbn [same_entries] in HE; try contradiction; cbn [bind]; auto; try congruence.
  destruct HE as (-> & -> & HR'). rewrite (IH max (i + 1) names types m' m2 s2 HR'). reflexivity.
Qed.

Lemma no_blob_dec types : Exists (fun t => t_fmt t = BLOB) types \/ ~ Exists (fun t => t_fmt t = BLOB) types.
Proof.
  destruct (Exists_dec (fun t => t_fmt t = BLOB) types) as [H|H]; [|left; exact H|right; exact H].
  intros x. destruct (t_fmt x); (left; reflexivity) || (right; discriminate).
Qed.

(** ** Rejected files *)
Lemma grow_same l l' a b : grow l l' a -> grow l l' b -> a = b.
Proof. intros A B. apply grow_live in A, B. rewrite A in B. apply app_inv_head in B. exact B. Qed.

Lemma value_started M map f size q t l :
  exists o l', read_value_l ok M map f size (open_stream q t) l = (o, l') /\
    grow l l' (match f with BLOB => let n := if size =? 0 then le_val (takeN 4 q) else size in
                 if ok n || (n =? 0) then [BBlob n] else [] | _ => [] end).
Proof.
  unfold read_value_l. destruct f; try (eexists; exists l; split; [reflexivity|apply grow_refl]).
  cbv zeta. cbv [mbind mret].
  assert (W : exists s1, (if size =? 0 then read_word 4 0 (open_stream q t) else Ok (size, open_stream q t)) =
                Ok (if size =? 0 then le_val (takeN 4 q) else size, s1)).
  { destruct (size =? 0); [|eexists; reflexivity]. destruct (word_cases 4 q) as [(x & r & -> & X)|S].
    - rewrite read_word_app by exact X. rewrite takeN_app by (rewrite lenN_le_bytes; reflexivity).
      rewrite le_val_le_bytes_small by exact X. eexists; reflexivity.
    - rewrite read_word_short0 by exact S. rewrite takeN_all by (change (N.of_nat 4) with 4 in S; lia). eexists; reflexivity. }
  destruct W as (s1 & ->). set (n := if size =? 0 then _ else _).
  destruct (ok n || (n =? 0)).
  - destruct (binary_read n s1) as [[d s2]|e|k| |]; cbn [obtain];
      [destruct (lenN d <? n)|..]; (eexists; eexists; split; [reflexivity|apply grow_obtain]).
  - destruct (binary_read n s1) as [[d s2]|e|k| |];
      [destruct (lenN d =? 0)|..]; (eexists; exists l; split; [reflexivity|apply grow_refl]).
Qed.
Lemma value_started_dead M map f size t l :
  exists o l', read_value_l ok M map f size (dead t) l = (o, l') /\
    grow l l' (match f with BLOB => if size =? 0 then [] else if ok size || (size =? 0) then [BBlob size] else [] | _ => [] end).
Proof.
  unfold read_value_l. destruct f; try (eexists; exists l; split; [reflexivity|apply grow_refl]).
  cbv [mbind mret]. rewrite read_word_dead. destruct (size =? 0) eqn:Z0; [eexists; exists l; split; [reflexivity|apply grow_refl]|].
  rewrite binary_read_dead, Z0. destruct (ok size || false); cbn [obtain];
    [eexists; eexists; split; [reflexivity|apply grow_obtain]|eexists; exists l; split; [reflexivity|apply grow_refl]].
Qed.
Lemma var_started M names types map bs t l :
  exists o l', read_var_l ok M names types map (open_stream bs t) l = (o, l') /\
    grow l l' (started_blob ok names types (x02 :: bs)).
Proof.
  unfold read_var_l, started_blob. change (negb (Byte.eqb x02 x02)) with false. cbn [orb]. cbv zeta. cbv [mbind mret].
  destruct (word_cases 4 bs) as [(nm & r1 & -> & Hnm)|S].
  2:{ rewrite read_word_short0 by exact S. rewrite read_word_dead. change (N.of_nat 4) with 4 in S.
      destruct (N.ltb_spec (lenN bs) 4); [|lia]. eexists; exists l; split; [reflexivity|apply grow_refl]. }
  rewrite read_word_app by exact Hnm. rewrite takeN_app, dropN_app by (rewrite lenN_le_bytes; reflexivity).
  rewrite le_val_le_bytes_small by exact Hnm.
  destruct (N.ltb_spec (lenN (le_bytes 4 nm ++ r1)) 4) as [L|_]; [rewrite lenN_app, lenN_le_bytes in L; lia|].
  destruct (word_cases 4 r1) as [(ty & r2 & -> & Hty)|S].
  - rewrite read_word_app by exact Hty. rewrite takeN_app, dropN_app by (rewrite lenN_le_bytes; reflexivity).
    rewrite le_val_le_bytes_small by exact Hty.
    destruct (nthN types ty) as [d|]; [|eexists; exists l; split; [reflexivity|apply grow_refl]].
    destruct (lenN names <=? nm); [eexists; exists l; split; [reflexivity|apply grow_refl]|].
    destruct (N.ltb_spec (lenN (le_bytes 4 ty ++ r2)) 4) as [L|_]; [rewrite lenN_app, lenN_le_bytes in L; lia|].
    rewrite andb_false_r.
    destruct (value_started M map (t_fmt d) (t_size d) r2 t l) as (o & l' & -> & G).
    destruct o as [[[[[? ?] ?] ?] ?]|e|k| |]; (eexists; exists l'; split; [reflexivity|exact G]).
  - rewrite read_word_short0 by exact S. change (N.of_nat 4) with 4 in S. rewrite takeN_all by lia.
    destruct (nthN types (le_val r1)) as [d|]; [|eexists; exists l; split; [reflexivity|apply grow_refl]].
    destruct (lenN names <=? nm); [eexists; exists l; split; [reflexivity|apply grow_refl]|].
    destruct (N.ltb_spec (lenN r1) 4) as [_|L]; [|lia]. rewrite andb_true_r.
    destruct (value_started_dead M map (t_fmt d) (t_size d) t l) as (o & l' & -> & G).
    assert (G' : grow l l' match t_fmt d with
       | BLOB => if t_size d =? 0 then [] else if ok (if t_size d =? 0 then le_val (takeN 4 (dropN 4 r1)) else t_size d) || ((if t_size d =? 0 then le_val (takeN 4 (dropN 4 r1)) else t_size d) =? 0)
                   then [BBlob (if t_size d =? 0 then le_val (takeN 4 (dropN 4 r1)) else t_size d)] else [] | _ => [] end).
    { destruct (t_fmt d); try exact G. destruct (t_size d =? 0) eqn:Z0; rewrite ?Z0; exact G. }
    destruct o as [[[[[? ?] ?] ?] ?]|e|k| |]; (eexists; exists l'; split; [reflexivity|exact G']).
Qed.
Lemma entry_started M names types map acc bs t l :
  exists o l', read_entry_l ok M names types map acc (open_stream bs t) l = (o, l') /\ grow l l' (started_blob ok names types bs).
Proof.
  unfold read_entry_l. rewrite mret_bind. destruct bs as [|b q].
  { rewrite read_tag_nil. rewrite good_dead. eexists; exists l; split; [reflexivity|apply grow_refl]. }
  rewrite read_tag. rewrite good_open. cbn [negb orb].
  destruct (Byte.eqb b x02) eqn:EB.
  - apply Byte.byte_dec_bl in EB. subst b. change (schar x02) with 2%Z. change (2 =? 0)%Z with false. change (2 =? 2)%Z with true. cbv iota.
    unfold mbind. destruct (var_started M names types map q t l) as (o & l' & -> & G).
    destruct o as [[v s2]|e|k| |]; (eexists; exists l'; split; [reflexivity|exact G]).
  - assert (NS : started_blob ok names types (b :: q) = []).
    { unfold started_blob. rewrite EB. reflexivity. }
    rewrite NS.
    assert (N2 : (schar b =? 2)%Z = false).
    { apply Z.eqb_neq. intros E. destruct (schar_cases b) as [->|[->|[->|[->|[->|[H0 Hb]]]]]]; try discriminate E; [discriminate EB|lia]. }
    rewrite N2. destruct (schar b =? 0)%Z; (eexists; exists l; split; [reflexivity|apply grow_refl]).
Qed.

Section R.
Variables (names : list name) (types : list tdesc) (t : tail_kind).
Hypothesis HT : Forall type_wf types.
Notation ewf := (entry_wf ok names types).
Definition rejected_at (r : list byte) : Prop := r <> [] /\ (forall q, r <> x00 :: q) /\ forall e q, ewf e -> r <> enc_entry types e ++ q.

Lemma entry_started_enc e q : ewf e -> started_blob ok names types (enc_entry types e ++ q) = entry_blobs types e.
Proof.
  intros He. destruct (entry_ledger ok abs_map names types [] pacc0 (open_stream (enc_entry types e ++ q) t) no_memory) as (o & l' & b & E & -> & (G & _) & R).
  destruct (entry_started abs_map names types [] pacc0 (enc_entry types e ++ q) t no_memory) as (o2 & l2 & E2 & G2).
  rewrite E in E2. injection E2 as _ <-. assert (b = started_blob ok names types (enc_entry types e ++ q)) as <-.
  { apply grow_live in G, G2. cbn in G, G2. congruence. }
  destruct e as [id|nm ty data|a s|a].
  1,3,4: apply grow_live in G; apply grow_live in G2; cbn [live no_memory l_live map app] in G, G2; rewrite <- G, G2; reflexivity.
  cbn [entry_blobs]. pose proof (read_entry_enc ok names types t [] pacc0 (EVar nm ty data) q He) as X. cbn [step] in X.
  destruct (nthN types ty) as [d|] eqn:ED; [|destruct He as (_ & _ & _ & d & Hd & _); congruence].
  cbn [bind] in X. destruct (R _ _ _ _ X) as (vs & V & C). cbn [a_vars pacc0 app] in V. subst vs.
  rewrite C by (left; apply good_open). cbn [vblobs flat_map]. rewrite dec_var_blobs, app_nil_r. reflexivity.
Qed.

Lemma entries_rejected f : forall h (m : memory_map) (am : amap) acc bs l e l', hist_ok h am -> repr m am ->
  read_entries_l f ok SM names types m acc (open_stream bs t) l = (Throw e, l') ->
  exists es r, bs = enc_entries types es ++ r /\ Forall ewf es /\ rejected_at r /\
    grow l l' (flat_map (entry_blobs types) es ++ started_blob ok names types r).
Proof.
  induction f as [|f IH]; intros h m am acc bs l e l' Hh HR; [discriminate|]. cbn [read_entries_l]. unfold mbind.
  destruct (entry_ledger ok SM names types m acc (open_stream bs t) l) as (o & l1 & b & E & Ho & _).
  destruct (entry_started SM names types m acc bs t l) as (o2 & l2 & E2 & G). rewrite E in E2. injection E2 as <- <-. rewrite E.
  pose proof (read_entry_transfer ok coins pos names types m am acc (open_stream bs t) HR) as TR. rewrite <- Ho in TR. clear Ho.
  destruct (read_entry_cases ok names types t h am acc bs (proj1 Hh) HT) as [(e' & r & -> & He)|ST].
  - rewrite read_entry_enc in TR by exact He. rewrite (entry_started_enc e' r He) in G.
    destruct (step_ub ok names types h am acc e' Hh He) as [(m' & c & ES)|(ES & -> & _)]; rewrite ES in TR; cbn [bind] in TR;
      destruct o as [[[[again acc1] m1] s1]|?|?| |]; cbn [same_entry] in TR; try contradiction; try discriminate.
    destruct TR as (-> & -> & -> & HR'). intros X.
    destruct (IH (h ++ records [e']) m1 m' c r l1 e l' (step_hist _ _ _ _ _ _ _ _ _ Hh He ES) HR' X) as (es & q & -> & W & RJ & G').
    exists (e' :: es), q. split; [cbn [enc_entries List.map concat]; unfold enc_entries; cbn [List.map concat]; rewrite <- app_assoc; reflexivity|].
    split; [constructor; assumption|]. split; [exact RJ|]. cbn [flat_map]. rewrite <- app_assoc. exact (grow_trans _ _ _ _ _ G G').
  - assert (RJ : (exists e1, o = Throw e1) \/ (exists a1 c1 m1, o = Ok (a1, c1, m1, dead t)) \/ (exists r c1 m1, o = Ok (false, c1, m1, open_stream r t)) \/ (exists k, o = UB k)).
    { unfold entry_stop in ST. destruct ST as [(-> & ST)|[(r & -> & ST)|[(_ & c' & m' & ST)|[(e1 & ST)|(k & ST & _)]]]];
        cbn [mo_state abs_map] in ST, TR; rewrite ST in TR;
        destruct o as [[[[again acc1] m1] s1]|?|?| |]; cbn [same_entry] in TR; try contradiction; try (destruct TR as (-> & -> & -> & _)); eauto 12. }
    intros X. exists [], bs. split; [reflexivity|]. split; [constructor|]. cbn [flat_map app]. split; [split; [|split]|].
    + intros ->. destruct ST as [(_ & ST)|[(r & Z & _)|[(Z & _)|[(e1 & ST)|(k & ST & _)]]]]; try congruence;
        [|unfold read_entry in ST; rewrite read_tag_nil in ST; cbn [bind] in ST; rewrite good_dead in ST; discriminate ST..].
      rewrite ST in TR. destruct o as [[[[again acc1] m1] s1]|?|?| |]; cbn [same_entry] in TR; try contradiction.
      destruct TR as (-> & _). discriminate X.
    + intros q ->. unfold read_entry in TR. rewrite read_tag in TR. cbn [bind] in TR. rewrite good_open in TR.
      change (schar x00 =? 0)%Z with true in TR. cbn [negb orb] in TR.
      destruct o as [[[[again acc1] m1] s1]|?|?| |]; cbn [same_entry] in TR; try contradiction.
      destruct TR as (-> & _). discriminate X.
    + intros e' q He ->. rewrite read_entry_enc in TR by exact He.
      destruct (step_ub ok names types h am acc e' Hh He) as [(m' & c & ES)|(ES & _)]; rewrite ES in TR; cbn [bind] in TR;
        destruct o as [[[[again acc1] m1] s1]|?|?| |]; cbn [same_entry] in TR; try contradiction; try discriminate.
      destruct TR as (-> & -> & -> & _).
      destruct RJ as [(e1 & RJ)|[(a1 & c1 & m2 & RJ)|[(r & c1 & m2 & RJ)|(k & RJ)]]]; try discriminate RJ.
    + destruct RJ as [(e1 & ->)|[(a1 & c1 & m2 & ->)|[(r & c1 & m2 & ->)|(k & ->)]]]; try discriminate X.
      * injection X as _ <-. exact G.
      * destruct a1; [|discriminate X]. destruct f as [|f]; [discriminate X|]. cbn [read_entries_l] in X.
        unfold mbind, read_entry_l in X. rewrite mret_bind in X. unfold binary_read_into in X. rewrite binary_read_dead in X. cbn [bind] in X.
        injection X as _ <-. exact G.
Qed.

Lemma points_rejected f : forall max i h (m : memory_map) (am : amap) bs l e l', hist_ok h am -> repr m am ->
  read_points_l f ok SM max i names types m (open_stream bs t) l = (Throw e, l') ->
  exists pts es r, bs = enc_points types pts ++ enc_entries types es ++ r /\ Forall (Forall ewf) pts /\ Forall ewf es /\ rejected_at r /\
    grow l l' (flat_map (entry_blobs types) (concat pts ++ es) ++ started_blob ok names types r).
Proof.
  induction f as [|f IH]; intros max i h m am bs l e l' Hh HR; cbn [read_points_l]; rewrite good_open; cbn [andb];
    (destruct ((i <? max) || (max =? 0)); [|discriminate]); [discriminate|]. unfold mbind.
  destruct (point_ledger ok SM i names types m (open_stream bs t) l) as (o & l1 & b & E & Ho & (G & _) & R). rewrite E. intros X.
  destruct o as [[[p m1] s1]|e1|k| |]; try discriminate X.
  - (* a point *)
    specialize (R _ _ _ eq_refl). subst b. symmetry in Ho.
    destruct (read_point_cases ok names types t HT i h am bs Hh) as (es & r & am' & c & -> & HW & HS & Hh' & HE).
    pose proof (read_entries_transfer ok coins pos (S (S (length (s_rest (open_stream (enc_entries types es ++ r) t))))) names types m am pacc0 (open_stream (enc_entries types es ++ r) t) HR) as TR.
    unfold read_point in Ho, HE.
    destruct (read_entries _ ok SM names types m pacc0 _) as [[[acc1 m1'] s1']|?|?| |]; cbn [bind] in Ho; try discriminate Ho.
    injection Ho as <- <- <-. cbn [mo_state abs_map] in HE, TR.
    destruct (read_entries _ ok abs_map names types am pacc0 _) as [[[acc2 m2] s2]|?|?| |]; cbn [same_entries] in TR; try contradiction.
    destruct TR as (-> & -> & HR'). cbn [bind] in HE.
    destruct HE as [(-> & E1)|[(q & -> & E1)|[(e2 & E1)|(k & E1 & _)]]]; try discriminate E1.
    + (* end of file: nothing is rejected afterwards *)
      assert (s2 = dead t) as -> by (clear - E1; congruence). destruct f; cbn [read_points_l] in X; rewrite good_dead in X; cbn [andb] in X; cbv [mret] in X; discriminate X.
    + assert (EV : a_vars acc2 = a_vars c).
      { apply (f_equal (fun o => match o with Ok (p, _, _) => p_vars p | _ => [] end)) in E1. exact E1. }
      assert (m2 = am' /\ s2 = open_stream q t) as [-> ->] by (clear - E1; split; congruence). clear E1.
      destruct (read_points_l f ok SM max (i + 1) names types m1' (open_stream q t) l1) as [o2 l2] eqn:E2.
      destruct o2 as [[ps s3]|e2|k| |]; try discriminate X.
      injection X as -> ->.
      destruct (IH max (i + 1) (h ++ records es) m1' am' q l1 e l' Hh' HR' E2) as (pts & es' & r & -> & HP & HW' & RJ & G').
      exists (es :: pts), es', r. split.
      { unfold enc_points. cbn [List.map concat]. unfold enc_point at 2. rewrite <- !app_assoc. reflexivity. }
      split; [constructor; assumption|]. split; [exact HW'|]. split; [exact RJ|].
      cbn [concat]. rewrite <- app_assoc, flat_map_app, <- app_assoc.
      assert (vblobs (p_vars (mkP i (a_stmt acc2) (a_sizes acc2) (a_vars acc2) (a_aux acc2))) = flat_map (entry_blobs types) es) as <-.
      { cbn [p_vars]. rewrite EV. exact (steps_blobs _ _ _ _ _ _ HS). }
      exact (grow_trans _ _ _ _ _ G G').
  - injection X as -> ->. unfold read_point_l, mbind in E.
    destruct (read_entries_l _ ok SM names types m pacc0 (open_stream bs t) l) as [o2 l2] eqn:E2.
    destruct o2 as [[[? ?] ?]|e2|k| |]; cbv [mret] in E; try discriminate E. injection E as -> ->.
    destruct (entries_rejected _ h m am pacc0 bs l e l' Hh HR E2) as (es & r & -> & HW & RJ & G').
    exists [], es, r. split; [reflexivity|]. split; [constructor|]. split; [exact HW|]. split; [exact RJ|exact G'].
Qed.
End R.

(** Reading: the ledger grows by the leak. *)
Lemma trace_ledger max bs t l : fresh l ->
  exists o l' b, read_trace_l ok SM max (open_stream bs t) l = (o, l') /\ o = read_trace ok SM max (open_stream bs t) /\
    grow l l' b /\ ((forall k, o <> UB k) -> leak ok SM max (Some (bs, t)) b).
Proof.
  intros F. unfold read_trace_l, read_trace. unfold mbind at 1.
  destruct (names_ledger ok (open_stream bs t) l F) as (o & l1 & b1 & -> & -> & G1 & R1 & R2).
  assert (TH : forall e, read_names ok (open_stream bs t) = Throw e -> leak ok SM max (Some (bs, t)) b1).
  { intros e E. apply (leak_rejected ok SM max t bs e).
    - unfold read_trace. rewrite E. reflexivity.
    - destruct (R2 _ E) as [[-> NB]|(n & s1 & W & N0 & A & G & ->)].
      { left. split; [reflexivity|]. split.
        - intros names types rest W1 W2 ->. unfold enc_header in E. rewrite <- app_assoc, read_names_enc in E by exact W1. discriminate E.
        - intros (S & P & A). apply (NB (le_val bs) (dead t)); auto. apply read_word_short0. exact S. }
      right; left.
      destruct (word_cases 8 bs) as [(x & r & -> & X)|S].
      + rewrite read_word_app in W by exact X. injection W as <- <-. discriminate G.
      + rewrite read_word_short0 in W by exact S. injection W as <- <-. split; [exact S|]. split; [exact N0|]. split; [exact A|reflexivity]. }
  destruct (read_names ok (open_stream bs t)) as [[names s1]|e|k| |] eqn:EN; cbn [bind].
  2:{ eexists; exists l1, b1. split; [reflexivity|]. split; [reflexivity|]. split; [exact G1|]. intros _. exact (TH e eq_refl). }
  2:{ eexists; exists l1, b1. split; [reflexivity|]. split; [reflexivity|]. split; [exact G1|]. intros X. destruct (X k eq_refl). }
  2,3: exfalso; destruct (read_names_cases ok bs t) as [(names & r & _ & _ & E)|[E|[(e & E)|(k & E & _)]]]; rewrite EN in E; discriminate E.
  assert (b1 = []) as -> by exact (R1 _ eq_refl). rewrite mret_bind.
  assert (RT : forall e s1' names', read_names ok (open_stream bs t) = Ok (names', s1') -> read_types ok s1' = Throw e ->
             read_trace ok SM max (open_stream bs t) = Throw e).
  { intros e s1' names' E1 E2. unfold read_trace. rewrite E1. cbn [bind]. rewrite E2. reflexivity. }
  destruct (read_types ok s1) as [[types s2]|e|k| |] eqn:ET; cbn [bind].
  2:{ eexists; exists l1, []. split; [reflexivity|]. split; [reflexivity|]. split; [exact G1|]. intros _. apply (leak_rejected ok SM max t bs e).
      - exact (RT _ _ _ EN ET).
      - left. split; [reflexivity|]. split.
        + intros names' types rest W1 W2 ->. unfold enc_header in EN. rewrite <- app_assoc, read_names_enc in EN by exact W1. assert (s1 = open_stream (enc_types types ++ rest) t) as -> by congruence.
          rewrite read_types_enc in ET by exact W2. discriminate ET.
        + intros (S & P & A). unfold read_names in EN. rewrite read_word_short0 in EN by exact S. cbn [bind] in EN.
          destruct (N.ltb_spec 0 (le_val bs)); [|lia]. rewrite A, binary_read_dead in EN. discriminate EN. }
  2:{ eexists; exists l1, []. split; [reflexivity|]. split; [reflexivity|]. split; [exact G1|]. intros X. destruct (X k eq_refl). }
  2,3: exfalso; destruct (read_names_cases ok bs t) as [(names' & r & _ & _ & E)|[E|[(e & E)|(k & E & _)]]]; rewrite EN in E; try discriminate E; injection E as _ ->;
       [destruct (read_types_cases ok r t) as [(types & q & _ & _ & E2)|[(k & _ & _ & E2)|[(types & ty & part & missing & _ & _ & _ & _ & E2)|(e & E2)]]]|rewrite read_types_dead in ET; discriminate ET];
       rewrite ET in E2; discriminate E2.
  unfold mbind.
  destruct (points_ledger ok SM max names types (S (S (length (s_rest s2)))) 0 (mo_new SM) s2 l1) as (o & l2 & b2 & E2 & -> & (G2 & B2 & C2) & R3). rewrite E2.
  pose proof (grow_trans _ _ _ _ _ G1 G2) as G. cbn [app] in G.
  assert (FIN : ((forall k, read_points (S (S (length (s_rest s2)))) ok SM max 0 names types (mo_new SM) s2 <> UB k) ->
     leak ok SM max (Some (bs, t)) b2)).
  { intros NU.
    destruct (read_names_cases ok bs t) as [(names' & r & Hbs & Hn & E)|[E|[(e & E)|(k & E & _)]]]; rewrite EN in E; try discriminate E.
    2:{ injection E as -> ->. rewrite read_types_dead in ET. discriminate ET. }
    injection E as <- ->.
    destruct (read_types_cases ok r t) as [(types' & q & -> & Ht & E)|[(k & Hk & -> & E)|[(types' & ty & part & missing & Ht & Hp & Hne & Hr & E)|(e & E)]]];
      rewrite ET in E; try discriminate E; injection E as -> ->.
    - (* a complete header *)
      cbn [s_rest open_stream] in *. fold (open_stream q t) in *.
      destruct (read_points_cases ok names types' t (proj1 Ht) (S (S (length q))) max 0 [] [] q hist_ok_nil ltac:(lia) ltac:(lia))
        as (pts & rest & m & ps & -> & HW & HP & Hh & HE).
      assert (HF : file_wf ok (mkF names types' pts)).
      { split; [exact Hn|]. split; [exact Ht|]. split; [exact HW|]. exact (proj2 Hh). }
      assert (HB : bs = enc_file (mkF names types' pts) ++ rest).
      { rewrite Hbs. unfold enc_file, enc_header. cbn [f_names f_types f_points]. rewrite <- !app_assoc. reflexivity. }
      pose proof (read_points_transfer ok coins pos (S (S (length (enc_points types' pts ++ rest)))) max 0 names types' (mo_new SM) (mo_new abs_map)
                    (open_stream (enc_points types' pts ++ rest) t) (repr_new pos)) as TR.
      unfold points_end in HE. cbn [app] in *.
      destruct HE as [(Hm & Hl & E)|(Hm & es & r & -> & He & HS & [(-> & E)|[(e & E)|(k & E & Hk)]])].
      + (* limit *)
        assert (D : read_points_d (S (S (length (enc_points types' pts ++ rest)))) ok SM max 0 names types' (mo_new SM) (open_stream (enc_points types' pts ++ rest) t) =
                    Ok (ps, [], open_stream rest t)).
        { rewrite (points_d_transfer _ max 0 names types' (mo_new SM) (mo_new abs_map) _ (repr_new pos)).
          destruct (points_d_prefix ok names types' t pts max [] m ps rest 0 HW HP ltac:(lia)) as (f & Hf & Hd). cbn [mo_new abs_map] in Hd |- *. rewrite Hd.
          destruct f; [lia|]. cbn [read_points_d]. rewrite Hl, N.ltb_irrefl, good_open.
          destruct (N.eqb_spec max 0); [congruence|]. cbn [orb andb bind]. rewrite app_nil_r. reflexivity. }
        rewrite (R3 _ _ _ D), (psteps_blobs _ _ _ _ _ _ HP). cbn [vblobs flat_map]. rewrite app_nil_r, HB.
        apply (leak_max ok SM max t (mkF names types' pts) rest); auto.
      + (* end of file *)
        rewrite app_nil_r in *.
        assert (HS' : sentinel_safe (records (concat pts) ++ records es)) by (rewrite <- records_app; exact HS).
        destruct (points_d_prefix ok names types' t pts max [] m ps (enc_entries types' es) 0 HW HP ltac:(lia)) as (f & Hf & Hd).
        destruct (points_d_tail ok names types' t f es max (0 + lenN pts) _ m Hh He HS' ltac:(lia) ltac:(lia)) as (vs & Hv & Hb).
        cbn [mo_state abs_map] in Hv. rewrite Hv in Hd. cbn [bind] in Hd.
        assert (D : read_points_d (S (S (length (enc_points types' pts ++ enc_entries types' es)))) ok SM max 0 names types' (mo_new SM)
                      (open_stream (enc_points types' pts ++ enc_entries types' es) t) = Ok (ps ++ [], vs, dead t)).
        { rewrite (points_d_transfer _ max 0 names types' (mo_new SM) (mo_new abs_map) _ (repr_new pos)). exact Hd. }
        rewrite app_nil_r in D.
        rewrite (R3 _ _ _ D), (psteps_blobs _ _ _ _ _ _ HP), Hb, <- flat_map_app, HB.
        apply (leak_all ok SM max t (mkF names types' pts) es); auto.
      + (* rejected *)
        cbn [mo_state mo_new abs_map] in E, TR. rewrite E in TR.
        apply (leak_rejected ok SM max t bs e).
        * unfold read_trace. rewrite EN. cbn [bind]. rewrite ET. cbn [bind s_rest open_stream]. fold (open_stream (enc_points types' pts ++ enc_entries types' es ++ r) t).
          rewrite TR. reflexivity.
        * right. right. rewrite TR in E2.
          destruct (points_rejected names types' t (proj1 Ht) _ max 0 [] (mo_new SM) [] _ l1 e l2 hist_ok_nil (repr_new pos) E2)
            as (pts' & es' & r' & EB & HW' & He' & RJ & G').
          exists names, types', pts', es', r'. split; [exact Hn|]. split; [exact Ht|]. split; [exact HW'|]. split; [exact He'|].
          split; [|split; [exact (proj1 RJ)|split; [exact (proj1 (proj2 RJ))|split; [exact (proj2 (proj2 RJ))|]]]].
          -- rewrite Hbs. unfold enc_header. rewrite <- app_assoc, EB. reflexivity.
          -- apply grow_same with (1 := G2) (2 := G').
      + exfalso. cbn [mo_state mo_new abs_map] in E, TR. rewrite E in TR. exact (NU k TR).
    - (* header cut *)
      assert (D : read_points_d (S (S (length (s_rest (dead t))))) ok SM max 0 names [] (mo_new SM) (dead t) = Ok ([], [], dead t)).
      { cbn [read_points_d]. rewrite good_dead. reflexivity. }
      rewrite (R3 _ _ _ D). rewrite Hbs. apply leak_cut_count; assumption.
    - assert (D : read_points_d (S (S (length (s_rest (dead t))))) ok SM max 0 names (types' ++ [mkT (t_name ty) (t_fmt ty) (le_val part)]) (mo_new SM) (dead t) = Ok ([], [], dead t)).
      { cbn [read_points_d]. rewrite good_dead. reflexivity. }
      rewrite (R3 _ _ _ D). apply (leak_cut_size ok SM max t bs names types' ty part missing); auto.
      rewrite Hbs. unfold enc_header. rewrite <- app_assoc, Hr. reflexivity. }
  destruct (read_points (S (S (length (s_rest s2)))) ok SM max 0 names types (mo_new SM) s2) as [[ps s3]|e|k| |]; cbn [bind mret];
    eexists; exists l2, b2; (split; [reflexivity|]; split; [reflexivity|]; split; [exact G|]); intros X; apply FIN; try discriminate.
  intros k' Y. injection Y as ->. exact (X k' eq_refl).
Qed.
End T.
