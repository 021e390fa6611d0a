(** The loops of the reader, and the meaning of what they compute. *)
From Verif Require Import BaseProofs Types Stream SkipList AMap MemMapSpec MemMapProofs MemMapMore Reader FormatSpec FormatUB ReaderProofs ReaderProofs2.

Definition hist_ok (h : history) (map : amap) : Prop := am_ok h map /\ sentinel_safe h.

Lemma hist_ok_nil : hist_ok [] [].
Proof. split; [apply am_ok_nil|apply sentinel_safe_nil]. Qed.

Lemma hist_ok_step : forall h map a s map', hist_ok h map -> a <= max64 -> am_update map a s = Ok map' ->
  hist_ok (h ++ [(a, s)]) map'.
Proof.
  intros h map a s map' [H1 H2] Ha E. pose proof (am_ok_step h map a s H1 Ha) as H. rewrite E in H.
  split; [exact H|]. apply sentinel_safe_snoc. split; [exact H2|]. pose proof (ao_sent _ _ H). lia.
Qed.

Lemma records_app : forall a b, records (a ++ b) = records a ++ records b.
Proof. induction a as [|[] a IH]; intro b; cbn [app records]; rewrite ?IH; reflexivity. Qed.

Lemma enc_points_app : forall types a b, enc_points types (a ++ b) = enc_points types a ++ enc_points types b.
Proof. intros. unfold enc_points. rewrite map_app, concat_app. reflexivity. Qed.

Lemma entry_len : forall types e, (0 < length (enc_entry types e))%nat.
Proof. intros types []; cbn [enc_entry length]; lia. Qed.

(** Resolve a point from the accumulated data. *)
Definition point_acc (i : N) (acc : pacc) : point (option N) :=
  mkP i (a_stmt acc) (a_sizes acc) (a_vars acc) (a_aux acc).

Section Loops.
Variable ok : alloc.
Variable names : list name.
Variable types : list tdesc.
Variable t : tail_kind.
Hypothesis HT : Forall type_wf types.

Notation ewf := (entry_wf ok names types).

Lemma step_hist : forall h map acc e map' acc', hist_ok h map -> ewf e -> step types map acc e = Ok (map', acc') ->
  hist_ok (h ++ records [e]) map'.
Proof.
  intros h map acc e map' acc' Hh He E. destruct e as [id|nm ty data|a s|a]; cbn [step records] in *; rewrite ?app_nil_r.
  - inversion E; subst; assumption.
  - destruct (nthN types ty); inversion E; subst; assumption.
  - apply bind_ok in E. destruct E as (m & E & E'). inversion E'; subst. eapply hist_ok_step; eauto.
    apply le_max64. apply He.
  - inversion E; subst; assumption.
Qed.

Lemma steps_hist : forall es h map acc map' acc', hist_ok h map -> Forall ewf es ->
  steps types map acc es = Ok (map', acc') -> hist_ok (h ++ records es) map'.
Proof.
  induction es as [|e es IH]; intros h map acc map' acc' Hh HF E.
  - cbn [steps records] in *. inversion E; subst. rewrite app_nil_r. exact Hh.
  - cbn [steps] in E. apply bind_ok in E. destruct E as ([m c] & E1 & E2). inversion HF; subst.
    change (e :: es) with ([e] ++ es). rewrite records_app, app_assoc.
    eapply IH; eauto. eapply step_hist; eauto.
Qed.

Lemma step_ub : forall h map acc e, hist_ok h map -> ewf e ->
  (exists m c, step types map acc e = Ok (m, c)) \/
  (step types map acc e = UB UBadFree /\ e = EBuf (2 ^ 64 - 1) 0 /\ (sentinel_allocs h <= sentinel_frees h)%nat).
Proof.
  intros h map acc e [Hh _] He. destruct e as [id|nm ty data|a s|a]; cbn [step]; eauto.
  - destruct He as (_ & _ & _ & d & -> & _). eauto.
  - destruct (am_update_ok_or_ub map a s) as [[m ->]|[k E]]; cbn [bind]; eauto.
    destruct (am_update_ub h map a s k Hh (le_max64 _ (proj1 He)) E) as (-> & -> & -> & Hle). rewrite E. right. auto.
Qed.

Lemma steps_total : forall es h map acc, hist_ok h map -> Forall ewf es -> sentinel_safe (h ++ records es) ->
  exists map' acc', steps types map acc es = Ok (map', acc').
Proof.
  induction es as [|e es IH]; intros h map acc Hh HF HS.
  - do 2 eexists; reflexivity.
  - inversion HF; subst. cbn [steps].
    change (e :: es) with ([e] ++ es) in HS. rewrite records_app, app_assoc in HS.
    destruct (step_ub h map acc e Hh H1) as [(m & c & E)|(E & -> & Hle)].
    + rewrite E. cbn [bind]. eapply IH; eauto. eapply step_hist; eauto.
    + exfalso. specialize (HS (h ++ [(2 ^ 64 - 1, 0)]) (records es) eq_refl).
      unfold sentinel_allocs, sentinel_frees in *. rewrite !filter_len_snoc in HS. cbn [fst snd] in HS.
      rewrite !N.eqb_refl in HS. cbn [andb negb] in HS. lia.
Qed.

Lemma read_entries_enc : forall es f (map : amap) acc map' acc' r, Forall ewf es ->
  steps types map acc es = Ok (map', acc') ->
  read_entries (length es + f) ok abs_map names types map acc (open_stream (enc_entries types es ++ r) t) =
  read_entries f ok abs_map names types map' acc' (open_stream r t).
Proof.
  induction es as [|e es IH]; intros f map acc map' acc' r HF E.
  - cbn [steps] in E. inversion E; subst. reflexivity.
  - cbn [steps] in E. apply bind_ok in E. destruct E as ([m c] & E1 & E2). inversion HF; subst.
    cbn [length Nat.add read_entries]. unfold enc_entries. cbn [List.map concat]. rewrite <- app_assoc.
    rewrite read_entry_enc by assumption. rewrite E1. cbn [bind]. apply IH; auto.
Qed.

Definition entries_end (h : history) (map' : amap) (acc' : pacc) (r : list byte)
  (o : outcome (pacc * amap * istream)) : Prop :=
  (r = [] /\ o = Ok (acc', map', dead t)) \/
  (exists q, r = x00 :: q /\ o = Ok (acc', map', open_stream q t)) \/
  (exists e, o = Throw e) \/
  (exists k, o = UB k /\ ub_entry ok names types h r k).

Lemma read_entries_cases : forall f h (map : amap) acc bs, hist_ok h map -> (S (length bs) < f)%nat ->
  exists es r map' acc', bs = enc_entries types es ++ r /\ Forall ewf es /\
    steps types map acc es = Ok (map', acc') /\ hist_ok (h ++ records es) map' /\
    entries_end (h ++ records es) map' acc' r (read_entries f ok abs_map names types map acc (open_stream bs t)).
Proof.
  induction f as [|f IH]; intros h map acc bs Hh HF; [lia|]. cbn [read_entries].
  destruct (read_entry_cases ok names types t h map acc bs (proj1 Hh) HT) as [(e & r & -> & He)|Hstop].
  - rewrite read_entry_enc by assumption.
    destruct (step_ub h map acc e Hh He) as [(m & c & E)|(E & -> & Hle)]; rewrite E; cbn [bind].
    + pose proof (entry_len types e) as HL. rewrite app_length in HF.
      destruct (IH (h ++ records [e]) m c r (step_hist _ _ _ _ _ _ Hh He E) ltac:(lia))
        as (es & q & m' & c' & -> & HW & HS & Hh' & HE).
      exists (e :: es), q, m', c'. rewrite <- app_assoc, <- records_app in Hh', HE. cbn [app] in Hh', HE.
      conj_split; auto.
      * unfold enc_entries. cbn [List.map concat]. rewrite <- app_assoc. reflexivity.
      * cbn [steps]. rewrite E. exact HS.
    + exists [], (enc_entry types (EBuf (2 ^ 64 - 1) 0) ++ r), map, acc. cbn [records steps]. rewrite app_nil_r.
      conj_split; auto. right. right. right. exists UBadFree. split; [reflexivity|].
      apply (ub_sentinel ok names types h _ (le_bytes 8 0 ++ r)); auto.
      rewrite takeN_app by reflexivity. reflexivity.
  - exists [], bs, map, acc. cbn [records steps]. rewrite app_nil_r. conj_split; auto.
    unfold entries_end.
    destruct Hstop as [(-> & ->)|[(r & -> & ->)|[(Hne & a & m & ->)|[(e & ->)|(k & -> & Hk)]]]]; cbn [bind]; eauto 6.
    destruct f as [|f]; [destruct bs; [congruence|cbn [length] in HF; lia]|].
    cbn [read_entries]. rewrite read_entry_dead. cbn [bind]. eauto 6.
Qed.

Lemma read_point_cases : forall i h (map : amap) bs, hist_ok h map ->
  exists es r map' acc', bs = enc_entries types es ++ r /\ Forall ewf es /\
    steps types map pacc0 es = Ok (map', acc') /\ hist_ok (h ++ records es) map' /\
    ((r = [] /\ read_point ok abs_map i names types map (open_stream bs t) = Ok (point_acc i acc', map', dead t)) \/
     (exists q, r = x00 :: q /\ read_point ok abs_map i names types map (open_stream bs t) = Ok (point_acc i acc', map', open_stream q t)) \/
     (exists e, read_point ok abs_map i names types map (open_stream bs t) = Throw e) \/
     (exists k, read_point ok abs_map i names types map (open_stream bs t) = UB k /\ ub_entry ok names types (h ++ records es) r k)).
Proof.
  intros i h map bs Hh. unfold read_point. cbn [s_rest open_stream]. fold (open_stream bs t).
  destruct (read_entries_cases (S (S (length bs))) h map pacc0 bs Hh ltac:(lia)) as (es & r & m & c & -> & HW & HS & Hh' & HE).
  exists es, r, m, c. conj_split; auto.
  destruct HE as [(-> & E)|[(q & -> & E)|[(e & E)|(k & E & Hk)]]]; cbn [mo_state abs_map] in E |- *; rewrite E; cbn [bind]; unfold point_acc; eauto 6.
Qed.

Lemma enc_entries_len : forall es, (length es <= length (enc_entries types es))%nat.
Proof.
  induction es as [|e es IH]; [cbn; lia|]. unfold enc_entries in *. cbn [List.map concat length]. rewrite app_length.
  pose proof (entry_len types e). lia.
Qed.

Lemma read_point_steps : forall i (map : amap) es map' acc' r, Forall ewf es ->
  steps types map pacc0 es = Ok (map', acc') ->
  exists f, (S (length r) < f)%nat /\
  read_point ok abs_map i names types map (open_stream (enc_entries types es ++ r) t) =
  ('(acc, m, s) <- read_entries f ok abs_map names types map' acc' (open_stream r t) ;; Ok (point_acc i acc, m, s)).
Proof.
  intros i map es map' acc' r HW HS. unfold read_point. cbn [s_rest open_stream].
  rewrite app_length. pose proof (enc_entries_len es) as HL.
  fold (open_stream (enc_entries types es ++ r) t).
  remember (S (S (length (enc_entries types es) + length r))) as n eqn:En.
  exists (n - length es)%nat. split; [lia|].
  pose proof (read_entries_enc es (n - length es) map pacc0 map' acc' r HW HS) as HE.
  replace (length es + (n - length es))%nat with n in HE by lia.
  rewrite HE. reflexivity.
Qed.

Lemma read_point_enc : forall i (map : amap) es map' acc' r, Forall ewf es ->
  steps types map pacc0 es = Ok (map', acc') ->
  read_point ok abs_map i names types map (open_stream (enc_point types es ++ r) t) =
  Ok (point_acc i acc', map', open_stream r t).
Proof.
  intros i map es map' acc' r HW HS. unfold enc_point. rewrite <- app_assoc. cbn [app].
  destruct (read_point_steps i map es map' acc' (x00 :: r) HW HS) as (f & Hf & ->).
  destruct f; [lia|]. cbn [read_entries]. unfold read_entry at 1. rewrite read_tag. reflexivity.
Qed.

(** ** Points *)

Fixpoint psteps (i : N) (map : amap) (pts : list (list entry)) : outcome (amap * list (point (option N))) :=
  match pts with
  | [] => Ok (map, [])
  | es :: r =>
      '(map', acc) <- steps types map pacc0 es ;;
      '(map'', ps) <- psteps (i + 1) map' r ;;
      Ok (map'', point_acc i acc :: ps)
  end.

Lemma psteps_hist : forall pts i h map map' ps, hist_ok h map -> Forall (Forall ewf) pts ->
  psteps i map pts = Ok (map', ps) -> hist_ok (h ++ records (concat pts)) map' /\ length ps = length pts.
Proof.
  induction pts as [|es pts IH]; intros i h map map' ps Hh HF E; cbn [psteps concat] in *.
  - inversion E; subst. cbn [records]. rewrite app_nil_r. auto.
  - apply bind_ok in E. destruct E as ([m c] & E1 & E2). apply bind_ok in E2. destruct E2 as ([m2 qs] & E2 & E3).
    inversion E3; subst. inversion HF; subst. rewrite records_app, app_assoc.
    destruct (IH (i + 1) (h ++ records es) m map' qs) as [H5 H6]; auto.
    + eapply steps_hist; eauto.
    + cbn [length]. auto.
Qed.

Lemma psteps_total : forall pts i h map, hist_ok h map -> Forall (Forall ewf) pts ->
  sentinel_safe (h ++ records (concat pts)) -> exists map' ps, psteps i map pts = Ok (map', ps).
Proof.
  induction pts as [|es pts IH]; intros i h map Hh HF HS; cbn [psteps concat] in *; [eauto|].
  inversion HF; subst. rewrite records_app, app_assoc in HS.
  assert (HS1 : sentinel_safe (h ++ records es)).
  { intros pre post E. apply (HS pre (post ++ records (concat pts))). rewrite app_assoc, <- E. reflexivity. }
  destruct (steps_total es h map pacc0 Hh H1 HS1) as (m & c & E). rewrite E. cbn [bind].
  destruct (IH (i + 1) (h ++ records es) m) as (m' & ps & E'); auto.
  { eapply steps_hist; eauto. }
  rewrite E'. cbn [bind]. eauto.
Qed.

Lemma read_points_dead : forall f max i (map : amap),
  read_points f ok abs_map max i names types map (dead t) = Ok ([], dead t).
Proof. intros. destruct f; cbn [read_points]; rewrite good_dead; reflexivity. Qed.

Lemma read_points_enc : forall pts f max i (map : amap) map' ps r, Forall (Forall ewf) pts ->
  psteps i map pts = Ok (map', ps) -> (max = 0 \/ i + lenN pts <= max) ->
  read_points (length pts + f) ok abs_map max i names types map (open_stream (enc_points types pts ++ r) t) =
  ('(qs, s) <- read_points f ok abs_map max (i + lenN pts) names types map' (open_stream r t) ;; Ok (ps ++ qs, s)).
Proof.
  induction pts as [|es pts IH]; intros f max i map map' ps r HF E Hmax.
  - cbn [psteps length Nat.add enc_points concat List.map app] in *. inversion E; subst. rewrite lenN_nil, N.add_0_r.
    destruct (read_points f ok abs_map max i names types map' (open_stream r t)) as [[]| | | |]; reflexivity.
  - cbn [psteps] in E. apply bind_ok in E. destruct E as ([m c] & E1 & E2). apply bind_ok in E2. destruct E2 as ([m2 qs] & E2 & E3).
    inversion E3; subst. inversion HF; subst. rewrite lenN_cons in *.
    cbn [length Nat.add read_points]. rewrite good_open.
    replace (true && ((i <? max) || (max =? 0))) with true.
    2:{ destruct Hmax as [->|Hm]; [rewrite orb_true_r; reflexivity|].
        destruct (N.ltb_spec i max); [reflexivity|lia]. }
    unfold enc_points. cbn [List.map concat]. rewrite <- app_assoc. fold (enc_points types pts).
    rewrite read_point_enc with (map' := m) (acc' := c) by assumption. cbn [bind].
    rewrite IH with (map' := map') (ps := qs); auto; [|lia].
    replace (i + N.succ (lenN pts)) with (i + 1 + lenN pts) by lia.
    destruct (read_points f ok abs_map max (i + 1 + lenN pts) names types map' (open_stream r t)) as [[]| | | |]; cbn [bind]; rewrite ?good_open; reflexivity.
Qed.

Definition points_end (max i : N) (h : history) (map' : amap) (pts : list (list entry)) (ps : list (point (option N)))
  (rest : list byte) (o : outcome (list (point (option N)) * istream)) : Prop :=
  (max <> 0 /\ i + lenN pts = max /\ o = Ok (ps, open_stream rest t)) \/
  ((max = 0 \/ i + lenN pts < max) /\
   exists es r, rest = enc_entries types es ++ r /\ Forall ewf es /\
     sentinel_safe (h ++ records (concat pts ++ es)) /\
     ((r = [] /\ o = Ok (ps, dead t)) \/ (exists e, o = Throw e) \/
      (exists k, o = UB k /\ ub_entry ok names types (h ++ records (concat pts ++ es)) r k))).

Lemma read_points_cases : forall f max i h (map : amap) bs, hist_ok h map -> (S (length bs) < f)%nat ->
  max = 0 \/ i <= max ->
  exists pts rest map' ps, bs = enc_points types pts ++ rest /\ Forall (Forall ewf) pts /\
    psteps i map pts = Ok (map', ps) /\ hist_ok (h ++ records (concat pts)) map' /\
    points_end max i h map' pts ps rest (read_points f ok abs_map max i names types map (open_stream bs t)).
Proof.
  induction f as [|f IH]; intros max i h map bs Hh HF Hi; [lia|]. cbn [read_points]. rewrite good_open. cbn [andb].
  destruct ((i <? max) || (max =? 0)) eqn:Em.
  2:{ apply orb_false_iff in Em. destruct Em as [E1 E2]. apply N.ltb_ge in E1. apply N.eqb_neq in E2.
      exists [], bs, map, []. cbn [concat records psteps enc_points List.map app]. rewrite app_nil_r. conj_split; auto.
      left. rewrite lenN_nil. conj_split; auto. lia. }
  assert (Hlt : max = 0 \/ i < max).
  { apply orb_true_iff in Em. destruct Em as [E|E]; [right; apply N.ltb_lt; exact E|left; apply N.eqb_eq; exact E]. }
  destruct (read_point_cases i h map bs Hh) as (es & r & m & c & -> & HW & HS & Hh' & HE).
  destruct HE as [(-> & E)|[(q & -> & E)|[(e & E)|(k & E & Hk)]]]; cbn [mo_state abs_map] in E |- *; rewrite E; cbn [bind].
  - (* end of file *)
    exists [], (enc_entries types es ++ []), map, []. cbn [concat records psteps enc_points List.map app]. rewrite !app_nil_r.
    conj_split; auto. right. rewrite lenN_nil. split; [rewrite N.add_0_r; exact Hlt|].
    exists es, []. conj_split; auto.
    + rewrite app_nil_r; reflexivity.
    + exact (proj2 Hh').
    + left. split; [reflexivity|]. pose proof (read_points_dead f max (i + 1) m) as RD. cbn [mo_state abs_map] in RD. rewrite RD.
      cbn [bind]. rewrite good_dead. reflexivity.
  - (* a complete point *)
    rewrite app_length in HF. cbn [length] in HF.
    destruct (IH max (i + 1) (h ++ records es) m q Hh' ltac:(lia) ltac:(lia)) as (pts & rest & m' & ps & -> & HWs & HP & Hh2 & HE).
    exists (es :: pts), rest, m', (point_acc i c :: ps). cbn [concat]. rewrite records_app, app_assoc. conj_split; auto.
    + unfold enc_points. cbn [List.map concat]. unfold enc_point at 2. rewrite <- !app_assoc. reflexivity.
    + cbn [psteps]. rewrite HS. cbn [bind]. rewrite HP. reflexivity.
    + unfold points_end in *. rewrite lenN_cons. destruct HE as [(Hm & Hl & E')|(Hm & es' & r' & -> & HW' & HSS & HE)].
      * left. conj_split; auto; [lia|]. cbn [mo_state abs_map] in E'. rewrite E'. cbn [bind]. rewrite good_open. reflexivity.
      * right. split; [destruct Hm; [auto|right; lia]|]. exists es', r'.
        rewrite <- app_assoc, <- records_app in HSS, HE. cbn [concat]. rewrite <- app_assoc.
        conj_split; auto.
        destruct HE as [(-> & E')|[(e & E')|(k & E' & Hk)]]; cbn [mo_state abs_map] in E'; rewrite E'; cbn [bind]; rewrite ?good_open; eauto 6.
  - exists [], (enc_entries types es ++ r), map, []. cbn [concat records psteps enc_points List.map app]. rewrite app_nil_r.
    conj_split; auto. right. rewrite lenN_nil. split; [rewrite N.add_0_r; exact Hlt|].
    exists es, r. conj_split; auto; [exact (proj2 Hh')|]. right. left. eauto.
  - exists [], (enc_entries types es ++ r), map, []. cbn [concat records psteps enc_points List.map app]. rewrite app_nil_r.
    conj_split; auto. right. rewrite lenN_nil. split; [rewrite N.add_0_r; exact Hlt|].
    exists es, r. conj_split; auto; [exact (proj2 Hh')|]. right. right. eauto.
Qed.

(** ** Meaning *)

Lemma le_val_lt64 : forall d, lenN d <= 8 -> le_val d < 2 ^ 64.
Proof.
  intros d H. eapply N.lt_le_trans; [apply le_val_bound|]. change (2 ^ 64) with (two8 ^ 8).
  apply N.pow_le_mono_r; [discriminate|exact H].
Qed.

Lemma pointer_size_compute : forall h map a, am_ok h map -> a < 2 ^ 64 ->
  pointer_size h a (if negb (am_compute map a =? max64) then am_compute map a else 0)
                   (if negb (am_compute map a =? max64) then 1 else 0).
Proof.
  intros h map a Hm Ha. destruct (N.eqb_spec a (2 ^ 64 - 1)) as [->|Hne].
  - unfold am_compute. change (2 ^ 64 - 1 =? max64) with true. cbv iota. rewrite N.eqb_refl. cbn [negb].
    apply ps_none. left. reflexivity.
  - assert (Hlt : a < 2 ^ 64 - 1) by (change (2 ^ 64 - 1) with 18446744073709551615 in *; change (2 ^ 64) with 18446744073709551616 in Ha; lia).
    pose proof (am_compute_answer h map a Hm (lt_max64 _ Hlt)) as HA.
    destruct (N.eqb_spec (am_compute map a) max64) as [E|E]; cbn [negb].
    + apply ps_none. right. split; [exact Hlt|]. rewrite E in HA. exact HA.
    + apply ps_some; auto. clear - HA E. destruct HA; change (2 ^ 64 - 1) with max64 in *; try congruence.
      pose proof (N.mod_lt (k + v) (2 ^ 64) ltac:(discriminate)). change (2 ^ 64) with 18446744073709551616 in *. unfold max64 in *. lia.
Qed.

Lemma dec_var_spec : forall h map nm ty d data, am_ok h map -> nthN types ty = Some d -> data_wf ok d data ->
  var_of types h nm ty data (dec_var map nm ty d data).
Proof.
  intros h map nm ty d data Hm Hd Hw. unfold var_of, dec_var, data_wf in *.
  destruct (t_fmt d) eqn:Ef; cbn [v_name v_type v_size v_fmt v_val v_bsz v_has].
  - conj_split; auto. exists d. rewrite Ef. conj_split; auto; try (intro; discriminate); reflexivity.
  - conj_split; auto. exists d. rewrite Ef. conj_split; auto; try (intro; discriminate).
    destruct Hw as [Hl Hs]. cbn [value_of]. eexists. split; [reflexivity|].
    apply sign_extend_spec; rewrite Hl; destruct Hs as [<-|[<-|[<-|[<-|[]]]]]; lia.
  - conj_split; auto. exists d. rewrite Ef. conj_split; auto; try (intro; discriminate); reflexivity.
  - destruct Hw as [Hl Hs].
    pose proof (pointer_size_compute h map (le_val data) Hm (le_val_lt64 data ltac:(lia))) as HP.
    destruct (negb (am_compute map (le_val data) =? max64)); cbn [v_name v_type v_size v_fmt v_val v_bsz v_has];
      (conj_split; auto; exists d; rewrite Ef; conj_split; auto; try reflexivity; congruence).
  - conj_split; auto. exists d. rewrite Ef. conj_split; auto; try (intro; discriminate); reflexivity.
  - destruct Hw.
Qed.

Lemma steps_meaning : forall es h map acc map' acc', hist_ok h map -> Forall ewf es ->
  steps types map acc es = Ok (map', acc') ->
  a_stmt acc' = (match stmt_of es with Some x => Some x | None => a_stmt acc end) /\
  a_sizes acc' = a_sizes acc ++ List.map (fun r => mkB (fst r) (snd r)) (records es) /\
  a_aux acc' = a_aux acc ++ aux_of es /\
  exists vs, a_vars acc' = a_vars acc ++ vs /\ vars_of types h es vs.
Proof.
  induction es as [|e es IH]; intros h map acc map' acc' Hh HF E.
  - cbn [steps stmt_of records aux_of List.map] in *. inversion E; subst. rewrite !app_nil_r. conj_split; auto.
    exists []. rewrite app_nil_r. split; [reflexivity|constructor].
  - cbn [steps] in E. apply bind_ok in E. destruct E as ([m c] & E1 & E2). inversion HF; subst.
    pose proof (step_hist h map acc e m c Hh H1 E1) as Hh'.
    destruct (IH _ m c map' acc' Hh' H2 E2) as (I1 & I2 & I3 & vs & I4 & I5).
    rewrite I1, I2, I3. clear I1 I2 I3 E2.
    destruct e as [id|nm ty data|a s|a]; cbn [step records] in *; rewrite ?app_nil_r in I5.
    + inversion E1; subst. cbn [a_stmt a_sizes a_aux a_vars stmt_of aux_of] in *. conj_split; auto.
      * destruct (stmt_of es); reflexivity.
      * exists vs. split; [exact I4|]. constructor. exact I5.
    + destruct H1 as (W1 & W2 & W3 & d & Hd & Hw). rewrite Hd in E1. inversion E1; subst.
      cbn [a_stmt a_sizes a_aux a_vars stmt_of aux_of] in *. conj_split; auto.
      * destruct (stmt_of es); reflexivity.
      * exists (dec_var m nm ty d data :: vs). split.
        -- rewrite I4, <- app_assoc. reflexivity.
        -- constructor; [|exact I5]. apply dec_var_spec; auto. exact (proj1 Hh).
    + apply bind_ok in E1. destruct E1 as (m2 & E1 & E3). inversion E3; subst.
      cbn [a_stmt a_sizes a_aux a_vars stmt_of aux_of List.map fst snd] in *. conj_split; auto.
      * destruct (stmt_of es); reflexivity.
      * rewrite <- app_assoc. reflexivity.
      * exists vs. split; [exact I4|]. constructor. exact I5.
    + inversion E1; subst. cbn [a_stmt a_sizes a_aux a_vars stmt_of aux_of] in *. conj_split; auto.
      * destruct (stmt_of es); reflexivity.
      * rewrite <- app_assoc. reflexivity.
      * exists vs. split; [exact I4|]. constructor. exact I5.
Qed.

Lemma psteps_meaning : forall pts i h map map' ps, hist_ok h map -> Forall (Forall ewf) pts ->
  psteps i map pts = Ok (map', ps) -> points_of types i h pts ps.
Proof.
  induction pts as [|es pts IH]; intros i h map map' ps Hh HF E; cbn [psteps] in *.
  - inversion E; subst. constructor.
  - apply bind_ok in E. destruct E as ([m c] & E1 & E2). apply bind_ok in E2. destruct E2 as ([m2 qs] & E2 & E3).
    inversion E3; subst. inversion HF; subst.
    destruct (steps_meaning es h map pacc0 m c Hh H1 E1) as (I1 & I2 & I3 & vs & I4 & I5).
    constructor.
    + unfold point_of, point_acc. cbn [p_counter p_stmt p_sizes p_vars p_aux].
      rewrite I1, I2, I3, I4. cbn [pacc0 a_stmt a_sizes a_aux a_vars app]. conj_split; auto.
      destruct (stmt_of es); reflexivity.
    + eapply IH; eauto. eapply steps_hist; eauto.
Qed.
End Loops.
