(** Lemmas behind the reader properties. *)
From Verif Require Import BaseProofs Types Stream SkipList AMap MemMapSpec MemMapProofs MemMapMore Reader Writer FormatSpec FormatUB CanonSpec ReaderProofs ReaderProofs2 ReaderProofs3 ReaderMore.

Lemma app_inv_len : forall A (a c b d : list A), a ++ b = c ++ d -> length a = length c -> a = c /\ b = d.
Proof.
  induction a as [|x a IH]; intros [|y c] b d E H; try discriminate; [auto|].
  cbn in *. inversion E; subst. destruct (IH c b d H2 ltac:(lia)); subst; auto.
Qed.

Lemma pow_two8 : forall n, two8 ^ n = 2 ^ (8 * n).
Proof. intro n. rewrite N.pow_mul_r. reflexivity. Qed.

Lemma s64_mod : forall u n, u < 2 ^ 64 -> In n [1; 2; 4; 8] ->
  (- 2 ^ (8 * Z.of_N n - 1) <= s64 u < 2 ^ (8 * Z.of_N n - 1))%Z ->
  signed_val (le_bytes (N.to_nat n) u) = s64 u.
Proof.
  intros u n Hu Hn. unfold signed_val. rewrite le_val_le_bytes, lenN_le_bytes, N2Nat.id, pow_two8.
  unfold s64. change (2 ^ 64) with 18446744073709551616 in Hu. unfold two63, two64.
  destruct Hn as [<-|[<-|[<-|[<-|[]]]]];
  match goal with |- context [N.modulo u ?e] => let e' := eval vm_compute in e in change e with e' end;
  repeat match goal with |- context [Z.pow 2 ?e] => let e' := eval vm_compute in (Z.pow 2 e) in change (Z.pow 2 e) with e' end;
  (destruct (N.ltb_spec u 9223372036854775808); intro HB;
   match goal with |- context [Z.ltb ?x ?y] => destruct (Z.ltb_spec x y) end; lia).
Qed.

Section P.
Variables (ok : alloc) (coins : nat -> bool) (pos : nat) (t : tail_kind).
Notation read max bs := (read_trace ok (skip_map coins pos) max (open_stream bs t)).

Lemma read_iff : forall max bs tr, read max bs = Ok tr <-> accepted ok max bs tr.
Proof.
  intros. rewrite read_trace_transfer. split; [|apply accepted_read].
  intro E. destruct (read_trace_cases ok max bs t) as [(tr' & E' & HA)|[(e & E')|(k & E' & _)]]; rewrite E in E'; try discriminate.
  inversion E'; subst. exact HA.
Qed.

Lemma ub_iff : forall max bs k, read max bs = UB k <-> ub_file ok max bs k.
Proof.
  intros. rewrite read_trace_transfer. split; [|apply ub_file_read].
  intro E. destruct (read_trace_cases ok max bs t) as [(tr' & E' & HA)|[(e & E')|(k' & E' & H)]]; rewrite E in E'; try discriminate.
  inversion E'; subst. exact H.
Qed.

Lemma read_total : forall max bs, read max bs <> Abort /\ read max bs <> Diverge.
Proof.
  intros. rewrite read_trace_transfer.
  destruct (read_trace_cases ok max bs t) as [(tr' & E' & HA)|[(e & E')|(k' & E' & H)]]; rewrite E'; split; discriminate.
Qed.

Lemma denotes_ex : forall F, file_wf ok F -> exists tr, denotes F tr.
Proof.
  intros F (Hn & Ht & Hpts & HSS).
  destruct (psteps_total ok (f_names F) (f_types F) (f_points F) 0 [] [] hist_ok_nil Hpts HSS) as (m & ps & HP).
  exists (mkTr (f_names F) (f_types F) ps). split; [reflexivity|]. split; [reflexivity|].
  eapply psteps_meaning; eauto. apply hist_ok_nil.
Qed.

Lemma complete_lemma : forall F, file_wf ok F ->
  exists tr, read 0 (enc_file F) = Ok tr /\ denotes F tr /\ (forall tr', denotes F tr' -> tr' = tr).
Proof.
  intros F HF. destruct (denotes_ex F HF) as (tr & HD). exists tr. conj_split; auto.
  - apply read_iff. apply (acc_all ok 0 _ tr F []); auto.
    + rewrite app_nil_r. apply HF.
    + cbn. rewrite app_nil_r. reflexivity.
  - intros tr' HD'. eapply denotes_fun; eauto.
Qed.

(** ** Truncation *)

Lemma read_ext_prefix : forall max F r tr tr', file_wf ok F -> denotes F tr' -> (max = 0 \/ lenN (f_points F) <= max) ->
  read max (enc_file F ++ r) = Ok tr ->
  tr_names tr = tr_names tr' /\ tr_types tr = tr_types tr' /\ exists more, tr_points tr = tr_points tr' ++ more.
Proof.
  intros max F r tr tr' (Hn & Ht & Hpts & HSS) HD Hm E. rewrite read_trace_transfer in E.
  unfold enc_file in E. rewrite <- app_assoc, read_header in E by assumption.
  destruct (psteps_total ok (f_names F) (f_types F) (f_points F) 0 [] [] hist_ok_nil Hpts HSS) as (m & ps & HP).
  destruct (read_points_prefix ok (f_names F) (f_types F) t (f_points F) max [] m ps r 0 Hpts HP ltac:(lia)) as (f & Hf & HE).
  rewrite HE in E. apply bind_ok in E. destruct E as ([qs s] & E & E2). apply bind_ok in E. destruct E as ([qs2 s2] & E3 & E4).
  inversion E4; subst. inversion E2; subst. cbn [tr_names tr_types tr_points].
  assert (HD' : denotes F (mkTr (f_names F) (f_types F) ps)).
  { split; [reflexivity|]. split; [reflexivity|]. eapply psteps_meaning; eauto. apply hist_ok_nil. }
  rewrite (denotes_fun _ _ _ HD HD'). cbn. conj_split; auto. eauto.
Qed.

Lemma ub_names_ext : forall bs q k, ub_names ok bs k -> ub_names ok (bs ++ q) k \/
  (k = UUninit /\ exists n r, bs = le_bytes 8 n ++ r /\ lenN r < n).
Proof.
  intros bs q k (n & r & -> & Hp & Hn & Ho & [(Hs & ->)|(p & b & z & -> & Hl & Hb & ->)]).
  - right. split; [reflexivity|]. exists n, r. auto.
  - left. exists n, ((p ++ [b] ++ z) ++ q). rewrite <- app_assoc. conj_split; auto. right. exists p, b, (z ++ q).
    rewrite <- !app_assoc. auto.
Qed.

Lemma ub_entry_ext : forall names types h bs q k, ub_entry ok names types h bs k ->
  ub_entry ok names types h (bs ++ q) k \/
  (k = UBadFree /\ exists r, bs = x03 :: le_bytes 8 (2 ^ 64 - 1) ++ r /\ lenN r < 8).
Proof.
  intros names types h bs q k [nm ty d r Hbs Hn Hn' Hty Hd Hf Hs Hl|nm ty d r size r' Hbs Hn Hn' Hty Hd Hf Hc Hz Ho Hr|r Hbs Hz Hs]; subst bs.
  - left. apply (ub_wide ok names types h _ nm ty d (r ++ q)); auto.
    rewrite lenN_app. lia.
  - left. apply (ub_null ok names types h _ nm ty d (r ++ q) size (r' ++ q)); auto.
    + destruct Hc as [(H1 & H2 & ->)|(H1 & H2 & ->)]; [left; auto|right; rewrite <- app_assoc; auto].
    + destruct r'; [congruence|discriminate].
  - destruct (N.le_gt_cases 8 (lenN r)) as [H8|H8].
    + left. apply (ub_sentinel ok names types h _ (r ++ q)); auto.
      rewrite takeN_firstn in *. rewrite firstn_app. unfold lenN in H8.
        replace (N.to_nat 8 - length r)%nat with O by lia. rewrite firstn_O, app_nil_r. exact Hz.
    + right. split; [reflexivity|]. eauto.
Qed.

(** The file stops within the characters of its name dictionary. *)
Definition cut_in_names (bs : list byte) : Prop := exists n r, bs = le_bytes 8 n ++ r /\ lenN r < n.
(** The file stops within the size of a buffer record of the address 2^64-1. *)
Definition cut_in_sentinel_record (bs : list byte) : Prop :=
  exists p r, bs = p ++ x03 :: le_bytes 8 (2 ^ 64 - 1) ++ r /\ lenN r < 8.

Lemma truncation_lemma : forall max p q tr, read max (p ++ q) = Ok tr ->
  match read max p with
  | Ok tr' => tr_names tr' = tr_names tr /\ (exists more, tr_points tr = tr_points tr' ++ more) /\
              (tr_types tr' = tr_types tr \/ tr_points tr' = [])
  | Throw _ => True
  | UB k => k = UUninit /\ cut_in_names p \/ k = UBadFree /\ cut_in_sentinel_record p
  | _ => False
  end.
Proof.
  intros max p q tr E. destruct (read max p) as [tr'|e|k| |] eqn:Ep; auto.
  - apply read_iff in Ep.
    destruct Ep as [F es Hwf He HS Hbs Hm HD|F rest Hwf Hmax Hlen Hbs HD|names k Hn Hk Hbs Htr|names types ty part missing Hn Ht Hp Hne Hbs Htr].
    + subst p. rewrite <- app_assoc in E.
      destruct (read_ext_prefix max F _ tr tr' Hwf HD ltac:(destruct Hm; [auto|right; lia]) E) as (H1 & H2 & more & H3). eauto 6.
    + subst p. rewrite <- app_assoc in E.
      destruct (read_ext_prefix max F _ tr tr' Hwf HD ltac:(right; lia) E) as (H1 & H2 & more & H3). eauto 6.
    + subst. cbn [tr_names tr_points tr_types]. rewrite read_trace_transfer in E. unfold read_trace in E. rewrite <- app_assoc, read_names_enc in E by assumption.
      cbn [bind] in E. apply bind_ok in E. destruct E as ([ts s] & _ & E). apply bind_ok in E. destruct E as ([ps s2] & _ & E). inversion E; subst. cbn. eauto.
    + subst tr'. cbn [tr_names tr_points tr_types]. rewrite read_trace_transfer in E.
      assert (Hb : exists z, p = enc_names names ++ z).
      { unfold enc_header in Hbs. rewrite <- app_nil_r in Hbs at 1. 
        unfold enc_types in Hbs. rewrite map_app, concat_app in Hbs. cbn [map concat] in Hbs. unfold enc_type at 2 in Hbs.
        rewrite <- Hp, !app_nil_r, !app_assoc in Hbs. apply app_inv_tail in Hbs. rewrite Hbs, <- !app_assoc. eauto. }
      destruct Hb as (z & ->). unfold read_trace in E. rewrite <- app_assoc, read_names_enc in E by assumption.
      cbn [bind] in E. apply bind_ok in E. destruct E as ([ts s] & _ & E). apply bind_ok in E. destruct E as ([ps s2] & _ & E). inversion E; subst. cbn. eauto.
  - apply ub_iff in Ep. destruct Ep as [HN|F es r HF He HS -> Hm HU].
    + destruct (ub_names_ext p q k HN) as [H|[H1 H2]]; [|left; auto].
      exfalso. assert (X : read max (p ++ q) = UB k) by (apply ub_iff; apply ubf_names; exact H). congruence.
    + destruct (ub_entry_ext _ _ _ r q k HU) as [H|(H1 & r' & -> & H2)].
      * exfalso. assert (X : read max ((enc_file F ++ enc_entries (f_types F) es ++ r) ++ q) = UB k).
        { apply ub_iff. apply (ubf_entry ok max _ k F es (r ++ q)); auto. rewrite <- !app_assoc. reflexivity. }
        congruence.
      * right. split; [exact H1|]. exists (enc_file F ++ enc_entries (f_types F) es), r'. rewrite <- app_assoc. auto.
  - destruct (read_total max p) as [H _]. congruence.
  - destruct (read_total max p) as [_ H]. congruence.
Qed.

(** ** max_points *)

Lemma firstn_takeN : forall A (l : list A) n, takeN n l = firstn (N.to_nat n) l.
Proof. intros. apply takeN_firstn. Qed.

Lemma records_concat_prefix : forall a b, sentinel_safe (records (concat (a ++ b))) -> sentinel_safe (records (concat a)).
Proof.
  intros a b H pre post E. apply (H pre (post ++ records (concat b))).
  rewrite concat_app, records_app, E, app_assoc. reflexivity.
Qed.

Lemma points_of_app : forall types a b i h ps, points_of types i h (a ++ b) ps ->
  exists pa pb, ps = pa ++ pb /\ points_of types i h a pa /\ points_of types (i + lenN a) (h ++ records (concat a)) b pb /\ length pa = length a.
Proof.
  intros types. induction a as [|es a IH]; intros b i h ps H.
  - exists [], ps. rewrite lenN_nil, N.add_0_r. cbn. rewrite app_nil_r. conj_split; auto. constructor.
  - cbn [app] in H. inversion H as [|? ? ? p ? qs HP HR]; subst.
    destruct (IH b (i + 1) (h ++ records es) qs HR) as (pa & pb & -> & H1 & H2 & H3).
    exists (p :: pa), pb. conj_split; auto.
    + constructor; assumption.
    + rewrite lenN_cons. cbn [concat]. rewrite records_app, app_assoc.
      replace (i + N.succ (lenN a)) with (i + 1 + lenN a) by lia. exact H2.
    + cbn. auto.
Qed.

Lemma max_lemma : forall m bs tr, m <> 0 -> read 0 bs = Ok tr ->
  read m bs = Ok (mkTr (tr_names tr) (tr_types tr) (takeN m (tr_points tr))).
Proof.
  intros m bs tr Hm E. apply read_iff in E. apply read_iff.
  destruct E as [F es Hwf He HS Hbs _ HD|F rest Hwf Hmax Hlen Hbs HD|names k Hn Hk Hbs Htr|names types ty part missing Hn Ht Hp Hne Hbs Htr].
  - destruct (N.lt_ge_cases (lenN (f_points F)) m) as [Hlt|Hge].
    + destruct HD as (D1 & D2 & D3).
      assert (Hl : length (tr_points tr) = length (f_points F)).
      { clear - D3. induction D3; cbn; auto. }
      rewrite takeN_all by (unfold lenN in *; lia).
      apply (acc_all ok m bs _ F es); auto. split; auto.
    + destruct F as [names types pts]. cbn [f_names f_types f_points] in *.
      set (a := takeN m pts). set (b := dropN m pts).
      assert (Hab : pts = a ++ b) by (symmetry; apply takeN_dropN).
      assert (Hla : lenN a = m) by (unfold a; rewrite lenN_takeN; lia).
      destruct HD as (D1 & D2 & D3). cbn [f_names f_types f_points] in *. rewrite Hab in D3.
      destruct (points_of_app types a b 0 [] _ D3) as (pa & pb & E & D4 & D5 & D6).
      apply (acc_max ok m bs _ (mkF names types a) (enc_points types b ++ enc_entries types es)); auto.
      * destruct Hwf as (W1 & W2 & W3 & W4). cbn [f_names f_types f_points] in *. split; [exact W1|]. split; [exact W2|]. cbn [f_names f_types f_points].
        rewrite Hab in W3, W4. apply Forall_app in W3. split; [tauto|]. eapply records_concat_prefix; eauto.
      * subst bs. unfold enc_file. cbn [f_names f_types f_points]. rewrite Hab, enc_points_app, <- !app_assoc. reflexivity.
      * split; [exact D1|]. split; [exact D2|]. cbn [tr_points f_types f_points]. rewrite E.
        rewrite takeN_app by (unfold lenN in *; lia). exact D4.
  - congruence.
  - subst. eapply acc_cut_count; eauto.
  - subst. eapply acc_cut_size; eauto.
Qed.

(** ** Losing points *)

Lemma entry_prefix_free : forall names types e e' r, entry_wf ok names types e -> entry_wf ok names types e' ->
  enc_entry types e' ++ r = enc_entry types e -> r = [].
Proof.
  intros names types e e' r He He' E.
  assert (HR : forall e, entry_wf ok names types e -> exists m c, step types [(max64, 1)] pacc0 e = Ok (m, c)).
  { intros x Hx. destruct x as [id|nm ty data|a s|a]; cbn [step]; eauto.
    - destruct Hx as (_ & _ & _ & d & -> & _). eauto.
    - unfold am_update. destruct (s =? 0); cbn [bind]; eauto. cbn [am_remove]. destruct Hx as [Hx _].
      apply le_max64 in Hx. destruct (max64 <? a) eqn:X; [apply N.ltb_lt in X; lia|].
      destruct (max64 =? a); cbn [bind]; eauto. }
  pose proof (read_entry_enc ok names types t [(max64, 1)] pacc0 e' r He') as H1.
  pose proof (read_entry_enc ok names types t [(max64, 1)] pacc0 e [] He) as H2.
  rewrite app_nil_r in H2. rewrite E, H2 in H1.
  destruct (HR e He) as (m & c & E1). destruct (HR e' He') as (m' & c' & E2). rewrite E1, E2 in H1. cbn [bind] in H1.
  inversion H1. reflexivity.
Qed.

Lemma cut_entry_lemma : forall F es e p q, file_wf ok F ->
  Forall (entry_wf ok (f_names F) (f_types F)) es -> entry_wf ok (f_names F) (f_types F) e ->
  sentinel_safe (records (concat (f_points F) ++ es)) ->
  enc_entry (f_types F) e = p ++ q -> p <> [] -> q <> [] ->
  forall tr, read 0 (enc_file F ++ enc_entries (f_types F) es ++ p) <> Ok tr.
Proof.
  intros F es e p q (Hn & Ht & Hpts & HSS) He Hwe HS Hpq Hp Hq tr E.
  rewrite read_trace_transfer in E. unfold enc_file in E. rewrite <- !app_assoc, read_header in E by assumption.
  destruct (psteps_total ok (f_names F) (f_types F) (f_points F) 0 [] [] hist_ok_nil Hpts HSS) as (m & ps & HP).
  destruct (psteps_hist ok (f_names F) (f_types F) (f_points F) 0 [] [] m ps hist_ok_nil Hpts HP) as [Hh _].
  destruct (read_points_prefix ok (f_names F) (f_types F) t (f_points F) 0 [] m ps (enc_entries (f_types F) es ++ p) 0 Hpts HP ltac:(lia)) as (f & Hf & HE).
  rewrite HE in E. apply bind_ok in E. destruct E as ([qs s] & E & _). apply bind_ok in E. destruct E as ([qs2 s2] & E & _).
  destruct f; [lia|]. cbn [read_points] in E. rewrite good_open in E. cbn [N.eqb andb] in E. rewrite orb_true_r in E.
  rewrite records_app in HS. cbn [app] in Hh.
  destruct (steps_total ok (f_names F) (f_types F) es _ m pacc0 Hh He HS) as (m2 & c & E1).
  pose proof (steps_hist ok (f_names F) (f_types F) es _ m pacc0 m2 c Hh He E1) as Hh2.
  destruct (read_point_steps ok (f_names F) (f_types F) t (0 + lenN (f_points F)) m es m2 c p He E1) as (f' & Hf' & HE2).
  rewrite HE2 in E. apply bind_ok in E. destruct E as ([[pt m3] s3] & E & _).
  apply bind_ok in E. destruct E as ([[c3 m4] s4] & E & _).
  destruct f' as [|f']; [lia|]. cbn [read_entries] in E.
  destruct (read_entry_cases ok (f_names F) (f_types F) t _ m2 c p (proj1 Hh2) (proj1 Ht)) as [(e' & r & -> & He')|Hstop].
  - rewrite <- app_assoc in Hpq. symmetry in Hpq. apply entry_prefix_free with (names := f_names F) in Hpq; auto.
    apply app_eq_nil in Hpq. tauto.
  - destruct Hstop as [(X & _)|[(r & X & _)|[(_ & a & m5 & X)|[(x & X)|(k & X & _)]]]].
    + congruence.
    + subst p. destruct e; cbn in Hpq; discriminate.
    + cbn [mo_state abs_map] in *. rewrite X in E. cbn [bind] in E. destruct f'; [destruct p; [congruence|cbn [length] in Hf'; lia]|].
      cbn [read_entries] in E. rewrite read_entry_dead in E. discriminate.
    + cbn [mo_state abs_map] in *. rewrite X in E. discriminate.
    + cbn [mo_state abs_map] in *. rewrite X in E. discriminate.
Qed.

Lemma cut_boundary_lemma : forall F es tr, file_wf ok F ->
  Forall (entry_wf ok (f_names F) (f_types F)) es -> sentinel_safe (records (concat (f_points F) ++ es)) ->
  denotes F tr -> read 0 (enc_file F ++ enc_entries (f_types F) es) = Ok tr.
Proof. intros F es tr HF He HS HD. apply read_iff. apply (acc_all ok 0 _ tr F es); auto. Qed.

(** ** Contents of accepted traces *)

(** The variables of a list of entries, before position of an entry. *)
Lemma vars_of_split : forall types a h nm ty data b vs,
  vars_of types h (a ++ EVar nm ty data :: b) vs ->
  exists va v vb, vs = va ++ v :: vb /\ vars_of types h a va /\ var_of types (h ++ records a) nm ty data v.
Proof.
  intros types. induction a as [|e a IH]; intros h nm ty data b vs H.
  - cbn [app] in H. inversion H; subst. exists [], v, vs0. cbn. rewrite app_nil_r. conj_split; auto. constructor.
  - cbn [app] in H. destruct e; inversion H; subst; cbn [records];
      match goal with HV : vars_of _ _ (a ++ _) _ |- _ => destruct (IH _ _ _ _ _ _ HV) as (va & w & vb & -> & H1 & H2) end.
    + exists va, w, vb. conj_split; auto. constructor; auto.
    + exists (v :: va), w, vb. conj_split; auto. constructor; auto.
    + exists va, w, vb. rewrite <- app_assoc in H2. conj_split; auto. constructor; auto.
    + exists va, w, vb. conj_split; auto. constructor; auto.
Qed.

Definition n_vars (es : list entry) : nat :=
  length (filter (fun e => match e with EVar _ _ _ => true | _ => false end) es).

Lemma vars_of_len : forall types h es vs, vars_of types h es vs -> length vs = n_vars es.
Proof. intros types h es vs H. unfold n_vars. induction H; cbn; auto. Qed.

Lemma var_lemma : forall F tr pts1 es1 nm ty data es2 pts2,
  denotes F tr -> f_points F = pts1 ++ (es1 ++ EVar nm ty data :: es2) :: pts2 ->
  exists p v, nth_error (tr_points tr) (length pts1) = Some p /\
    nth_error (p_vars p) (n_vars es1) = Some v /\
    var_of (f_types F) (records (concat pts1 ++ es1)) nm ty data v.
Proof.
  intros F tr pts1 es1 nm ty data es2 pts2 (_ & _ & D) E. rewrite E in D.
  destruct (points_of_app _ _ _ _ _ _ D) as (pa & pb & Ep & _ & D2 & Hl).
  inversion D2 as [|? ? ? p ? ps HP _]; subst. destruct HP as (_ & _ & _ & HV & _).
  destruct (vars_of_split _ _ _ _ _ _ _ _ HV) as (va & v & vb & Ev & H1 & H2).
  exists p, v. rewrite Ep, <- Hl, nth_error_app2, Nat.sub_diag by lia. conj_split; auto.
  - rewrite Ev. rewrite <- (vars_of_len _ _ _ _ H1), nth_error_app2, Nat.sub_diag by lia. reflexivity.
  - rewrite records_app. exact H2.
Qed.

Lemma accepted_denotes : forall max bs tr, accepted ok max bs tr ->
  (exists F, file_wf ok F /\ denotes F tr) \/ tr_points tr = [].
Proof. intros max bs tr [F es Hwf He HS Hbs Hm HD|F rest Hwf Hmax Hlen Hbs HD|names k Hn Hk Hbs Htr|names types ty part missing Hn Ht Hp Hne Hbs Htr]; eauto; right; subst; reflexivity. Qed.

Lemma vars_of_in : forall types h es vs v, vars_of types h es vs -> In v vs ->
  exists h' nm ty data, In (EVar nm ty data) es /\ var_of types h' nm ty data v.
Proof.
  intros types h es vs v H Hv. induction H.
  - destruct Hv.
  - destruct Hv as [->|Hv]; [exists h, nm, ty, data; split; [left; reflexivity|exact H]|].
    destruct (IHvars_of Hv) as (h' & n & ty' & d & H1 & H2). exists h', n, ty', d; split; [right; exact H1|exact H2].
  - destruct (IHvars_of Hv) as (h' & n & ty' & d & H1 & H2). exists h', n, ty', d; split; [right; exact H1|exact H2].
  - destruct (IHvars_of Hv) as (h' & n & ty' & d & H1 & H2). exists h', n, ty', d; split; [right; exact H1|exact H2].
  - destruct (IHvars_of Hv) as (h' & n & ty' & d & H1 & H2). exists h', n, ty', d; split; [right; exact H1|exact H2].
Qed.

Lemma points_of_in : forall types i h pts ps p, points_of types i h pts ps -> In p ps ->
  exists j h' es, In es pts /\ point_of types j h' es p.
Proof.
  intros types i h pts ps p H Hp. induction H; [destruct Hp|].
  destruct Hp as [->|Hp]; [exists i, h, es; split; [left; reflexivity|exact H]|].
  destruct (IHpoints_of Hp) as (j & h' & es' & H1 & H2). exists j, h', es'. split; [right; exact H1|exact H2].
Qed.

Lemma valid_lemma : forall max bs tr p v, read max bs = Ok tr -> In p (tr_points tr) -> In v (p_vars p) ->
  v_name v < lenN (tr_names tr) /\
  exists d, nthN (tr_types tr) (v_type v) = Some d /\ v_fmt v = t_fmt d /\ v_fmt v <> INVALID_FORMAT /\ v_val v <> VIndet /\
    (t_fmt d <> BLOB \/ t_size d <> 0 -> v_size v = t_size d) /\
    (forall b, v_val v = VBlob b -> lenN b = v_size v).
Proof.
  intros max bs tr p v E Hp Hv. apply read_iff in E.
  destruct (accepted_denotes _ _ _ E) as [(F & HF & HD)|E0]; [|rewrite E0 in Hp; destruct Hp].
  destruct HD as (D1 & D2 & D3). destruct (points_of_in _ _ _ _ _ _ D3 Hp) as (j & h' & es & Hes & (_ & _ & _ & HV & _)).
  destruct (vars_of_in _ _ _ _ _ HV Hv) as (h2 & nm & ty & data & Hin & (V1 & V2 & V3 & d & V4 & V5 & V6 & _)).
  destruct HF as (_ & _ & HW & _). rewrite Forall_forall in HW. specialize (HW _ Hes). rewrite Forall_forall in HW.
  specialize (HW _ Hin). destruct HW as (W1 & W2 & W3 & d' & W4 & W5). rewrite V4 in W4. inversion W4; subst d'.
  rewrite D1, D2. split; [lia|]. exists d. rewrite V2. conj_split; auto.
  - rewrite V5. destruct (t_fmt d); try discriminate. destruct V6.
  - destruct (t_fmt d); cbn [value_of] in V6; try (rewrite V6; discriminate); [destruct V6 as (? & -> & _); discriminate|destruct V6].
  - intro Hb. unfold data_wf in W5. rewrite V3.
    destruct (t_fmt d); try (destruct W5 as [W5 _]; exact W5); [|destruct W5].
    destruct W5 as [[[W5 _]|[_ W5]] _]; [|exact W5]. destruct Hb; congruence.
  - intros b Eb. rewrite V3. destruct (t_fmt d); cbn [value_of] in V6; try (rewrite V6 in Eb; congruence); [|destruct V6].
    destruct V6 as (? & V6 & _). congruence.
Qed.

Lemma types_valid_lemma : forall max bs tr, read max bs = Ok tr -> Forall (fun d => t_fmt d <> INVALID_FORMAT) (tr_types tr).
Proof.
  intros max bs tr E. apply read_iff in E.
  assert (G : forall l, types_wf ok l -> Forall (fun d => t_fmt d <> INVALID_FORMAT) l).
  { intros l (H & _). eapply Forall_impl; [|exact H]. intros d (_ & _ & X). exact X. }
  destruct E as [F es Hwf He HS Hbs Hm HD|F rest Hwf Hmax Hlen Hbs HD|names k Hn Hk Hbs Htr|names types ty part missing Hn Ht Hp Hne Hbs Htr].
  - destruct HD as (_ & -> & _). apply G. apply Hwf.
  - destruct HD as (_ & -> & _). apply G. apply Hwf.
  - subst. constructor.
  - subst. cbn. apply G in Ht. rewrite Forall_app in *. split; [tauto|]. destruct Ht as [_ Ht]. inversion Ht; subst. constructor; auto.
Qed.

Lemma stmt_lemma : forall F tr i es p, denotes F tr -> nth_error (f_points F) i = Some es ->
  nth_error (tr_points tr) i = Some p ->
  p_counter p = N.of_nat i /\
  (forall a id b, es = a ++ EStmt id :: b -> (forall x, ~ In (EStmt x) b) -> p_stmt p = Some id) /\
  ((forall x, ~ In (EStmt x) es) -> p_stmt p = None).
Proof.
  intros F tr i es p (_ & _ & D) H1 H2.
  assert (G : forall i j h pts ps, points_of (f_types F) j h pts ps -> nth_error pts i = Some es -> nth_error ps i = Some p ->
              exists h', point_of (f_types F) (j + N.of_nat i) h' es p).
  { clear. induction i as [|i IH]; intros j h pts ps HP H1 H2; inversion HP; subst; try discriminate.
    - cbn in *. inversion H1; inversion H2; subst. rewrite N.add_0_r. eauto.
    - cbn in H1, H2. destruct (IH _ _ _ _ H0 H1 H2) as (h' & X). exists h'.
      replace (j + N.of_nat (S i)) with (j + 1 + N.of_nat i) by lia. exact X. }
  destruct (G i 0 [] _ _ D H1 H2) as (h' & (C & S & _)). split; [rewrite C; lia|].
  assert (N1 : forall b, (forall x, ~ In (EStmt x) b) -> stmt_of b = None).
  { induction b as [|e b IH]; intro Hb; [reflexivity|]. cbn [stmt_of]. rewrite IH by (intros x X; apply (Hb x); right; exact X).
    destruct e; auto. exfalso. apply (Hb id). left. reflexivity. }
  split.
  - intros a id b -> Hb. rewrite S. clear - N1 Hb. assert (HS : stmt_of (EStmt id :: b) = Some id) by (cbn [stmt_of]; rewrite N1 by exact Hb; reflexivity).
    induction a as [|e a IH]; [exact HS|]. cbn [app stmt_of]. rewrite IH. reflexivity.
  - intro Hb. rewrite S. apply N1. exact Hb.
Qed.

(** ** Writing *)

Definition var_data (v : var) : list byte :=
  match v_val v with
  | VBits u => le_bytes (N.to_nat (v_size v)) u
  | VBlob bs => bs
  | VIndet => []
  end.

Definition point_entries (p : point N) : list entry :=
  EStmt (p_stmt p) :: map (fun b => EBuf (b_addr b) (b_size b)) (p_sizes p) ++
  map (fun v => EVar (v_name v) (v_type v) (var_data v)) (p_vars p) ++ map EAux (p_aux p).

Lemma var_canon_wf : forall names types h v, var_canon ok names types h v ->
  entry_wf ok names types (EVar (v_name v) (v_type v) (var_data v)) /\
  var_of types h (v_name v) (v_type v) (var_data v) v /\
  write_var v = Ok (tl (enc_entry types (EVar (v_name v) (v_type v) (var_data v)))).
Proof.
  intros names types h v (H1 & H2 & H3 & d & Hd & Hf & Hp & Hc).
  cbn [entry_wf enc_entry tl]. unfold var_of, write_var, write_value, var_data.
  destruct v as [val nm ty f size bsz has]. cbn [v_name v_type v_val v_fmt v_size v_bsz v_has] in *. subst f.
  destruct (t_fmt d) eqn:Ef.
  - destruct Hc as (Hs & -> & u & -> & Hu). destruct (Hp ltac:(discriminate)) as [-> ->].
    rewrite (is_var_blob_false types ty d) by (auto; left; congruence).
    assert (HL : lenN (le_bytes (N.to_nat (t_size d)) u) = t_size d) by (rewrite lenN_le_bytes; lia).
    assert (HV : le_val (le_bytes (N.to_nat (t_size d)) u) = u) by (apply le_val_le_bytes_small; rewrite N2Nat.id, pow_two8; exact Hu).
    conj_split; auto.
    + exists d. split; [exact Hd|]. unfold data_wf. rewrite Ef, HL. split; [reflexivity|].
      destruct Hs as [<-|[<-|[<-|[<-|[]]]]]; lia.
    + exists d. rewrite Ef. conj_split; auto; [|intro; discriminate]. cbn [value_of]. rewrite HV. reflexivity.
    + cbn [app]. destruct Hs as [<-|[<-|[<-|[<-|[]]]]]; reflexivity.
  - destruct Hc as (Hs & -> & u & -> & Hu & Hr). destruct (Hp ltac:(discriminate)) as [-> ->].
    rewrite (is_var_blob_false types ty d) by (auto; left; congruence).
    assert (HL : lenN (le_bytes (N.to_nat (t_size d)) u) = t_size d) by (rewrite lenN_le_bytes; lia).
    conj_split; auto.
    + exists d. split; [exact Hd|]. unfold data_wf. rewrite Ef, HL. split; [reflexivity|exact Hs].
    + exists d. rewrite Ef. conj_split; auto; [|intro; discriminate]. cbn [value_of]. exists u. conj_split; auto.
      symmetry. apply s64_mod; auto.
    + cbn [app]. destruct Hs as [<-|[<-|[<-|[<-|[]]]]]; reflexivity.
  - destruct Hc as (Hs & -> & u & -> & Hu). destruct (Hp ltac:(discriminate)) as [-> ->].
    rewrite (is_var_blob_false types ty d) by (auto; left; congruence).
    assert (HL : lenN (le_bytes (N.to_nat (t_size d)) u) = t_size d) by (rewrite lenN_le_bytes; lia).
    assert (HV : le_val (le_bytes (N.to_nat (t_size d)) u) = u) by (apply le_val_le_bytes_small; rewrite N2Nat.id, pow_two8; exact Hu).
    conj_split; auto.
    + exists d. split; [exact Hd|]. unfold data_wf. rewrite Ef, HL. split; [reflexivity|].
      destruct Hs as [<-|[<-|[]]]; lia.
    + exists d. rewrite Ef. conj_split; auto; [|intro; discriminate]. cbn [value_of]. rewrite HV. reflexivity.
    + cbn [app]. destruct Hs as [<-|[<-|[]]]; reflexivity.
  - destruct Hc as (Hs & -> & u & -> & Hu & Hps).
    rewrite (is_var_blob_false types ty d) by (auto; left; congruence).
    assert (HV : le_val (le_bytes 8 u) = u) by (apply le_val_le_bytes_small; exact Hu).
    change (N.to_nat 8) with 8%nat. conj_split; auto.
    + exists d. split; [exact Hd|]. unfold data_wf. rewrite Ef, Hs, lenN_le_bytes. split; [reflexivity|lia].
    + exists d. rewrite Ef. conj_split; auto.
      * cbn [value_of]. rewrite HV. reflexivity.
      * intros _. rewrite HV. exact Hps.
  - destruct Hc as (Hs & bs & -> & -> & Hl & Ho). destruct (Hp ltac:(discriminate)) as [-> ->].
    rewrite (is_var_blob_true types ty d) by auto. conj_split; auto.
    + exists d. split; [exact Hd|]. unfold data_wf. rewrite Ef. split; [left; auto|exact Ho].
    + exists d. rewrite Ef. conj_split; auto; try (intro; discriminate). reflexivity.
    + destruct (N.leb_spec (lenN bs) (lenN bs)); [|lia]. cbn [bind]. rewrite takeN_all by lia. reflexivity.
  - destruct Hc.
Qed.

Lemma write_vars_canon : forall names types h vs, Forall (var_canon ok names types h) vs ->
  write_vars vs = Ok (enc_entries types (map (fun v => EVar (v_name v) (v_type v) (var_data v)) vs)).
Proof.
  intros names types h vs H. induction H as [|v vs Hv _ IH]; [reflexivity|].
  destruct (var_canon_wf names types h v Hv) as (_ & _ & HW). cbn [write_vars]. rewrite HW. cbn [bind]. rewrite IH. cbn [bind].
  unfold enc_entries. cbn [map concat]. reflexivity.
Qed.

Lemma vars_of_bufs : forall types l h es vs, vars_of types (h ++ sizes_hist l) es vs ->
  vars_of types h (map (fun b => EBuf (b_addr b) (b_size b)) l ++ es) vs.
Proof.
  intros types. induction l as [|b l IH]; intros h es vs H; cbn [map app sizes_hist] in *.
  - rewrite app_nil_r in H. exact H.
  - constructor. apply IH. rewrite <- app_assoc. exact H.
Qed.

Lemma vars_of_auxs : forall types l h, vars_of types h (map EAux l) [].
Proof. intros types. induction l; intro h; cbn; constructor. auto. Qed.

Lemma vars_of_vars : forall names types h vs l, Forall (var_canon ok names types h) vs ->
  vars_of types h (map (fun v => EVar (v_name v) (v_type v) (var_data v)) vs ++ map EAux l) vs.
Proof.
  intros names types h vs l H. induction H as [|v vs Hv _ IH]; cbn [map app]; [apply vars_of_auxs|].
  constructor; [|exact IH]. apply (var_canon_wf names types h v Hv).
Qed.

Lemma records_bufs : forall l, records (map (fun b => EBuf (b_addr b) (b_size b)) l) = sizes_hist l.
Proof. induction l; cbn; f_equal; auto. Qed.
Lemma records_vars : forall vs, records (map (fun v => EVar (v_name v) (v_type v) (var_data v)) vs) = [].
Proof. induction vs; cbn; auto. Qed.
Lemma records_auxs : forall l, records (map EAux l) = [].
Proof. induction l; cbn; auto. Qed.

Lemma records_point : forall p, records (point_entries p) = sizes_hist (p_sizes p).
Proof.
  intro p. unfold point_entries. cbn [records]. rewrite !records_app, records_bufs, records_vars, records_auxs, !app_nil_r. reflexivity.
Qed.

Lemma aux_of_app : forall a b, aux_of (a ++ b) = aux_of a ++ aux_of b.
Proof. induction a as [|[] a IH]; intro b; cbn [app aux_of]; rewrite ?IH; reflexivity. Qed.
Lemma stmt_of_nostmt : forall b, (forall x, ~ In (EStmt x) b) -> stmt_of b = None.
Proof.
  induction b as [|e b IH]; intro Hb; [reflexivity|]. cbn [stmt_of]. rewrite IH by (intros x X; apply (Hb x); right; exact X).
  destruct e; auto. exfalso. apply (Hb id). left. reflexivity.
Qed.

Lemma point_canon_of : forall names types i h p,
  p_counter p = i -> Forall (var_canon ok names types (h ++ sizes_hist (p_sizes p))) (p_vars p) ->
  point_of types i h (point_entries p) (map_stmt Some p).
Proof.
  intros names types i h p Hi HV. unfold point_of, map_stmt. cbn [p_counter p_stmt p_sizes p_vars p_aux].
  conj_split; auto.
  - unfold point_entries. cbn [stmt_of]. rewrite stmt_of_nostmt; [reflexivity|].
    intros x X. rewrite !in_app_iff, !in_map_iff in X. destruct X as [(b & X & _)|[(b & X & _)|(b & X & _)]]; discriminate.
  - rewrite records_point. unfold sizes_hist. rewrite map_map. cbn. rewrite <- (map_id (p_sizes p)) at 1.
    apply map_ext. intros []; reflexivity.
  - unfold point_entries. constructor. apply vars_of_bufs. eapply vars_of_vars; eauto.
  - unfold point_entries. cbn [aux_of]. rewrite !aux_of_app.
    assert (A1 : aux_of (map (fun b => EBuf (b_addr b) (b_size b)) (p_sizes p)) = []) by (clear; induction (p_sizes p); cbn; auto).
    assert (A2 : aux_of (map (fun v => EVar (v_name v) (v_type v) (var_data v)) (p_vars p)) = []) by (clear; induction (p_vars p); cbn; auto).
    assert (A3 : aux_of (map EAux (p_aux p)) = p_aux p) by (clear; induction (p_aux p); cbn; f_equal; auto).
    rewrite A1, A2, A3. reflexivity.
Qed.

Lemma point_entries_wf : forall names types h p, p_stmt p < 2 ^ 64 ->
  Forall (fun b => b_addr b < 2 ^ 64 /\ b_size b < 2 ^ 64) (p_sizes p) ->
  Forall (var_canon ok names types h) (p_vars p) -> Forall (fun a => a < 2 ^ 64) (p_aux p) ->
  Forall (entry_wf ok names types) (point_entries p).
Proof.
  intros names types h p H1 H2 H3 H4. unfold point_entries. constructor; [exact H1|].
  rewrite Forall_app, Forall_app. rewrite !Forall_forall in *. conj_split; intros e He; apply in_map_iff in He; destruct He as (x & <- & Hx).
  - apply H2; auto.
  - apply (var_canon_wf names types h). apply H3; auto.
  - apply H4; auto.
Qed.

Lemma write_point_canon : forall names types h p, Forall (var_canon ok names types h) (p_vars p) ->
  write_point p = Ok (enc_point types (point_entries p)).
Proof.
  intros names types h p HV. unfold write_point. rewrite (write_vars_canon _ _ _ _ HV). cbn [bind].
  unfold enc_point, point_entries, enc_entries. cbn [map concat enc_entry]. rewrite !map_app, !concat_app, !map_map. cbn [enc_entry].
  unfold write_bufsz. cbn [app]. rewrite <- !app_assoc. reflexivity.
Qed.

Lemma points_canon_write : forall names types i h ps, points_canon ok names types i h ps ->
  write_points ps = Ok (enc_points types (map point_entries ps)) /\
  Forall (Forall (entry_wf ok names types)) (map point_entries ps) /\
  points_of types i h (map point_entries ps) (map (map_stmt Some) ps) /\
  records (concat (map point_entries ps)) = sizes_hist (concat (map p_sizes ps)).
Proof.
  intros names types i h ps H. induction H as [i h|i h p ps Hi Hs Hb HV Ha HP (I1 & I2 & I3 & I4)].
  - conj_split; constructor.
  - conj_split.
    + cbn [write_points]. rewrite (write_point_canon _ _ _ _ HV). cbn [bind]. rewrite I1. reflexivity.
    + cbn [map]. constructor; [|exact I2]. eapply point_entries_wf; eauto.
    + cbn [map]. constructor; [eapply point_canon_of; eauto|]. rewrite records_point. exact I3.
    + cbn [map concat]. rewrite records_app, records_point, I4. unfold sizes_hist. rewrite map_app. reflexivity.
Qed.

Lemma n_chars_sum : forall names a, fold_left (fun n s => n + (lenN s + 1)) names a = a + lenN (name_chars names).
Proof.
  induction names as [|n names IH]; intro a.
  - cbn. change (lenN (name_chars [])) with 0. lia.
  - cbn [fold_left]. rewrite IH. unfold name_chars. cbn [map concat]. rewrite !lenN_app. change (lenN [x00]) with 1. lia.
Qed.

Lemma roundtrip_lemma : forall tr, trace_canon ok tr ->
  exists bs, write_trace tr = Ok bs /\ read 0 bs = Ok (some_trace tr).
Proof.
  intros tr (Hn & Ht & Hp & HS).
  destruct (points_canon_write _ _ _ _ _ Hp) as (W & WF & PO & R).
  set (F := mkF (tr_names tr) (tr_types tr) (map point_entries (tr_points tr))).
  exists (enc_file F). split.
  - unfold write_trace. rewrite W. cbn [bind]. rewrite n_chars_sum, N.add_0_l.
    unfold enc_file, enc_header, enc_names, enc_types, F. cbn [f_names f_types f_points]. rewrite <- !app_assoc. reflexivity.
  - apply read_iff. apply (acc_all ok 0 _ _ F []); auto.
    + split; [exact Hn|]. split; [exact Ht|]. split; [exact WF|]. unfold F. cbn [f_points]. rewrite R. exact HS.
    + rewrite app_nil_r. unfold F. cbn [f_points]. rewrite R. exact HS.
    + cbn. rewrite app_nil_r. reflexivity.
    + split; [reflexivity|]. split; [reflexivity|]. exact PO.
Qed.

Lemma write_canon : forall tr, trace_canon ok tr ->
  exists F, write_trace tr = Ok (enc_file F) /\ file_wf ok F /\ denotes F (some_trace tr).
Proof.
  intros tr (Hn & Ht & Hp & HS).
  destruct (points_canon_write _ _ _ _ _ Hp) as (W & WF & PO & R).
  set (F := mkF (tr_names tr) (tr_types tr) (map point_entries (tr_points tr))).
  exists F. conj_split.
  - unfold write_trace. rewrite W. cbn [bind]. rewrite n_chars_sum, N.add_0_l.
    unfold enc_file, enc_header, enc_names, enc_types, F. cbn [f_names f_types f_points]. rewrite <- !app_assoc. reflexivity.
  - split; [exact Hn|]. split; [exact Ht|]. split; [exact WF|]. unfold F. cbn [f_points]. rewrite R. exact HS.
  - split; [reflexivity|]. split; [reflexivity|]. exact PO.
Qed.

(** ** Traces that were read from a file *)

Lemma vars_of_nobuf : forall types h es vs, vars_of types h es vs -> records es = [] ->
  forall v, In v vs -> exists nm ty data, In (EVar nm ty data) es /\ var_of types h nm ty data v.
Proof.
  intros types h es vs H. induction H; intros Hr w Hw; cbn [records] in Hr; try discriminate.
  - destruct Hw.
  - destruct Hw as [<-|Hw]; [exists nm, ty, data; split; [left; reflexivity|assumption]|].
    destruct (IHvars_of Hr w Hw) as (a & b & c & X & Y). exists a, b, c. split; [right; exact X|exact Y].
  - destruct (IHvars_of Hr w Hw) as (n & b & c & X & Y). exists n, b, c. split; [right; exact X|exact Y].
  - destruct (IHvars_of Hr w Hw) as (n & b & c & X & Y). exists n, b, c. split; [right; exact X|exact Y].
Qed.

Lemma vars_of_skip : forall types a h b vs, n_vars a = O -> vars_of types h (a ++ b) vs ->
  vars_of types (h ++ records a) b vs.
Proof.
  intros types. unfold n_vars. induction a as [|e a IH]; intros h b vs Hn H; cbn [records app filter] in *.
  - rewrite app_nil_r. exact H.
  - destruct e; cbn [length] in Hn; try discriminate; inversion H; subst; auto.
    cbn [records]. match goal with HV : vars_of _ (h ++ _) (a ++ b) vs |- _ => specialize (IH _ _ _ Hn HV) end. rewrite <- app_assoc in IH. exact IH.
Qed.

Lemma var_reread : forall names types h nm ty data v, Forall writable types ->
  entry_wf ok names types (EVar nm ty data) -> var_of types h nm ty data v -> var_canon ok names types h v.
Proof.
  intros names types h nm ty data v HW (W1 & W2 & W3 & d & W4 & W5) (V1 & V2 & V3 & d' & V4 & V5 & V6 & V7 & V8).
  rewrite W4 in V4. inversion V4; subst d'. clear V4. unfold var_canon. rewrite V1, V2. conj_split; auto.
  exists d. conj_split; auto.
  assert (Hd : writable d).
  { rewrite Forall_forall in HW. apply HW. eapply nthN_In; eauto. }
  unfold writable in Hd. unfold data_wf in W5.
  destruct (t_fmt d); cbn [value_of] in V6.
  - destruct W5 as [W5 W6]. conj_split; [exact Hd|congruence|]. exists (le_val data). split; [exact V6|].
    rewrite <- W5, <- pow_two8. apply le_val_bound.
  - destruct W5 as [W5 W6]. conj_split; [exact Hd|congruence|]. destruct V6 as (u & -> & Hu & Hs). exists u. split; [reflexivity|].
    split; [exact Hu|]. rewrite Hs. unfold signed_val. rewrite W5. pose proof (le_val_bound data) as HB. rewrite W5, pow_two8 in HB.
    destruct W6 as [E|[E|[E|[E|[]]]]]; rewrite <- E in *;
    (match type of HB with context [N.pow 2 ?e] => let e' := eval vm_compute in (N.pow 2 e) in change (N.pow 2 e) with e' in HB end);
    repeat match goal with |- context [Z.pow 2 ?e] => let e' := eval vm_compute in (Z.pow 2 e) in change (Z.pow 2 e) with e' end;
    match goal with |- context [Z.ltb ?x ?y] => destruct (Z.ltb_spec x y) end; lia.
  - destruct W5 as [W5 W6]. conj_split; [exact Hd|congruence|]. exists (le_val data). split; [exact V6|].
    rewrite <- W5, <- pow_two8. apply le_val_bound.
  - destruct W5 as [W5 W6]. conj_split; [exact Hd|congruence|]. exists (le_val data). conj_split; [exact V6| |auto].
    pose proof (le_val_bound data) as HB. rewrite W5, Hd, pow_two8 in HB. exact HB.
  - conj_split; [exact Hd|]. exists data. destruct W5 as [[[W5 W6]|[W5 _]] W7]; [|congruence]. conj_split; auto.
  - destruct W5.
Qed.

Lemma points_reread : forall names types, Forall writable types -> forall pts i h ps,
  points_of types i h pts (map (map_stmt Some) ps) -> Forall (Forall (entry_wf ok names types)) pts -> Forall sizes_first pts ->
  points_canon ok names types i h ps /\ sizes_hist (concat (map p_sizes ps)) = records (concat pts).
Proof.
  intros names types HT. induction pts as [|es pts IH]; intros i h ps HP HW HS.
  - destruct ps; [split; [constructor|reflexivity]|]. cbn in HP. inversion HP.
  - destruct ps as [|p ps]; [inversion HP|]. cbn [map] in HP.
    inversion HP as [|? ? ? p' ? ps' H1 H2]; subst. inversion HW as [|? ? W1 W2]; subst. inversion HS as [|? ? S1 S2]; subst.
    destruct H1 as (C & S & Z & V & A). cbn [map_stmt p_counter p_stmt p_sizes p_vars p_aux] in *.
    assert (HZ : sizes_hist (p_sizes p) = records es).
    { rewrite Z. unfold sizes_hist. rewrite map_map. cbn. rewrite <- (map_id (records es)) at 2. apply map_ext. intros []; reflexivity. }
    destruct (IH _ _ _ H2 W2 S2) as [I1 I2].
    assert (Hin : forall e, In e es -> entry_wf ok names types e) by (apply Forall_forall; exact W1).
    split.
    + constructor; auto.
      * assert (G : forall l, (forall e, In e l -> entry_wf ok names types e) -> forall x, stmt_of l = Some x -> x < 2 ^ 64).
        { clear. induction l as [|e l IH]; intros Hl x Hx; [discriminate|]. cbn [stmt_of] in Hx.
          destruct (stmt_of l) eqn:E.
          - apply IH; [intros; apply Hl; right; assumption|exact Hx].
          - destruct e; try discriminate. inversion Hx; subst. apply (Hl (EStmt x)). left. reflexivity. }
        eapply G; eauto.
      * assert (G : Forall (fun r => fst r < 2 ^ 64 /\ snd r < 2 ^ 64) (records es)).
        { clear - Hin. induction es as [|e es IHe]; [constructor|].
          assert (IHe' := IHe (fun x Hx => Hin x (or_intror Hx))). destruct e; cbn [records]; auto. constructor; [|exact IHe'].
          apply (Hin (EBuf addr size)). left. reflexivity. }
        rewrite Z. rewrite Forall_map. exact G.
      * rewrite HZ. destruct S1 as (a & b & -> & Ha & Hb). apply vars_of_skip in V; [|exact Ha].
        assert (Hb' : records b = []) by exact Hb.
        rewrite records_app, Hb', app_nil_r. apply Forall_forall. intros v Hv.
        destruct (vars_of_nobuf _ _ _ _ V Hb' v Hv) as (nm & ty & data & X & Y).
        eapply var_reread; eauto. apply Hin. apply in_or_app. right. exact X.
      * rewrite A. clear - Hin. induction es as [|e es IHe]; [constructor|].
        assert (IHe' := IHe (fun x Hx => Hin x (or_intror Hx))). destruct e; cbn [aux_of]; auto. constructor; [|exact IHe'].
        apply (Hin (EAux a)). left. reflexivity.
      * rewrite HZ. exact I1.
    + cbn [map concat]. rewrite records_app, <- I2, <- HZ. unfold sizes_hist. rewrite map_app. reflexivity.
Qed.

Lemma reread_lemma : forall F tr, file_wf ok F -> Forall writable (f_types F) -> Forall sizes_first (f_points F) ->
  denotes F (some_trace tr) -> trace_canon ok tr.
Proof.
  intros F tr (H1 & H2 & H3 & H4) HW HS (D1 & D2 & D3). cbn [some_trace tr_names tr_types tr_points] in *.
  destruct (points_reread (f_names F) (f_types F) HW _ _ _ _ D3 H3 HS) as [P1 P2].
  unfold trace_canon. rewrite D1, D2, P2. auto.
Qed.

Lemma rest_ignored_lemma : forall m F rest tr, file_wf ok F -> lenN (f_points F) = m -> m <> 0 ->
  denotes F tr -> read m (enc_file F ++ rest) = Ok tr.
Proof. intros m F rest tr HF Hl Hm HD. apply read_iff. apply (acc_max ok m _ tr F rest); auto. Qed.

Lemma safe_inputs_lemma : forall max bs,
  (forall n, ok n = true) ->
  (forall n r, bs = le_bytes 8 n ++ r -> 0 < n -> n < 2 ^ 64 -> exists p q, r = p ++ x00 :: q /\ lenN p + 1 = n) ->
  (forall names types r d, bs = enc_header names types ++ r -> In d types -> t_fmt d <> SIGNED -> t_fmt d <> BLOB -> t_size d <= 8) ->
  (forall p r, bs = p ++ x03 :: le_bytes 8 (2 ^ 64 - 1) ++ r -> le_val (takeN 8 r) <> 0) ->
  (exists tr, read max bs = Ok tr) \/ (exists e, read max bs = Throw e).
Proof.
  intros max bs Hok HN HT HB. destruct (read max bs) as [tr|e|k| |] eqn:E; eauto; exfalso.
  - apply ub_iff in E. destruct E as [(n & r & Hbs & H0 & Hn & _ & [(Hs & _)|(p & b & q & -> & Hl & Hb & _)])|F es r HF He HS Hbs Hm HU].
    + destruct (HN n r Hbs H0 Hn) as (p & q & -> & Hl). rewrite lenN_app, lenN_cons in Hs. lia.
    + destruct (HN n _ Hbs H0 Hn) as (p' & q' & E & Hl'). rewrite lenN_app, lenN_cons, lenN_nil in Hl.
      assert (length p = length p') by (unfold lenN in *; lia).
      apply app_inv_len in E; [|assumption]. destruct E as [_ E]. inversion E. congruence.
    + destruct HU as [nm ty d r' -> Hn Hn' Hty Hd Hf Hs Hl|nm ty d r' size r'' -> Hn Hn' Hty Hd Hf Hc Hz Ho Hr|r' -> Hz Hs].
      * unfold enc_file in Hbs. rewrite <- app_assoc in Hbs.
        assert (t_size d <= 8); [|lia]. eapply HT; [exact Hbs|eapply nthN_In; eauto| |]; destruct Hf as [Hf|[Hf|Hf]]; rewrite Hf; discriminate.
      * rewrite Hok in Ho. discriminate.
      * apply (HB (enc_file F ++ enc_entries (f_types F) es) r'); [rewrite <- app_assoc; exact Hbs|exact Hz].
  - apply (proj1 (read_total max bs)). exact E.
  - apply (proj2 (read_total max bs)). exact E.
Qed.

Lemma var_read : forall F pts1 es1 nm ty data es2 pts2,
  file_wf ok F -> f_points F = pts1 ++ (es1 ++ EVar nm ty data :: es2) :: pts2 ->
  exists tr p v, read 0 (enc_file F) = Ok tr /\
    nth_error (tr_points tr) (length pts1) = Some p /\ nth_error (p_vars p) (n_vars es1) = Some v /\
    var_of (f_types F) (records (concat pts1 ++ es1)) nm ty data v.
Proof.
  intros F pts1 es1 nm ty data es2 pts2 HF E. destruct (complete_lemma F HF) as (tr & E1 & HD & _).
  destruct (var_lemma _ _ _ _ _ _ _ _ _ HD E) as (p & v & H1 & H2 & H3). exists tr, p, v. auto.
Qed.

Lemma decoded_lemma : forall F pts1 es1 nm ty data es2 pts2 d,
  file_wf ok F -> f_points F = pts1 ++ (es1 ++ EVar nm ty data :: es2) :: pts2 ->
  nthN (f_types F) ty = Some d ->
  exists tr p v, read 0 (enc_file F) = Ok tr /\
    nth_error (tr_points tr) (length pts1) = Some p /\ nth_error (p_vars p) (n_vars es1) = Some v /\
    v_name v = nm /\ v_type v = ty /\ v_fmt v = t_fmt d /\ v_size v = lenN data /\
    match t_fmt d with
    | UNSIGNED | POINTER | FLOAT => v_val v = VBits (le_val data)
    | SIGNED => exists u, v_val v = VBits u /\ u < 2 ^ 64 /\ s64 u = signed_val data
    | BLOB => v_val v = VBlob data
    | INVALID_FORMAT => False
    end.
Proof.
  intros F pts1 es1 nm ty data es2 pts2 d HF E Hd. destruct (var_read _ _ _ _ _ _ _ _ HF E) as (tr & p & v & H1 & H2 & H3 & V1 & V2 & V3 & d' & V4 & V5 & V6 & _).
  rewrite Hd in V4. inversion V4; subst d'. exists tr, p, v. conj_split; auto.
Qed.

Lemma pointer_lemma : forall F pts1 es1 nm ty data es2 pts2 d,
  file_wf ok F -> f_points F = pts1 ++ (es1 ++ EVar nm ty data :: es2) :: pts2 ->
  nthN (f_types F) ty = Some d ->
  exists tr p v, read 0 (enc_file F) = Ok tr /\
    nth_error (tr_points tr) (length pts1) = Some p /\ nth_error (p_vars p) (n_vars es1) = Some v /\
    (t_fmt d = POINTER -> pointer_size (records (concat pts1 ++ es1)) (le_val data) (v_bsz v) (v_has v)) /\
    (t_fmt d <> POINTER -> v_bsz v = 0 /\ v_has v = 0).
Proof.
  intros F pts1 es1 nm ty data es2 pts2 d HF E Hd. destruct (var_read _ _ _ _ _ _ _ _ HF E) as (tr & p & v & H1 & H2 & H3 & V1 & V2 & V3 & d' & V4 & V5 & V6 & V7 & V8).
  rewrite Hd in V4. inversion V4; subst d'. exists tr, p, v. conj_split; auto.
Qed.

Lemma stmt_read : forall F i es, file_wf ok F -> nth_error (f_points F) i = Some es ->
  exists tr p, read 0 (enc_file F) = Ok tr /\ nth_error (tr_points tr) i = Some p /\
  p_counter p = N.of_nat i /\
  (forall a id b, es = a ++ EStmt id :: b -> (forall x, ~ In (EStmt x) b) -> p_stmt p = Some id) /\
  ((forall x, ~ In (EStmt x) es) -> p_stmt p = None).
Proof.
  intros F i es HF Hi. destruct (complete_lemma F HF) as (tr & E1 & HD & _).
  assert (Hl : length (tr_points tr) = length (f_points F)).
  { destruct HD as (_ & _ & D). clear - D. induction D; cbn; auto. }
  destruct (nth_error (tr_points tr) i) as [p|] eqn:Ep.
  - exists tr, p. split; [exact E1|]. split; [exact Ep|]. eapply stmt_lemma; eauto.
  - apply nth_error_None in Ep. assert (i < length (f_points F))%nat by (apply nth_error_Some; congruence). lia.
Qed.
End P.

Lemma signed_range_lemma : forall n z, In n [1; 2; 4; 8] ->
  (- 2 ^ (8 * Z.of_N n - 1) <= z < 2 ^ (8 * Z.of_N n - 1))%Z ->
  signed_val (le_bytes (N.to_nat n) (Z.to_N (z mod 2 ^ 64))) = z.
Proof.
  intros n z Hn Hz.
  assert (Hs : s64 (Z.to_N (z mod 2 ^ 64)) = z).
  { unfold s64, two63, two64. change (2 ^ 64)%Z with 18446744073709551616%Z.
    destruct Hn as [<-|[<-|[<-|[<-|[]]]]];
    repeat match type of Hz with context [Z.pow 2 ?e] => let e' := eval vm_compute in (Z.pow 2 e) in change (Z.pow 2 e) with e' in Hz end;
    match goal with |- context [N.ltb ?x ?y] => destruct (N.ltb_spec x y) end; lia. }
  rewrite s64_mod; [exact Hs| |exact Hn|].
  - change (2 ^ 64) with 18446744073709551616. change (2 ^ 64)%Z with 18446744073709551616%Z. clear. lia.
  - rewrite Hs. exact Hz.
Qed.

Lemma unsigned_range_lemma : forall n u, u < 2 ^ (8 * n) -> le_val (le_bytes (N.to_nat n) u) = u.
Proof. intros n u H. apply le_val_le_bytes_small. rewrite N2Nat.id, pow_two8. exact H. Qed.

Lemma records_app_nil : forall a id, records (a ++ [EStmt id]) = records a.
Proof. intros. rewrite records_app. cbn. apply app_nil_r. Qed.
