(** Main facts about the reader: exact characterisation of the accepted files,
    of undefined behaviour, and independence of the map implementation. *)
From Verif Require Import BaseProofs Types Stream SkipList AMap MemMapSpec MemMapProofs MemMapMore Reader FormatSpec FormatUB ReaderProofs ReaderProofs2 ReaderProofs3.

(** ** The skip list and the abstract map give the same reader *)

Section Transfer.
Variable ok : alloc.
Variable coins : nat -> bool.
Variable pos : nat.
Notation SM := (skip_map coins pos).

Lemma binary_read_len : forall n s d s', binary_read n s = Ok (d, s') -> lenN d <= n.
Proof.
  intros n s d s' H. unfold binary_read in H. destruct (negb (good s)).
  - destruct (s_eof s); discriminate.
  - unfold s_read in H. destruct (_ <? _); inversion H; subst; rewrite lenN_takeN; lia.
Qed.

Lemma read_word_lt : forall n old s x s', read_word n old s = Ok (x, s') -> x < two8 ^ N.of_nat n.
Proof.
  intros n old s x s' H. unfold read_word in H. apply bind_ok in H. destruct H as ([bs s1] & H & E). inversion E; subst.
  unfold binary_read_into in H. apply bind_ok in H. destruct H as ([d s2] & H & E'). inversion E'; subst.
  apply binary_read_len in H. rewrite lenN_le_bytes in H.
  eapply N.lt_le_trans; [apply le_val_bound|]. apply N.pow_le_mono_r; [discriminate|].
  rewrite lenN_app, lenN_dropN, lenN_le_bytes. lia.
Qed.


Lemma read_value_transfer : forall m am f size s, repr m am ->
  read_value ok SM m f size s = read_value ok abs_map am f size s.
Proof.
  intros m am f size s HR. destruct f; try reflexivity. cbn [read_value].
  destruct (binary_read size s) as [[d s1]| | | |] eqn:E; cbn [bind]; try reflexivity.
  destruct (N.ltb_spec 8 (lenN d)); [reflexivity|]. cbn [mo_compute skip_map abs_map].
  rewrite (repr_compute m am) by (auto; apply le_max64, le_val_lt64; exact H). reflexivity.
Qed.

Lemma read_var_transfer : forall names types m am s, repr m am ->
  read_var ok SM names types m s = read_var ok abs_map names types am s.
Proof.
  intros names types m am s HR. unfold read_var.
  destruct (read_word 4 0 s) as [[nm s1]| | | |]; cbn [bind]; try reflexivity.
  destruct (read_word 4 0 s1) as [[ty s2]| | | |]; cbn [bind]; try reflexivity.
  destruct (nthN types ty); [|reflexivity]. rewrite (read_value_transfer m am) by exact HR. reflexivity.
Qed.

Definition same_entry (o1 : outcome (bool * pacc * memory_map * istream)) (o2 : outcome (bool * pacc * amap * istream)) : Prop :=
  match o1, o2 with
  | Ok (b, a, m, s), Ok (b', a', m', s') => b = b' /\ a = a' /\ s = s' /\ repr m m'
  | Throw e, Throw e' => e = e'
  | UB k, UB k' => k = k'
  | Diverge, Diverge => True
  | Abort, Abort => True
  | _, _ => False
  end.

Lemma read_entry_transfer : forall names types m am acc s, repr m am ->
  same_entry (read_entry ok SM names types m acc s) (read_entry ok abs_map names types am acc s).
Proof.
  intros names types m am acc s HR. unfold read_entry.
  destruct (binary_read_into [x05] s) as [[d s1]| | | |]; cbn [bind same_entry]; auto.
  set (c := schar _).
  destruct (negb (good s1) || (c =? 0)%Z); [cbn; auto|].
  destruct (5 <=? c)%Z; [cbn; auto|].
  destruct (c =? 1)%Z.
  { destruct (binary_read 8 s1) as [[d2 s2]| | | |]; cbn [bind same_entry]; auto. }
  destruct (c =? 3)%Z.
  { unfold read_bufsz. destruct (read_word 8 0 s1) as [[a s2]| | | |] eqn:Ea; cbn [bind same_entry]; auto.
    destruct (read_word 8 0 s2) as [[z s3]| | | |]; cbn [bind same_entry b_addr b_size mo_update skip_map abs_map]; auto.
    apply read_word_lt in Ea. rewrite two8_pow8 in Ea.
    pose proof (repr_update coins m am a z HR (le_max64 _ Ea)) as HU.
    destruct (am_update am a z) as [am'| | | |]; cbn [bind same_entry]; try contradiction.
    - destruct HU as (m' & -> & HR'). cbn. auto.
    - rewrite HU. cbn. auto. }
  destruct (c =? 2)%Z.
  { rewrite (read_var_transfer names types m am) by exact HR.
    destruct (read_var ok abs_map names types am s1) as [[v s2]| | | |]; cbn [bind same_entry]; auto. }
  destruct (c =? 4)%Z; [|cbn; auto].
  destruct (read_word 8 0 s1) as [[a s2]| | | |]; cbn [bind same_entry]; auto.
Qed.

Definition same_entries (o1 : outcome (pacc * memory_map * istream)) (o2 : outcome (pacc * amap * istream)) : Prop :=
  match o1, o2 with
  | Ok (a, m, s), Ok (a', m', s') => a = a' /\ s = s' /\ repr m m'
  | Throw e, Throw e' => e = e'
  | UB k, UB k' => k = k'
  | Diverge, Diverge => True
  | Abort, Abort => True
  | _, _ => False
  end.

Lemma read_entries_transfer : forall f names types m am acc s, repr m am ->
  same_entries (read_entries f ok SM names types m acc s) (read_entries f ok abs_map names types am acc s).
Proof.
  induction f as [|f IH]; intros names types m am acc s HR; [exact I|]. cbn [read_entries].
  pose proof (read_entry_transfer names types m am acc s HR) as HE.
  destruct (read_entry ok SM names types m acc s) as [[[[b a] m'] s']| | | |];
    destruct (read_entry ok abs_map names types am acc s) as [[[[b2 a2] m2] s2]| | | |]; cbn [same_entry] in HE; try contradiction; cbn [bind]; auto.
  destruct HE as (-> & -> & -> & HR'). destruct b2; [apply IH; exact HR'|]. cbn. auto.
Qed.

Lemma read_points_transfer : forall f max i names types m am s, repr m am ->
  read_points f ok SM max i names types m s = read_points f ok abs_map max i names types am s.
Proof.
  induction f as [|f IH]; intros max i names types m am s HR; cbn [read_points]; [reflexivity|].
  destruct (good s && ((i <? max) || (max =? 0))); [|reflexivity]. unfold read_point.
  pose proof (read_entries_transfer (S (S (length (s_rest s)))) names types m am pacc0 s HR) as HE.
  destruct (read_entries _ ok SM names types m pacc0 s) as [[[a m'] s']| | | |];
    destruct (read_entries _ ok abs_map names types am pacc0 s) as [[[a2 m2] s2]| | | |]; cbn [same_entries] in HE; try contradiction; cbn [bind]; auto; try congruence.
  destruct HE as (-> & -> & HR'). rewrite (IH max (i + 1) names types m' m2 s2 HR'). reflexivity.
Qed.

Lemma read_trace_transfer : forall max s, read_trace ok SM max s = read_trace ok abs_map max s.
Proof.
  intros max s. unfold read_trace.
  destruct (read_names ok s) as [[names s1]| | | |]; cbn [bind]; try reflexivity.
  destruct (read_types ok s1) as [[types s2]| | | |]; cbn [bind]; try reflexivity.
  rewrite (read_points_transfer _ max 0 names types (mo_new SM) (mo_new abs_map)); [reflexivity|]. apply repr_new.
Qed.
End Transfer.

(** ** The meaning of a file is unique *)

Lemma s64_inj : forall u v, u < 2 ^ 64 -> v < 2 ^ 64 -> s64 u = s64 v -> u = v.
Proof.
  intros u v Hu Hv. change (2 ^ 64) with 18446744073709551616 in *. unfold s64, two63, two64.
  destruct (N.ltb_spec u 9223372036854775808); destruct (N.ltb_spec v 9223372036854775808); lia.
Qed.

Lemma value_of_fun : forall f d v v', value_of f d v -> value_of f d v' -> v = v'.
Proof.
  intros f d v v' H H'. destruct f; cbn [value_of] in *; try congruence; try contradiction.
  destruct H as (u & -> & Hu & E). destruct H' as (u' & -> & Hu' & E'). f_equal. apply s64_inj; auto. congruence.
Qed.

Lemma pointer_size_fun : forall h a r s r' s', pointer_size h a r s -> pointer_size h a r' s' -> r = r' /\ s = s'.
Proof.
  intros h a r s r' s' H H'. destruct H as [r Ha HA Hr|H], H' as [r' Ha' HA' Hr'|H']; auto.
  - split; [|reflexivity]. eapply answer_fun; eauto.
  - exfalso. destruct H' as [->|[_ H']]; [lia|]. pose proof (answer_fun _ _ _ _ HA H'). lia.
  - exfalso. destruct H as [->|[_ H]]; [lia|]. pose proof (answer_fun _ _ _ _ HA' H). lia.
Qed.

Definition fmt_eq_dec : forall a b : fmt, {a = b} + {a <> b}. Proof. decide equality. Defined.

Lemma var_of_fun : forall types h nm ty data v v', var_of types h nm ty data v -> var_of types h nm ty data v' -> v = v'.
Proof.
  intros types h nm ty data [x1 x2 x3 x4 x5 x6 x7] [y1 y2 y3 y4 y5 y6 y7].
  unfold var_of. cbn [v_name v_type v_size v_fmt v_val v_bsz v_has].
  intros (-> & -> & -> & t & Ht & -> & Hv & Hp & Hn) (-> & -> & -> & t' & Ht' & -> & Hv' & Hp' & Hn').
  rewrite Ht in Ht'. inversion Ht'; subst t'. pose proof (value_of_fun _ _ _ _ Hv Hv'). subst y1.
  destruct (fmt_eq_dec (t_fmt t) POINTER) as [E|E].
  - destruct (pointer_size_fun _ _ _ _ _ _ (Hp E) (Hp' E)) as [-> ->]. reflexivity.
  - destruct (Hn E) as [-> ->]. destruct (Hn' E) as [-> ->]. reflexivity.
Qed.

Lemma vars_of_fun : forall types h es vs vs', vars_of types h es vs -> vars_of types h es vs' -> vs = vs'.
Proof.
  intros types h es vs vs' H. revert vs'. induction H; intros vs' H'; inversion H'; subst; auto.
  f_equal; auto. eapply var_of_fun; eauto.
Qed.

Lemma point_of_fun : forall types i h es p p', point_of types i h es p -> point_of types i h es p' -> p = p'.
Proof.
  intros types i h es [] [] (H1 & H2 & H3 & H4 & H5) (H1' & H2' & H3' & H4' & H5'). simpl in *. subst.
  f_equal. eapply vars_of_fun; eauto.
Qed.

Lemma points_of_fun : forall types i h pts ps ps', points_of types i h pts ps -> points_of types i h pts ps' -> ps = ps'.
Proof.
  intros types i h pts ps ps' H. revert ps'. induction H; intros ps' H'; inversion H'; subst; auto.
  f_equal; auto. eapply point_of_fun; eauto.
Qed.

Lemma denotes_fun : forall F tr tr', denotes F tr -> denotes F tr' -> tr = tr'.
Proof.
  intros F [] [] (H1 & H2 & H3) (H1' & H2' & H3'). simpl in *. subst. f_equal. eapply points_of_fun; eauto.
Qed.

(** ** The whole reader over the abstract map *)

Lemma enc_points_len : forall types pts, (length pts <= length (enc_points types pts))%nat.
Proof.
  intros types. induction pts as [|es pts IH]; [cbn; lia|]. unfold enc_points in *. cbn [map concat length].
  unfold enc_point at 1. rewrite !app_length. cbn [length]. lia.
Qed.

Lemma read_header : forall ok names types max bs t, names_wf ok names -> types_wf ok types ->
  read_trace ok abs_map max (open_stream (enc_header names types ++ bs) t) =
  ('(ps, _) <- read_points (S (S (length bs))) ok abs_map max 0 names types ([] : amap) (open_stream bs t) ;;
   Ok (mkTr names types ps)).
Proof.
  intros ok names types max bs t Hn Ht. unfold read_trace, enc_header. rewrite <- app_assoc.
  rewrite read_names_enc by assumption. cbn [bind]. rewrite read_types_enc by assumption. reflexivity.
Qed.

Section Points.
Variables (ok : alloc) (names : list name) (types : list tdesc) (t : tail_kind).
Hypothesis HT : Forall type_wf types.

(** Reading [pts], then whatever [r] gives. *)
Lemma read_points_prefix : forall pts max (map : amap) map' ps r i,
  Forall (Forall (entry_wf ok names types)) pts -> psteps types i map pts = Ok (map', ps) ->
  (max = 0 \/ i + lenN pts <= max) ->
  exists f, (S (length r) < f)%nat /\
  read_points (S (S (length (enc_points types pts ++ r)))) ok abs_map max i names types map
    (open_stream (enc_points types pts ++ r) t) =
  ('(qs, s) <- read_points f ok abs_map max (i + lenN pts) names types map' (open_stream r t) ;; Ok (ps ++ qs, s)).
Proof.
  intros pts max map map' ps r i HW HP Hm. rewrite app_length.
  pose proof (enc_points_len types pts) as HL.
  remember (S (S (length (enc_points types pts) + length r))) as n eqn:En.
  exists (n - length pts)%nat. split; [lia|].
  pose proof (read_points_enc ok names types t pts (n - length pts) max i map map' ps r HW HP Hm) as HE.
  replace (length pts + (n - length pts))%nat with n in HE by lia. exact HE.
Qed.

(** Reading entries of an unfinished point, then the end of the file. *)
Lemma read_points_tail : forall f es max i h (map : amap), hist_ok h map -> Forall (entry_wf ok names types) es ->
  sentinel_safe (h ++ records es) -> (max = 0 \/ i < max) -> (0 < f)%nat ->
  read_points f ok abs_map max i names types map (open_stream (enc_entries types es) t) = Ok ([], dead t).
Proof.
  intros f es max i h map Hh HW HS Hm Hf. destruct f; [lia|]. cbn [read_points]. rewrite good_open.
  replace (true && ((i <? max) || (max =? 0))) with true.
  2:{ destruct Hm as [->|Hm]; [rewrite orb_true_r; reflexivity|]. destruct (N.ltb_spec i max); [reflexivity|lia]. }
  destruct (steps_total ok names types es h map pacc0 Hh HW HS) as (m & c & E).
  destruct (read_point_steps ok names types t i map es m c [] HW E) as (f' & Hf' & HE).
  rewrite app_nil_r in HE. rewrite HE.
  destruct f'; [lia|]. cbn [read_entries]. unfold read_entry. rewrite read_tag_nil. cbn [bind].
  rewrite good_dead. cbn [negb orb bind].
  pose proof (read_points_dead ok names types t f max (i + 1) m) as RD. cbn [mo_state abs_map] in RD |- *. rewrite RD.
  cbn [bind]. rewrite good_dead. reflexivity.
Qed.
End Points.

Lemma accepted_read : forall ok max bs tr t, accepted ok max bs tr ->
  read_trace ok abs_map max (open_stream bs t) = Ok tr.
Proof.
  intros ok max bs tr t HA.
  destruct HA as [F es Hwf He HS Hbs Hm HD|F rest Hwf Hmax Hlen Hbs HD|names k Hn Hk Hbs Htr|names types ty part missing Hn Ht Hp Hne Hbs Htr].
  - subst bs. destruct Hwf as (Hn & Ht & Hpts & HSS). unfold enc_file. rewrite <- app_assoc, read_header by assumption.
    destruct (psteps_total ok (f_names F) (f_types F) (f_points F) 0 [] [] hist_ok_nil Hpts HSS) as (m & ps & HP).
    destruct (psteps_hist ok (f_names F) (f_types F) (f_points F) 0 [] [] m ps hist_ok_nil Hpts HP) as [Hh _].
    destruct (read_points_prefix ok (f_names F) (f_types F) t (f_points F) max [] m ps (enc_entries (f_types F) es) 0 Hpts HP ltac:(lia)) as (f & Hf & ->).
    rewrite records_app in HS.
    rewrite (read_points_tail ok (f_names F) (f_types F) t f es max _ _ m Hh He HS); [|destruct Hm; [auto|right; lia]|lia].
    cbn [bind]. rewrite app_nil_r. f_equal. apply (denotes_fun F); [|exact HD].
    split; [reflexivity|]. split; [reflexivity|]. cbn [tr_points].
    eapply psteps_meaning; eauto. apply hist_ok_nil.
  - subst bs. destruct Hwf as (Hn & Ht & Hpts & HSS). unfold enc_file. rewrite <- app_assoc, read_header by assumption.
    destruct (psteps_total ok (f_names F) (f_types F) (f_points F) 0 [] [] hist_ok_nil Hpts HSS) as (m & ps & HP).
    destruct (read_points_prefix ok (f_names F) (f_types F) t (f_points F) max [] m ps rest 0 Hpts HP ltac:(lia)) as (f & Hf & ->).
    destruct f; [lia|]. cbn [read_points]. rewrite N.add_0_l, Hlen, N.ltb_irrefl, good_open.
    destruct (N.eqb_spec max 0); [congruence|]. cbn [orb andb bind]. rewrite app_nil_r.
    f_equal. apply (denotes_fun F); [|exact HD].
    split; [reflexivity|]. split; [reflexivity|]. cbn [tr_points].
    eapply psteps_meaning; eauto. apply hist_ok_nil.
  - subst. unfold read_trace. rewrite read_names_enc by assumption. cbn [bind].
    unfold read_types. rewrite read_word_short0 by (unfold lenN; rewrite repeat_length; lia). cbn [bind].
    pose proof (le_val_zeros [] k) as HZ. cbn [app] in HZ. rewrite HZ. cbn [le_val N.eqb orb read_types_fuel bind].
    rewrite read_points_dead. reflexivity.
  - subst tr. unfold read_trace, enc_header in *.
    destruct Ht as (Hws & Hl & Ho). apply Forall_app in Hws. destruct Hws as [Hws Hw]. inversion Hw as [|? ? Hw1 _]; subst.
    assert (Hb : bs = enc_names names ++ le_bytes 4 (lenN (types ++ [ty])) ++ concat (map enc_type types) ++
                 le_bytes 4 (t_name ty) ++ le_bytes 4 (fmt_code (t_fmt ty)) ++ part).
    { apply (app_inv_tail missing). rewrite Hbs. unfold enc_types. rewrite map_app, concat_app. cbn [map concat].
      unfold enc_type at 2. rewrite <- Hp, app_nil_r, <- !app_assoc. reflexivity. }
    subst bs. rewrite read_names_enc by assumption. cbn [bind]. unfold read_types.
    rewrite read_word_app by exact Hl. cbn [bind].
    replace ((lenN (types ++ [ty]) =? 0) || ok (12 * lenN (types ++ [ty]))) with true.
    2:{ rewrite Ho; [symmetry; apply orb_true_r|]. destruct types; discriminate. }
    cbn [s_rest open_stream].
    assert (G : forall tys f q, Forall type_wf tys -> (length tys <= f)%nat ->
      read_types_fuel f (lenN (tys ++ [ty])) (open_stream (concat (map enc_type tys) ++ q) t) =
      ('(ts, s) <- read_types_fuel (f - length tys) 1 (open_stream q t) ;; Ok (tys ++ ts, s))).
    { induction tys as [|y tys IH]; intros f q HW Hf.
      - rewrite Nat.sub_0_r. cbn [app map concat]. change (lenN [ty]) with 1.
        destruct (read_types_fuel f 1 (open_stream q t)) as [[]| | | |]; reflexivity.
      - destruct f; [cbn [length] in Hf; lia|]. cbn [app map concat length Nat.sub read_types_fuel]. rewrite lenN_cons.
        destruct (N.eqb_spec (N.succ (lenN (tys ++ [ty]))) 0); [lia|]. inversion HW; subst.
        rewrite <- app_assoc, read_type_enc by assumption. cbn [bind]. rewrite N.pred_succ, IH by (auto; cbn [length] in Hf; lia).
        destruct (read_types_fuel (f - length tys) 1 (open_stream q t)) as [[]| | | |]; reflexivity. }
    fold (open_stream (concat (map enc_type types) ++ le_bytes 4 (t_name ty) ++ le_bytes 4 (fmt_code (t_fmt ty)) ++ part) t).
    assert (Hlt : (length types <= length (concat (map enc_type types)))%nat).
    { clear. induction types as [|y tys IH]; [cbn; lia|]. cbn [map concat length]. rewrite app_length.
      pose proof (lenN_enc_type y). unfold lenN in H. lia. }
    rewrite G by (auto; rewrite app_length; lia).
    rewrite app_length. remember (S (S (length (concat (map enc_type types)) + _)) - length types)%nat as f eqn:Ef.
    destruct f as [|f]; [lia|]. cbn [read_types_fuel]. change (1 =? 0) with false. cbv iota.
    assert (Hpl : lenN part < 4).
    { apply (f_equal (@length byte)) in Hp. rewrite app_length, le_bytes_length in Hp. destruct missing; [congruence|].
      cbn [length] in Hp. unfold lenN. lia. }
    assert (HR : read_type (open_stream (le_bytes 4 (t_name ty) ++ le_bytes 4 (fmt_code (t_fmt ty)) ++ part) t) =
                 Ok (mkT (t_name ty) (t_fmt ty) (le_val part), dead t)).
    { destruct Hw1 as (W1 & W2 & W3). unfold read_type. rewrite read_word_app by exact W1. cbn [bind].
      pose proof (fmt_code_lt _ W3).
      rewrite read_word_app by (rewrite two8_pow4; change (2 ^ 32) with 4294967296; lia). cbn [bind].
      rewrite read_word_short0 by exact Hpl. cbn [bind].
      destruct (N.leb_spec (fmt_code INVALID_FORMAT) (fmt_code (t_fmt ty))) as [X|X]; [change (fmt_code INVALID_FORMAT) with 5 in X; lia|].
      rewrite fmt_of_code_code. reflexivity. }
    rewrite HR. cbn [bind N.pred Pos.pred_N].
    assert (Z : read_types_fuel f 0 (dead t) = Ok ([], dead t)) by (destruct f; reflexivity).
    rewrite Z. cbn [bind]. rewrite read_points_dead. reflexivity.
Qed.

(** All outcomes. *)
Lemma read_trace_cases : forall ok max bs t,
  (exists tr, read_trace ok abs_map max (open_stream bs t) = Ok tr /\ accepted ok max bs tr) \/
  (exists e, read_trace ok abs_map max (open_stream bs t) = Throw e) \/
  (exists k, read_trace ok abs_map max (open_stream bs t) = UB k /\ ub_file ok max bs k).
Proof.
  intros ok max bs t. unfold read_trace.
  destruct (read_names_cases ok bs t) as [(names & r & -> & Hn & ->)|[->|[(e & ->)|(k & -> & Hk)]]]; cbn [bind].
  2:{ rewrite read_types_dead. cbn [bind]. eauto. }
  2: eauto.
  2:{ right. right. exists k. split; [reflexivity|]. apply ubf_names. exact Hk. }
  destruct (read_types_cases ok r t) as [(types & q & -> & Ht & ->)|[(k & Hk & -> & ->)|[(types & ty & part & missing & Ht & Hp & Hne & Hbs & ->)|(e & ->)]]]; cbn [bind].
  4: eauto.
  2:{ rewrite read_points_dead. cbn [bind]. left. eexists. split; [reflexivity|]. eapply acc_cut_count; eauto. }
  2:{ rewrite read_points_dead. cbn [bind]. left. eexists. split; [reflexivity|].
      eapply acc_cut_size; eauto. unfold enc_header. rewrite <- app_assoc, Hbs. reflexivity. }
  cbn [s_rest open_stream]. fold (open_stream q t). cbn [mo_new abs_map]. fold abs_map.
  destruct (read_points_cases ok names types t (proj1 Ht) (S (S (length q))) max 0 [] [] q hist_ok_nil ltac:(lia) ltac:(lia))
    as (pts & rest & m & ps & -> & HW & HP & Hh & HE).
  assert (HD : denotes (mkF names types pts) (mkTr names types ps)).
  { split; [reflexivity|]. split; [reflexivity|]. cbn. eapply psteps_meaning; eauto. apply hist_ok_nil. }
  assert (HF : file_wf ok (mkF names types pts)).
  { split; [exact Hn|]. split; [exact Ht|]. split; [exact HW|]. exact (proj2 Hh). }
  unfold points_end in HE. cbn [app] in *. cbn [mo_state abs_map] in *.
  destruct HE as [(Hm & Hl & E)|(Hm & es & r & -> & He & HS & [(-> & E)|[(e & E)|(k & E & Hk)]])]; rewrite E; cbn [bind].
  - left. eexists. split; [reflexivity|]. apply (acc_max ok max _ _ (mkF names types pts) rest); auto.
    unfold enc_file, enc_header. cbn. rewrite <- !app_assoc. reflexivity.
  - left. eexists. split; [reflexivity|]. apply (acc_all ok max _ _ (mkF names types pts) es); auto.
    unfold enc_file, enc_header. cbn [f_names f_types f_points]. rewrite app_nil_r, <- !app_assoc. reflexivity.
  - eauto.
  - right. right. exists k. split; [reflexivity|].
    apply (ubf_entry ok max _ k (mkF names types pts) es r); auto.
    unfold enc_file, enc_header. cbn [f_names f_types f_points]. rewrite <- !app_assoc. reflexivity.
Qed.

(** Conversely, the listed causes are undefined behaviour. *)
Lemma ub_entry_read : forall ok names types t h (map : amap) acc bs k, hist_ok h map ->
  ub_entry ok names types h bs k ->
  read_entry ok abs_map names types map acc (open_stream bs t) = UB k.
Proof.
  intros ok names types t h map acc bs k Hh HU. unfold read_entry.
  destruct HU as [nm ty d r Hbs Hn Hn' Hty Hd Hf Hs Hl|nm ty d r size r' Hbs Hn Hn' Hty Hd Hf Hc Hz Ho Hr|r Hbs Hz Hs]; subst bs; rewrite read_tag; cbn [bind]; rewrite good_open.
  - change (schar x02) with 2%Z. cbn [negb orb Z.eqb Z.leb Z.compare Pos.compare Pos.compare_cont Pos.eqb].
    unfold read_var. rewrite read_word_app by exact Hn'. cbn [bind]. rewrite read_word_app by exact Hty. cbn [bind].
    rewrite Hd. destruct (N.leb_spec (lenN names) nm); [lia|].
    assert (HB : exists x s, binary_read (t_size d) (open_stream r t) = Ok (x, s) /\ 8 < lenN x).
    { destruct (N.le_gt_cases (t_size d) (lenN r)).
      - rewrite binary_read_enough by assumption. do 2 eexists. split; [reflexivity|]. rewrite lenN_takeN. lia.
      - rewrite binary_read_short by assumption. do 2 eexists. split; [reflexivity|]. exact Hl. }
    destruct HB as (x & s & HB & HL). apply N.ltb_lt in HL.
    unfold read_value. destruct Hf as [->|[->| ->]]; rewrite HB; cbn [bind]; rewrite HL; reflexivity.
  - change (schar x02) with 2%Z. cbn [negb orb Z.eqb Z.leb Z.compare Pos.compare Pos.compare_cont Pos.eqb].
    unfold read_var. rewrite read_word_app by exact Hn'. cbn [bind]. rewrite read_word_app by exact Hty. cbn [bind].
    rewrite Hd. destruct (N.leb_spec (lenN names) nm); [lia|]. rewrite Hf. unfold read_value.
    assert (HB : exists x s, binary_read size (open_stream r' t) = Ok (x, s) /\ lenN x <> 0).
    { destruct (N.le_gt_cases size (lenN r')).
      - rewrite binary_read_enough by assumption. do 2 eexists. split; [reflexivity|]. rewrite lenN_takeN. lia.
      - rewrite binary_read_short by assumption. do 2 eexists. split; [reflexivity|]. apply lenN_cons_ne. exact Hr. }
    destruct HB as (x & s & HB & HL). apply N.eqb_neq in HL. apply N.eqb_neq in Hz.
    destruct Hc as [(Hnz & -> & ->)|(Hnz & Hsz & ->)].
    + apply N.eqb_neq in Hnz. rewrite Hnz. cbn [bind]. rewrite Ho, Hz. cbn [orb]. rewrite HB. cbn [bind]. rewrite HL. reflexivity.
    + rewrite Hnz. change (0 =? 0) with true. cbv iota. rewrite read_word_app by exact Hsz. cbn [bind]. rewrite Ho, Hz. cbn [orb]. rewrite HB. cbn [bind]. rewrite HL. reflexivity.
  - change (schar x03) with 3%Z. cbn [negb orb Z.eqb Z.leb Z.compare Pos.compare Pos.compare_cont Pos.eqb].
    unfold read_bufsz. rewrite read_word_app by (vm_compute; reflexivity). cbn [bind].
    assert (HB : exists s, read_word 8 0 (open_stream r t) = Ok (0, s)).
    { destruct (word_cases 8 r) as [(x & q & -> & Hx)|Hsh].
      - rewrite read_word_app by exact Hx. rewrite takeN_app in Hz by (rewrite lenN_le_bytes; reflexivity).
        rewrite le_val_le_bytes_small in Hz by exact Hx. subst x. eauto.
      - rewrite read_word_short0 by exact Hsh. rewrite takeN_all in Hz by (change (N.of_nat 8) with 8 in Hsh; lia). rewrite Hz. eauto. }
    destruct HB as (s & ->). cbn [bind b_addr b_size mo_update abs_map].
    unfold am_update. change (0 =? 0) with true. cbv iota.
    pose proof (am_remove_spec map (2 ^ 64 - 1) (ao_sorted _ _ (proj1 Hh)) (ao_max _ _ (proj1 Hh)) ltac:(apply le_max64; reflexivity)) as HR.
    pose proof (ao_sent _ _ (proj1 Hh)) as HSS.
    destruct (am_remove map (2 ^ 64 - 1)) as [m'| |u| |]; try contradiction.
    + exfalso. destruct HR as (_ & _ & _ & HR & _). specialize (HR eq_refl). lia.
    + destruct HR as (-> & _). reflexivity.
Qed.

Lemma ub_file_read : forall ok max bs k t, ub_file ok max bs k ->
  read_trace ok abs_map max (open_stream bs t) = UB k.
Proof.
  intros ok max bs k t [HN|F es r (Hn & Ht & Hpts & HSS) He HS Hbs Hm HU].
  - destruct HN as (n & r & -> & Hp & Hn & Ho & Hc). unfold read_trace, read_names.
    rewrite read_word_app by exact Hn. cbn [bind]. destruct (N.ltb_spec 0 n); [|lia]. rewrite Ho.
    destruct Hc as [(Hs & ->)|(p & b & q & -> & Hl & Hb & ->)].
    + rewrite binary_read_short by exact Hs. cbn [bind]. destruct (N.ltb_spec (lenN r) n); [reflexivity|lia].
    + rewrite app_assoc, binary_read_app' by auto. cbn [bind]. destruct (N.ltb_spec (lenN (p ++ [b])) n); [lia|].
      destruct (scan_names_inv (p ++ [b]) [] (fun x => x)) as [(names & _ & E & _)|(-> & _)]; [|reflexivity].
      exfalso. cbn [rev app] in E. clear - E Hb. assert (Hlast : forall names p, p ++ [b] = name_chars names -> b = x00).
      { clear. induction names as [|x names IH] using rev_ind; intros p E.
        - destruct p; discriminate.
        - unfold name_chars in E. rewrite map_app, concat_app in E. cbn [map concat] in E. rewrite app_nil_r, app_assoc in E.
          apply app_inj_tail in E. tauto. }
      apply Hb. eapply Hlast; eauto.
  - subst bs. unfold enc_file. rewrite <- !app_assoc, read_header by assumption.
    destruct (psteps_total ok (f_names F) (f_types F) (f_points F) 0 [] [] hist_ok_nil Hpts HSS) as (m & ps & HP).
    destruct (psteps_hist ok (f_names F) (f_types F) (f_points F) 0 [] [] m ps hist_ok_nil Hpts HP) as [Hh _].
    destruct (read_points_prefix ok (f_names F) (f_types F) t (f_points F) max [] m ps (enc_entries (f_types F) es ++ r) 0 Hpts HP ltac:(lia)) as (f & Hf & ->).
    rewrite records_app in HS, HU. cbn [app] in Hh.
    destruct f; [lia|]. cbn [read_points]. rewrite good_open.
    replace (true && ((0 + lenN (f_points F) <? max) || (max =? 0))) with true.
    2:{ destruct Hm as [->|Hm]; [rewrite orb_true_r; reflexivity|]. destruct (N.ltb_spec (0 + lenN (f_points F)) max); [reflexivity|lia]. }
    destruct (steps_total ok (f_names F) (f_types F) es _ m pacc0 Hh He HS) as (m2 & c & E).
    destruct (read_point_steps ok (f_names F) (f_types F) t (0 + lenN (f_points F)) m es m2 c r He E) as (f' & Hf' & HE).
    rewrite HE. destruct f'; [lia|]. cbn [read_entries].
    rewrite (ub_entry_read ok (f_names F) (f_types F) t _ m2 c r k (steps_hist ok (f_names F) (f_types F) es _ m pacc0 m2 c Hh He E) HU).
    reflexivity.
Qed.
