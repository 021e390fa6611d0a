(** Entries and points. *)
From Verif Require Import BaseProofs Types Stream SkipList AMap MemMapSpec MemMapProofs MemMapMore Reader FormatSpec FormatUB ReaderProofs.

Definition dec_var (map : amap) (nm ty : N) (t : tdesc) (data : list byte) : var :=
  match t_fmt t with
  | SIGNED => mkV (VBits (sign_extend (lenN data) (le_val data))) nm ty SIGNED (lenN data) 0 0
  | POINTER =>
      let b := am_compute map (le_val data) in
      if negb (b =? max64) then mkV (VBits (le_val data)) nm ty POINTER (lenN data) b 1
      else mkV (VBits (le_val data)) nm ty POINTER (lenN data) 0 0
  | BLOB => mkV (VBlob data) nm ty BLOB (lenN data) 0 0
  | f => mkV (VBits (le_val data)) nm ty f (lenN data) 0 0
  end.

Definition step (types : list tdesc) (map : amap) (acc : pacc) (e : entry) : outcome (amap * pacc) :=
  match e with
  | EStmt id => Ok (map, mkA (Some id) (a_sizes acc) (a_vars acc) (a_aux acc))
  | EVar nm ty data =>
      match nthN types ty with
      | Some t => Ok (map, mkA (a_stmt acc) (a_sizes acc) (a_vars acc ++ [dec_var map nm ty t data]) (a_aux acc))
      | None => Abort
      end
  | EBuf a s => map' <- am_update map a s ;; Ok (map', mkA (a_stmt acc) (a_sizes acc ++ [mkB a s]) (a_vars acc) (a_aux acc))
  | EAux a => Ok (map, mkA (a_stmt acc) (a_sizes acc) (a_vars acc) (a_aux acc ++ [a]))
  end.

Fixpoint steps (types : list tdesc) (map : amap) (acc : pacc) (es : list entry) : outcome (amap * pacc) :=
  match es with
  | [] => Ok (map, acc)
  | e :: r => '(map', acc') <- step types map acc e ;; steps types map' acc' r
  end.

Section Entries.
Variable ok : alloc.
Variable names : list name.
Variable types : list tdesc.
Variable t : tail_kind.

Lemma read_tag : forall b r, binary_read_into [x05] (open_stream (b :: r) t) = Ok ([b], open_stream r t).
Proof.
  intros. unfold binary_read_into. change (lenN [x05]) with (lenN [b]).
  change (b :: r) with ([b] ++ r). rewrite binary_read_app. reflexivity.
Qed.

Lemma read_tag_nil : binary_read_into [x05] (open_stream [] t) = Ok ([x05], dead t).
Proof. unfold binary_read_into. rewrite binary_read_short by reflexivity. reflexivity. Qed.

Lemma is_var_blob_true : forall ty d, nthN types ty = Some d -> t_fmt d = BLOB -> t_size d = 0 -> is_var_blob types ty = true.
Proof. intros ty [n f s] H H1 H2. simpl in *. subst. unfold is_var_blob. rewrite H. reflexivity. Qed.

Lemma is_var_blob_false : forall ty d, nthN types ty = Some d -> (t_fmt d <> BLOB \/ t_size d <> 0) -> is_var_blob types ty = false.
Proof.
  intros ty [n f s] H H1. simpl in *. unfold is_var_blob. rewrite H.
  destruct f; auto. destruct s; auto. destruct H1; congruence.
Qed.

Definition blob_prefix (ty : N) (data : list byte) : list byte :=
  if is_var_blob types ty then le_bytes 4 (lenN data) else [].

Lemma read_value_enc : forall (map : amap) nm ty d data r, nthN types ty = Some d -> data_wf ok d data ->
  exists v, dec_var map nm ty d data = v /\
  read_value ok abs_map map (t_fmt d) (t_size d) (open_stream (blob_prefix ty data ++ data ++ r) t) =
    Ok (v_val v, v_size v, v_bsz v, v_has v, open_stream r t) /\
  v_name v = nm /\ v_type v = ty /\ v_fmt v = t_fmt d.
Proof.
  intros map nm ty d data r Hty Hd. eexists. split; [reflexivity|].
  unfold data_wf in Hd. unfold blob_prefix, dec_var, read_value.
  destruct (t_fmt d) eqn:Ef; cbn [v_val v_size v_bsz v_has v_name v_type v_fmt].
  - destruct Hd as [Hl Hs]. rewrite (is_var_blob_false ty d) by (auto; left; congruence). cbn [app].
    rewrite binary_read_app' by auto. cbn [bind]. destruct (N.ltb_spec 8 (lenN data)); [lia|]. rewrite Hl. auto.
  - destruct Hd as [Hl Hs]. rewrite (is_var_blob_false ty d) by (auto; left; congruence). cbn [app].
    replace ((t_size d =? 1) || (t_size d =? 2) || (t_size d =? 4) || (t_size d =? 8)) with true.
    2:{ destruct Hs as [<-|[<-|[<-|[<-|[]]]]]; reflexivity. }
    rewrite binary_read_app' by auto. cbn [bind]. rewrite Hl. rewrite N.ltb_irrefl. auto.
  - destruct Hd as [Hl Hs]. rewrite (is_var_blob_false ty d) by (auto; left; congruence). cbn [app].
    rewrite binary_read_app' by auto. cbn [bind]. destruct (N.ltb_spec 8 (lenN data)); [lia|]. rewrite Hl. auto.
  - destruct Hd as [Hl Hs]. rewrite (is_var_blob_false ty d) by (auto; left; congruence). cbn [app].
    rewrite binary_read_app' by auto. cbn [bind]. destruct (N.ltb_spec 8 (lenN data)); [lia|].
    cbn [mo_compute abs_map bind]. rewrite Hl. destruct (am_compute map (le_val data) =? max64); cbn [negb]; auto.
  - destruct Hd as [Hl Ho].
    assert (Hok : ok (lenN data) || (lenN data =? 0) = true).
    { destruct (N.eqb_spec (lenN data) 0) as [E|E]; [apply orb_true_r|].
      rewrite Ho; [reflexivity|]. intros ->. apply E. reflexivity. }
    destruct Hl as [[Hz Hl]|[Hz Hl]].
    + rewrite (is_var_blob_true ty d) by auto. rewrite Hz. change (0 =? 0) with true. cbv iota.
      rewrite read_word_app by exact Hl. cbn [bind]. rewrite Hok.
      rewrite binary_read_app. cbn [bind]. rewrite N.ltb_irrefl. auto.
    + rewrite (is_var_blob_false ty d) by auto. cbn [app]. destruct (N.eqb_spec (t_size d) 0); [congruence|].
      cbn [bind]. rewrite <- Hl, Hok. rewrite binary_read_app. cbn [bind]. rewrite N.ltb_irrefl. auto.
  - destruct Hd.
Qed.

Lemma read_entry_enc : forall (map : amap) acc e r, entry_wf ok names types e ->
  read_entry ok abs_map names types map acc (open_stream (enc_entry types e ++ r) t) =
  ('(map', acc') <- step types map acc e ;; Ok (true, acc', map', open_stream r t)).
Proof.
  intros map acc e r He. destruct e as [id|nm ty data|a s|a]; cbn [enc_entry entry_wf step] in *; cbn [app];
    unfold read_entry; rewrite read_tag; cbn [bind].
  - change (schar x01) with 1%Z. rewrite good_open. cbn [negb orb Z.eqb Z.leb Z.compare Pos.compare Pos.compare_cont].
    cbn [Pos.eqb].
    rewrite binary_read_app' by (rewrite lenN_le_bytes; reflexivity). cbn [bind].
    rewrite lenN_le_bytes. change (N.of_nat 8 <? 8) with false. cbv iota.
    rewrite le_val_le_bytes_small by exact He. reflexivity.
  - change (schar x02) with 2%Z. rewrite good_open. cbn [negb orb Z.eqb Z.leb Z.compare Pos.compare Pos.compare_cont Pos.eqb].
    destruct He as (H1 & H2 & H3 & d & Hd & Hw). unfold read_var. rewrite <- !app_assoc.
    rewrite read_word_app by exact H1. cbn [bind]. rewrite read_word_app by exact H2. cbn [bind].
    rewrite Hd. destruct (N.leb_spec (lenN names) nm); [lia|].
    destruct (read_value_enc map nm ty d data r Hd Hw) as (v & Ev & Hr & E1 & E2 & E3).
    unfold blob_prefix in Hr. rewrite Hr. cbn [bind]. rewrite Ev.
    rewrite <- E1, <- E2, <- E3. destruct v; reflexivity.
  - change (schar x03) with 3%Z. rewrite good_open. cbn [negb orb Z.eqb Z.leb Z.compare Pos.compare Pos.compare_cont Pos.eqb].
    destruct He as [H1 H2]. unfold read_bufsz. rewrite <- app_assoc.
    rewrite read_word_app by exact H1. cbn [bind]. rewrite read_word_app by exact H2. cbn [bind b_addr b_size mo_update abs_map].
    destruct (am_update map a s); reflexivity.
  - change (schar x04) with 4%Z. rewrite good_open. cbn [negb orb Z.eqb Z.leb Z.compare Pos.compare Pos.compare_cont Pos.eqb].
    rewrite read_word_app by exact He. reflexivity.
Qed.

Lemma read_entry_dead : forall (map : amap) acc, read_entry ok abs_map names types map acc (dead t) = Throw (tail_err t).
Proof. intros. unfold read_entry, binary_read_into. rewrite binary_read_dead. reflexivity. Qed.

(** Outcomes other than a complete entry. *)
Definition entry_stop (h : history) (map : amap) (acc : pacc) (bs : list byte)
  (o : outcome (bool * pacc * amap * istream)) : Prop :=
  (bs = [] /\ o = Ok (false, acc, map, dead t)) \/
  (exists r, bs = x00 :: r /\ o = Ok (false, acc, map, open_stream r t)) \/
  (bs <> [] /\ exists acc' map', o = Ok (true, acc', map', dead t)) \/
  (exists e, o = Throw e) \/
  (exists k, o = UB k /\ ub_entry ok names types h bs k).

Lemma am_update_ub : forall h map a s k, am_ok h map -> a <= max64 -> am_update map a s = UB k ->
  k = UBadFree /\ a = 2 ^ 64 - 1 /\ s = 0 /\ (sentinel_allocs h <= sentinel_frees h)%nat.
Proof.
  intros h map a s k Hm Ha E. pose proof (am_ok_step h map a s Hm Ha) as H. rewrite E in H.
  destruct H as [-> H]. unfold sentinel_allocs, sentinel_frees in H. rewrite !filter_len_snoc in H.
  pose proof (ao_sent _ _ Hm) as HS. fold (sentinel_allocs h) in H. fold (sentinel_frees h) in H.
  cbn [fst snd] in H. destruct (N.eqb_spec a (2 ^ 64 - 1)) as [E1|E1]; cbn [andb] in H; [|lia].
  destruct (N.eqb_spec s 0); cbn [negb] in H; [|lia]. repeat split; auto. lia.
Qed.

Lemma am_update_ok_or_ub : forall map a s, (exists m, am_update map a s = Ok m) \/ (exists k, am_update map a s = UB k).
Proof.
  intros map a s. unfold am_update. destruct (s =? 0); [|left; eauto].
  induction map as [|[k v] m IH]; cbn [am_remove].
  - destruct (a =? max64); eauto.
  - destruct (k <? a).
    + destruct IH as [[m' ->]|[u ->]]; cbn [bind]; eauto.
    + destruct (k =? a); eauto.
Qed.

Lemma takeN_short : forall n (l : list byte), lenN l < n -> takeN n l = l.
Proof. intros. apply takeN_all. lia. Qed.

Lemma read_value_cases : forall h (map : amap) nm ty d r,
  nthN types ty = Some d -> type_wf d -> nm < lenN names -> nm < 2 ^ 32 -> ty < 2 ^ 32 ->
  (exists data q, r = blob_prefix ty data ++ data ++ q /\ data_wf ok d data) \/
  (exists x y z w, read_value ok abs_map map (t_fmt d) (t_size d) (open_stream r t) = Ok (x, y, z, w, dead t)) \/
  (exists e, read_value ok abs_map map (t_fmt d) (t_size d) (open_stream r t) = Throw e) \/
  (exists k, read_value ok abs_map map (t_fmt d) (t_size d) (open_stream r t) = UB k /\
     ub_entry ok names types h (x02 :: le_bytes 4 nm ++ le_bytes 4 ty ++ r) k).
Proof.
  intros h map nm ty d r Hd (Hw1 & Hw2 & Hw3) Hnm Hnm' Hty.
  destruct (split_data (t_size d) r) as [(data & q & -> & Hl)|Hs].
  - (* enough bytes for a fixed-size value *)
    destruct (t_fmt d) eqn:Ef; unfold blob_prefix.
    + destruct (N.le_gt_cases (t_size d) 8).
      * left. exists data, q. rewrite (is_var_blob_false ty d) by (auto; left; congruence).
        split; [reflexivity|]. unfold data_wf. rewrite Ef. split; auto.
      * right. right. right. exists UOob. split.
        -- unfold read_value. rewrite binary_read_app' by auto. cbn [bind]. destruct (N.ltb_spec 8 (lenN data)); [reflexivity|lia].
        -- apply (ub_wide ok names types h _ nm ty d (data ++ q)); auto. rewrite lenN_app; lia.
    + destruct ((t_size d =? 1) || (t_size d =? 2) || (t_size d =? 4) || (t_size d =? 8)) eqn:E.
      * left. exists data, q. rewrite (is_var_blob_false ty d) by (auto; left; congruence).
        split; [reflexivity|]. unfold data_wf. rewrite Ef. split; auto.
        repeat rewrite orb_true_iff in E. rewrite !N.eqb_eq in E. simpl. intuition auto.
      * right. right. left. unfold read_value. rewrite E. eauto.
    + destruct (N.le_gt_cases (t_size d) 8).
      * left. exists data, q. rewrite (is_var_blob_false ty d) by (auto; left; congruence).
        split; [reflexivity|]. unfold data_wf. rewrite Ef. split; auto.
      * right. right. right. exists UOob. split.
        -- unfold read_value. rewrite binary_read_app' by auto. cbn [bind]. destruct (N.ltb_spec 8 (lenN data)); [reflexivity|lia].
        -- apply (ub_wide ok names types h _ nm ty d (data ++ q)); auto. rewrite lenN_app; lia.
    + destruct (N.le_gt_cases (t_size d) 8).
      * left. exists data, q. rewrite (is_var_blob_false ty d) by (auto; left; congruence).
        split; [reflexivity|]. unfold data_wf. rewrite Ef. split; auto.
      * right. right. right. exists UOob. split.
        -- unfold read_value. rewrite binary_read_app' by auto. cbn [bind]. destruct (N.ltb_spec 8 (lenN data)); [reflexivity|lia].
        -- apply (ub_wide ok names types h _ nm ty d (data ++ q)); auto. rewrite lenN_app; lia.
    + destruct (N.eqb_spec (t_size d) 0) as [Ez|Ez].
      * (* variable-sized *)
        rewrite Ez in Hl. apply lenN_0 in Hl. subst data. cbn [app].
        destruct (word_cases 4 q) as [(size & q' & -> & Hsz)|Hsh].
        -- destruct (ok size || (size =? 0)) eqn:Eo.
           ++ destruct (split_data size q') as [(data & q & -> & Hl)|Hs].
              ** left. exists data, q. rewrite (is_var_blob_true ty d) by auto. rewrite Hl. split; [reflexivity|].
                 unfold data_wf. rewrite Ef, Hl. split; [left; auto|]. intro Hne.
                 destruct (N.eqb_spec size 0) as [E0|E0]; [subst size; apply lenN_0 in E0; congruence|].
                 rewrite orb_false_r in Eo. exact Eo.
              ** right. left. unfold read_value. rewrite Ez. change (0 =? 0) with true. cbv iota.
                 rewrite read_word_app by exact Hsz. cbn [bind]. rewrite Eo. rewrite binary_read_short by exact Hs. cbn [bind].
                 destruct (N.ltb_spec (lenN q') size); [|lia]. repeat eexists.
           ++ apply orb_false_iff in Eo. destruct Eo as [Eo E0]. apply N.eqb_neq in E0.
              unfold read_value. rewrite Ez. change (0 =? 0) with true. cbv iota. 
              rewrite read_word_app by exact Hsz. cbn [bind]. rewrite Eo. cbn [orb].
              destruct (N.eqb_spec size 0); [congruence|].
              destruct q' as [|b q'].
              ** rewrite binary_read_short by (rewrite lenN_nil; lia). cbn [bind]. rewrite lenN_nil.
                 right. left. repeat eexists.
              ** right. right. right. exists UNull. split.
                 --- destruct (split_data size (b :: q')) as [(data & q & E & Hl)|Hs].
                     +++ rewrite E. rewrite binary_read_app' by auto. cbn [bind].
                         destruct (N.eqb_spec (lenN data) 0); [lia|reflexivity].
                     +++ rewrite binary_read_short by exact Hs. cbn [bind]. rewrite lenN_cons.
                         destruct (N.eqb_spec (N.succ (lenN q')) 0); [lia|reflexivity].
                 --- apply (ub_null ok names types h _ nm ty d (le_bytes 4 size ++ b :: q') size (b :: q')); auto; try congruence; try discriminate.
        -- right. right. left. unfold read_value. rewrite Ez. change (0 =? 0) with true. cbv iota.
           rewrite read_word_short0 by exact Hsh. cbn [bind]. rewrite !binary_read_dead.
           destruct (ok (le_val q) || (le_val q =? 0)); cbn [bind]; eauto.
      * destruct (ok (t_size d)) eqn:Eo.
        -- left. exists data, q. rewrite (is_var_blob_false ty d) by auto. split; [reflexivity|].
           unfold data_wf. rewrite Ef, Hl. auto.
        -- right. right. right. exists UNull. split.
           ++ unfold read_value. destruct (N.eqb_spec (t_size d) 0); [congruence|]. cbn [bind]. rewrite Eo. cbn [orb].
              destruct (N.eqb_spec (t_size d) 0); [congruence|].
              rewrite binary_read_app' by auto. cbn [bind]. destruct (N.eqb_spec (lenN data) 0); [lia|reflexivity].
           ++ apply (ub_null ok names types h _ nm ty d (data ++ q) (t_size d) (data ++ q)); auto.
              intro X. apply app_eq_nil in X. destruct X as [-> _]. apply Ez. rewrite <- Hl. reflexivity.
    + congruence.
  - (* not enough bytes *)
    unfold read_value. destruct (t_fmt d) eqn:Ef.
    + rewrite binary_read_short by exact Hs. cbn [bind]. destruct (N.ltb_spec 8 (lenN r)).
      * right. right. right. exists UOob. split; [reflexivity|]. apply (ub_wide ok names types h _ nm ty d r); auto. lia.
      * right. left. repeat eexists.
    + destruct ((t_size d =? 1) || (t_size d =? 2) || (t_size d =? 4) || (t_size d =? 8)); [|eauto 6].
      rewrite binary_read_short by exact Hs. cbn [bind]. destruct (N.ltb_spec (lenN r) (t_size d)); [|lia].
      right. left. repeat eexists.
    + rewrite binary_read_short by exact Hs. cbn [bind]. destruct (N.ltb_spec 8 (lenN r)).
      * right. right. right. exists UOob. split; [reflexivity|]. apply (ub_wide ok names types h _ nm ty d r); auto. lia.
      * right. left. repeat eexists.
    + rewrite binary_read_short by exact Hs. cbn [bind]. destruct (N.ltb_spec 8 (lenN r)).
      * right. right. right. exists UOob. split; [reflexivity|]. apply (ub_wide ok names types h _ nm ty d r); auto. lia.
      * right. left. cbn [mo_compute abs_map bind]. destruct (negb (am_compute map (le_val r) =? max64)); repeat eexists.
    + destruct (N.eqb_spec (t_size d) 0); [lia|]. cbn [bind].
      destruct (ok (t_size d)) eqn:Eo; cbn [orb].
      * rewrite binary_read_short by exact Hs. cbn [bind]. destruct (N.ltb_spec (lenN r) (t_size d)); [|lia].
        right. left. repeat eexists.
      * destruct (N.eqb_spec (t_size d) 0); [lia|]. rewrite binary_read_short by exact Hs. cbn [bind].
        destruct (N.eqb_spec (lenN r) 0) as [E|E].
        -- right. left. repeat eexists.
        -- right. right. right. exists UNull. split; [reflexivity|].
           apply (ub_null ok names types h _ nm ty d r (t_size d) r); auto.
           intros ->. apply E. reflexivity.
    + congruence.
Qed.

Lemma schar_cases : forall b,
  b = x00 \/ b = x01 \/ b = x02 \/ b = x03 \/ b = x04 \/
  (schar b <> 0 /\ ((5 <= schar b)%Z \/ (schar b < 0)%Z))%Z.
Proof.
  intro b. unfold schar. pose proof (N_of_byte_lt b) as HB. unfold two8 in HB.
  destruct (N.ltb_spec (N_of_byte b) 128).
  - destruct (N.lt_ge_cases (N_of_byte b) 5) as [H5|H5]; [|right; right; right; right; right; split; lia].
    assert (Hc : N_of_byte b = 0 \/ N_of_byte b = 1 \/ N_of_byte b = 2 \/ N_of_byte b = 3 \/ N_of_byte b = 4) by lia.
    repeat destruct Hc as [Hc|Hc].
    + left. apply N_of_byte_inj. exact Hc.
    + right; left. apply N_of_byte_inj. exact Hc.
    + right; right; left. apply N_of_byte_inj. exact Hc.
    + right; right; right; left. apply N_of_byte_inj. exact Hc.
    + right; right; right; right; left. apply N_of_byte_inj. exact Hc.
  - right; right; right; right; right; split; lia.
Qed.

Lemma read_entry_cases : forall h (map : amap) acc bs, am_ok h map -> Forall type_wf types ->
  (exists e r, bs = enc_entry types e ++ r /\ entry_wf ok names types e) \/
  entry_stop h map acc bs (read_entry ok abs_map names types map acc (open_stream bs t)).
Proof.
  intros h map acc bs Hm HT. unfold entry_stop. destruct bs as [|b bs].
  { right. left. split; [reflexivity|]. unfold read_entry. rewrite read_tag_nil. cbn [bind].
    rewrite good_dead. reflexivity. }
  unfold read_entry. rewrite read_tag. cbn [bind]. rewrite good_open. cbn [negb orb].
  destruct (schar_cases b) as [->|[->|[->|[->|[->|[H0 Hb]]]]]].
  - right. right. left. exists bs. split; reflexivity.
  - change (schar x01) with 1%Z. cbn [Z.eqb Z.leb Z.compare Pos.compare Pos.compare_cont Pos.eqb].
    destruct (word_cases 8 bs) as [(x & r & -> & Hx)|Hs].
    + left. exists (EStmt x), r. split; [reflexivity|exact Hx].
    + right. right. right. left. split; [discriminate|]. rewrite binary_read_short by exact Hs. cbn [bind]. eauto.
  - change (schar x02) with 2%Z. cbn [Z.eqb Z.leb Z.compare Pos.compare Pos.compare_cont Pos.eqb].
    unfold read_var. destruct (word_cases 4 bs) as [(nm & r1 & -> & Hnm)|Hs].
    2:{ rewrite read_word_short0 by exact Hs. cbn [bind]. rewrite read_word_dead. cbn [bind]. right. eauto 8. }
    rewrite read_word_app by exact Hnm. cbn [bind].
    destruct (word_cases 4 r1) as [(ty & r2 & -> & Hty)|Hs].
    + rewrite read_word_app by exact Hty. cbn [bind].
      destruct (nthN types ty) as [d|] eqn:Ed; [|cbn [bind]; right; eauto 8].
      destruct (N.leb_spec (lenN names) nm); [cbn [bind]; right; eauto 8|].
      assert (Hwd : type_wf d) by (rewrite Forall_forall in HT; apply HT; eapply nthN_In; eauto).
      destruct (read_value_cases h map nm ty d r2 Ed Hwd) as [(data & q & -> & Hw)|[(x & y & z & w & ->)|[(e & ->)|(k & -> & Hk)]]]; auto; cbn [bind].
      * left. exists (EVar nm ty data), q. split.
        -- cbn [enc_entry app]. rewrite <- !app_assoc. unfold blob_prefix. reflexivity.
        -- cbn [entry_wf]. conj_split; auto. eauto.
      * right. right. right. left. split; [discriminate|eauto].
      * right. eauto 8.
      * right. right. right. right. right. exists k. split; [reflexivity|exact Hk].
    + rewrite read_word_short0 by exact Hs. cbn [bind].
      destruct (nthN types (le_val r1)) as [d|] eqn:Ed; [|cbn [bind]; right; eauto 8].
      destruct (N.leb_spec (lenN names) nm); [cbn [bind]; right; eauto 8|].
      assert (Hwd : type_wf d) by (rewrite Forall_forall in HT; apply HT; eapply nthN_In; eauto).
      destruct Hwd as (_ & _ & Hf).
      right. right. right. right. left.
      unfold read_value. destruct (t_fmt d); rewrite ?binary_read_dead; cbn [bind]; eauto.
      * destruct (_ || _); rewrite ?binary_read_dead; cbn [bind]; eauto.
      * rewrite read_word_dead. destruct (t_size d =? 0); cbn [bind]; eauto.
        rewrite binary_read_dead. destruct (_ || _); cbn [bind]; eauto.
  - change (schar x03) with 3%Z. cbn [Z.eqb Z.leb Z.compare Pos.compare Pos.compare_cont Pos.eqb].
    unfold read_bufsz. destruct (word_cases 8 bs) as [(a & r1 & -> & Ha)|Hs].
    2:{ rewrite read_word_short0 by exact Hs. cbn [bind]. rewrite read_word_dead. cbn [bind]. right. eauto 8. }
    rewrite read_word_app by exact Ha. cbn [bind].
    destruct (word_cases 8 r1) as [(s & r2 & -> & Hz)|Hs].
    + left. exists (EBuf a s), r2. split; [cbn [enc_entry app]; rewrite <- app_assoc; reflexivity|]. split; assumption.
    + rewrite read_word_short0 by exact Hs. cbn [bind b_addr b_size mo_update abs_map]. right.
      destruct (am_update_ok_or_ub map a (le_val r1)) as [[m' E]|[k E]]; rewrite E; cbn [bind].
      * right. right. left. split; [discriminate|eauto].
      * right. right. right. right. exists k. split; [reflexivity|].
        rewrite two8_pow8 in Ha.
        destruct (am_update_ub h map a (le_val r1) k Hm (le_max64 _ Ha) E) as (-> & -> & H0 & Hle).
        apply (ub_sentinel ok names types h _ r1); auto. rewrite takeN_short by exact Hs. exact H0.
  - change (schar x04) with 4%Z. cbn [Z.eqb Z.leb Z.compare Pos.compare Pos.compare_cont Pos.eqb].
    destruct (word_cases 8 bs) as [(x & r & -> & Hx)|Hs].
    + left. exists (EAux x), r. split; [reflexivity|exact Hx].
    + right. right. right. left. split; [discriminate|]. rewrite read_word_short0 by exact Hs. cbn [bind]. eauto.
  - right. right. right. right. left.
    destruct (Z.eqb_spec (schar b) 0); [lia|]. destruct (Z.leb_spec 5 (schar b)); [eauto|].
    destruct (Z.eqb_spec (schar b) 1); [lia|]. destruct (Z.eqb_spec (schar b) 3); [lia|].
    destruct (Z.eqb_spec (schar b) 2); [lia|]. destruct (Z.eqb_spec (schar b) 4); [lia|]. eauto.
Qed.
End Entries.
