(** What instrumented programs log: proofs. *)
From Coq Require Import Strings.String Permutation.
From Verif Require Import BaseProofs Types Compare PrintPred FormatSpec Instr InstrRun InstrSpec InstrText InstrFloat InstrTable InstrConc.

(** ** Values and bytes *)
Lemma le_val_lebytes_mod : forall n x, le_val (le_bytes n x) = x mod 2 ^ (8 * N.of_nat n).
Proof. intros. rewrite le_val_le_bytes. f_equal. change two8 with (2 ^ 8). now rewrite <- N.pow_mul_r. Qed.

Definition zbits (z : Z) : N := Z.to_N (z mod 2 ^ 64).

Lemma zbits_mod : forall (n : nat) z, In n [1; 2; 4; 8]%nat -> Z.of_N (zbits z mod 2 ^ (8 * N.of_nat n)) = (z mod 2 ^ (8 * Z.of_nat n))%Z.
Proof.
  intros n z I. unfold zbits. rewrite N2Z.inj_mod, Z2N.id by (apply Z.mod_pos_bound; reflexivity).
  cbn [In] in I. assert (X : forall a b, (0 < a)%Z -> (0 < b)%Z -> ((z mod (a * b)) mod a = z mod a)%Z).
  { intros a b Ha Hb. rewrite Z.rem_mul_r by lia. rewrite (Z.mul_comm a (_ mod _)), Z.mod_add by lia. apply Z.mod_mod. lia. }
  destruct I as [<-|[<-|[<-|[<-|[]]]]]; cbn [N.of_nat Z.of_nat].
  - change (2 ^ 64)%Z with (2 ^ 8 * 2 ^ 56)%Z. apply X; reflexivity.
  - change (2 ^ 64)%Z with (2 ^ 16 * 2 ^ 48)%Z. apply X; reflexivity.
  - change (2 ^ 64)%Z with (2 ^ 32 * 2 ^ 32)%Z. apply X; reflexivity.
  - change (2 ^ 64)%Z with (2 ^ 64 * 1)%Z. apply X; reflexivity.
Qed.

Lemma signed_bytes : forall (n : nat) z, In n [1; 2; 4; 8]%nat ->
  (- 2 ^ (8 * Z.of_nat n - 1) <= z < 2 ^ (8 * Z.of_nat n - 1))%Z ->
  signed_val (le_bytes n (zbits z)) = z.
Proof.
  intros n z I R. unfold signed_val. rewrite le_val_lebytes_mod, (zbits_mod _ _ I).
  unfold lenN. rewrite le_bytes_length. rewrite nat_N_Z.
  assert (E : (2 ^ (8 * Z.of_nat n) = 2 * 2 ^ (8 * Z.of_nat n - 1))%Z).
  { rewrite <- Z.pow_succ_r; [f_equal; lia|]. cbn [In] in I. lia. }
  rewrite E. set (h := (2 ^ (8 * Z.of_nat n - 1))%Z) in *.
  assert (Hh : (0 < h)%Z) by (apply Z.pow_pos_nonneg; cbn [In] in I; lia).
  destruct (Z_lt_le_dec z 0).
  - assert (M : (z mod (2 * h) = z + 2 * h)%Z).
    { symmetry. apply Z.mod_unique with (-1)%Z; lia. }
    rewrite M. destruct (Z.ltb_spec (z + 2 * h) h); lia.
  - rewrite Z.mod_small by lia. destruct (Z.ltb_spec z h); lia.
Qed.

Lemma unsigned_bytes : forall (n : nat) z, In n [1; 2; 4; 8]%nat -> (0 <= z < 2 ^ (8 * Z.of_nat n))%Z ->
  le_val (le_bytes n (zbits z)) = Z.to_N z.
Proof.
  intros n z I R. rewrite le_val_lebytes_mod. apply N2Z.inj. rewrite (zbits_mod _ _ I). rewrite Z.mod_small by auto. lia.
Qed.

Lemma c_ints_sizes : forall w sg n, In (w, sg, n) c_ints -> In (N.to_nat n) [1; 2; 4; 8]%nat.
Proof.
  intros w sg n I. unfold c_ints in I. cbn [In] in I.
  repeat (destruct I as [I|I]; [injection I as _ _ <-; cbn; auto 6|]). destruct I.
Qed.

Lemma kind_int_size : forall t sg m, has_kind t (CInt sg m) -> In (N.to_nat m) [1; 2; 4; 8]%nat.
Proof. intros t sg m H. inversion H; subst. eapply c_ints_sizes; eauto. Qed.

Lemma lenN_le_bytes : forall n x, lenN (le_bytes n x) = N.of_nat n.
Proof. intros. unfold lenN. now rewrite le_bytes_length. Qed.

Section Prog.
Variable test : name -> name -> bool.
Variable texts : name -> Prop.
Hypothesis AG : forall a b, texts a -> texts b -> (test a b = true <-> a = b).
Variable kf : name -> skind.

(** ** Arguments of the inserted calls *)
Definition refers (st : istate) (n : name) (t : ctype) (ps : bool) (ni ti : N) (f : fmt) (size : N) : Prop :=
  nthN (names_of st) ni = Some n /\
  (exists d, nthN (types_of st) ti = Some d /\ t_fmt d = f /\ t_size d = size /\
     nthN (names_of st) (t_name d) = Some (type_text t)) /\
  type_format_and_size t ps = Some (f, size).

Definition arg_ok (st : istate) (ps : bool) (x : name * ctype) (a : vararg) : Prop :=
  va_expr a = fst x /\ type_ok kf (snd x) /\ compiles ps (snd x) /\
  refers st (fst x) (snd x) ps (va_name a) (va_type a) (va_fmt a) (va_size a) /\
  exists k, has_kind (snd x) k /\ as_string ps k = false.
Definition blob_ok (st : istate) (ps : bool) (x : name * ctype) (a : blobarg) : Prop :=
  ba_expr a = fst x /\ type_ok kf (snd x) /\ compiles ps (snd x) /\
  refers st (fst x) (snd x) ps (ba_name a) (ba_type a) BLOB 0 /\
  exists k, has_kind (snd x) k /\ as_string ps k = true.

Lemma names_ext : forall a b, ext a b -> exists x, names_of b = names_of a ++ x.
Proof. intros a b ((x & E) & _). exists (map fst x). unfold names_of. now rewrite E, map_app. Qed.
Lemma types_ext : forall a b, ext a b -> exists x, types_of b = types_of a ++ x.
Proof. intros a b (_ & _ & (x & E)). exists (map snd x). unfold types_of. now rewrite E, map_app. Qed.

Lemma refers_ext : forall a b n t ps ni ti f s, ext a b -> refers a n t ps ni ti f s -> refers b n t ps ni ti f s.
Proof.
  intros a b n t ps ni ti f s X (H1 & (d & H2 & H3 & H4 & H5) & H6).
  destruct (names_ext _ _ X) as (x & E1). destruct (types_ext _ _ X) as (y & E2). unfold refers. rewrite E1, E2.
  split; [apply nthN_ext; auto|]. split; auto. exists d. repeat split; auto using nthN_ext.
Qed.
Lemma arg_ext : forall a b ps x v, ext a b -> arg_ok a ps x v -> arg_ok b ps x v.
Proof. intros a b ps x v X (H1 & H2 & H3 & H4 & H5). unfold arg_ok. intuition eauto using refers_ext. Qed.
Lemma blob_ext : forall a b ps x v, ext a b -> blob_ok a ps x v -> blob_ok b ps x v.
Proof. intros a b ps x v X (H1 & H2 & H3 & H4 & H5). unfold blob_ok. intuition eauto using refers_ext. Qed.

Definition var_pre (ps : bool) (x : name * ctype) : Prop :=
  texts (fst x) /\ texts (type_text (snd x)) /\ type_ok kf (snd x) /\ compiles ps (snd x).

Lemma instrument_var_spec : forall n t ps st vs bs st', sinv texts kf st -> var_pre ps (n, t) ->
  instrument_var test n t ps st = (vs, bs, st') ->
  sinv texts kf st' /\ ext st st' /\
  match kind_fn t with
  | None => vs = [] /\ bs = []
  | Some k =>
      if as_string ps k then vs = [] /\ exists b, bs = [b] /\ blob_ok st' ps (n, t) b
      else (k = CString /\ ps = false /\ vs = [] /\ bs = []) \/
           (k <> CString /\ bs = [] /\ exists a, vs = [a] /\ arg_ok st' ps (n, t) a)
  end /\
  (forall m, In m (names_of st') -> In m (names_of st) \/ m = n \/ m = type_text t).
Proof.
  intros n t ps st vs bs st' I (T1 & T2 & OK & C) E. cbn [fst snd] in *. unfold instrument_var in E.
  pose proof (fmt_kind _ _ _ OK C) as FK. destruct (type_format_and_size t ps) as [[f size]|] eqn:FS.
  2:{ injection E as <- <- <-. split; auto. split; [apply ext_refl|]. split; [|auto].
      destruct (kind_fn t) as [k|] eqn:K; auto. unfold fmt_of_kind in FK. destruct (as_string ps k) eqn:A; [discriminate|].
      destruct k as [[]| | | | |]; try discriminate. left. unfold as_string in A. rewrite andb_true_r in A. auto. }
  destruct (kind_fn t) as [k|] eqn:K; [|discriminate].
  destruct (get_type_index test t f size ps st) as [ti st1] eqn:GT.
  destruct (get_type_index_spec _ _ AG _ _ _ _ _ _ _ _ I OK C T2 FS GT) as (I1 & X1 & (d & D1 & D2 & D3 & D4) & M1).
  destruct (get_name_index test n st1) as [ni st2] eqn:GN.
  destruct (get_name_index_spec _ _ AG kf _ _ _ _ I1 T1 GN) as (I2 & X2 & N2 & TE & DE & M2).
  assert (HK : has_kind t k) by (apply has_kind_fn; auto).
  assert (R : refers st2 n t ps ni ti f size).
  { split; auto. split; auto. destruct (names_ext _ _ X2) as (y & E1). destruct (types_ext _ _ X2) as (z & E2).
    exists d. rewrite E1, E2. repeat split; auto using nthN_ext. }
  assert (CS : ps && c_string_type_p t = match k with CCharPointer => ps | _ => false end).
  { rewrite (c_string_p_fn _ _ OK), K. destruct k; try apply andb_false_r. apply andb_true_r. }
  assert (PS : ps && cpp_string_type_p t = match k with CString => ps | _ => false end).
  { destruct ps.
    - rewrite (cpp_string_p_fn _ _ OK), K by (apply C; auto). destruct k; auto.
    - cbn. destruct k; auto. }
  rewrite CS, PS in E.
  assert (G : sinv texts kf st2 /\ ext st st2) by (split; [auto|eapply ext_trans; eauto]).
  assert (NM : forall m, In m (names_of st2) -> In m (names_of st) \/ m = n \/ m = type_text t).
  { intros m Hm. apply M2 in Hm. destruct Hm as [Hm| ->]; auto. apply M1 in Hm. tauto. }
  assert (ST : st' = st2).
  { destruct (match k with CCharPointer => ps | _ => false end); [|destruct (match k with CString => ps | _ => false end)]; now injection E. }
  subst st'. split; [apply G|]. split; [apply G|]. split; [|exact NM]. clear G NM M1 M2 CS PS.
  destruct (as_string ps k) eqn:AS.
  - assert (FB : f = BLOB /\ size = 0).
    { unfold fmt_of_kind in FK. rewrite AS in FK. injection FK as -> ->. auto. }
    destruct FB as [-> ->].
    assert (X : vs = [] /\ bs = [mkBA ni ti n]).
    { unfold as_string in AS. apply andb_true_iff in AS. destruct AS as [-> AS]. destruct k; try discriminate AS; cbn in E; injection E as <- <-; auto. }
    destruct X as (-> & ->). split; auto. eexists. split; [reflexivity|].
    unfold blob_ok. cbn [fst snd ba_expr ba_name ba_type]. split; auto. split; auto. split; auto. split; auto. exists k. auto.
  - right. assert (NS : k <> CString).
    { intros ->. unfold fmt_of_kind in FK. rewrite AS in FK. discriminate FK. }
    split; auto.
    assert (X : vs = [mkVA ni ti size f n] /\ bs = []).
    { unfold as_string in AS. destruct k; try (injection E as <- <-; auto; fail); try congruence.
      rewrite andb_true_r in AS. subst ps. injection E as <- <-. auto. }
    destruct X as (-> & ->). split; auto. eexists. split; [reflexivity|].
    unfold arg_ok. cbn [fst snd va_expr va_name va_type va_fmt va_size]. split; auto. split; auto. split; auto. split; auto. exists k. auto.
Qed.

Lemma instrument_vars_spec : forall l ps st vs bs st', sinv texts kf st -> Forall (var_pre ps) l ->
  instrument_vars test l ps st = (vs, bs, st') ->
  sinv texts kf st' /\ ext st st' /\
  (exists a b, logged_vars ps false l a /\ logged_vars ps true l b /\
     Forall2 (arg_ok st' ps) a vs /\ Forall2 (blob_ok st' ps) b bs) /\
  (forall m, In m (names_of st') -> In m (names_of st) \/ In m (map fst l) \/ In m (map (fun x => type_text (snd x)) l)).
Proof.
  induction l as [|[n t] l IH]; intros ps st vs bs st' I F E.
  - injection E as <- <- <-. split; auto. split; [apply ext_refl|]. split; auto. exists [], []. repeat split; constructor.
  - cbn [instrument_vars] in E. inversion F as [|? ? FP F']; subst.
    destruct (instrument_var test n t ps st) as [[v1 b1] st1] eqn:E1.
    destruct (instrument_vars test l ps st1) as [[v2 b2] st2] eqn:E2. injection E as <- <- <-.
    destruct (instrument_var_spec _ _ _ _ _ _ _ I FP E1) as (I1 & X1 & K1 & M1).
    destruct (IH _ _ _ _ _ I1 F' E2) as (I2 & X2 & (a & b & La & Lb & Fa & Fb) & M2).
    split; auto. split; [eapply ext_trans; eauto|]. split.
    2:{ intros m Hm. apply M2 in Hm. cbn. destruct Hm as [Hm|Hm]; [apply M1 in Hm; destruct Hm as [|[->| ->]]|destruct Hm]; auto. }
    destruct (kind_fn t) as [k|] eqn:K.
    + assert (HK : has_kind t k) by (apply has_kind_fn; auto).
      destruct (as_string ps k) eqn:A.
      * destruct K1 as (-> & x & -> & B). exists a, ((n, t) :: b). repeat split; auto.
        -- eapply lv_other; eauto.
        -- eapply lv_take; eauto. intros ->. unfold as_string in A. rewrite andb_true_r in A. auto.
        -- constructor; auto. eapply blob_ext; eauto.
      * destruct K1 as [(-> & -> & -> & ->)|(NS & -> & x & -> & B)].
        -- exists a, b. repeat split; auto; apply lv_none; auto; intros k' HK'; apply has_kind_fn in HK'; rewrite K in HK'; injection HK' as <-; auto.
        -- exists ((n, t) :: a), b. repeat split; auto.
           ++ apply lv_take with k; auto; intros; congruence.
           ++ eapply lv_other; eauto.
           ++ constructor; auto. eapply arg_ext; eauto.
    + destruct K1 as (-> & ->). exists a, b. repeat split; auto; apply lv_none; auto; intros k' HK'; apply has_kind_fn in HK'; congruence.
Qed.

(** ** Running the inserted calls with the final tables *)
Variable fin : istate.
Hypothesis FINV : sinv texts kf fin.
Notation NN := (names_of fin).
Notation TT := (types_of fin).
Hypothesis LN : lenN NN < 2 ^ 32.
Hypothesis LT : lenN TT < 2 ^ 32.

Definition yes (n : N) : bool := true.

(** Entry [e] logs variable [y] of the environment. *)
Definition logs (env : name -> rvalue) (y : bool * name * ctype) (e : entry) : Prop :=
  exists ni ti data, e = EVar ni ti data /\ entry_wf yes NN TT e /\
    forall tr h x, tr_names tr = NN -> tr_types tr = TT -> var_of TT h ni ti data x ->
      var_shows tr (fst (fst y)) (snd (fst y)) (snd y) (env (snd (fst y))) x.

Lemma is_var_blob_false : forall ti d, nthN TT ti = Some d -> t_fmt d <> BLOB -> is_var_blob TT ti = false.
Proof. intros ti d H NB. unfold is_var_blob. rewrite H. destruct d as [a [] c]; auto. cbn in NB. congruence. Qed.
Lemma is_var_blob_true : forall ti d, nthN TT ti = Some d -> t_fmt d = BLOB -> t_size d = 0 -> is_var_blob TT ti = true.
Proof. intros ti d H NB Z. unfold is_var_blob. rewrite H. destruct d as [a [] c]; cbn in *; try discriminate. now subst. Qed.

Lemma run_var : forall env ps x a, arg_ok fin ps x a -> (forall k, has_kind (snd x) k -> loggable k (env (fst x))) ->
  exists ws e, write_trace_variable env a = Ok (map AWrite ws) /\ concat ws = enc_entry TT e /\ logs env (ps, fst x, snd x) e.
Proof.
  intros env ps [n t] [ni ti size f ex] (EX & OK & C & (RN & (d & D1 & D2 & D3 & D4) & FS) & (k & HK & AS)) LG.
  cbn [fst snd va_expr va_name va_type va_fmt va_size] in *. subst ex. specialize (LG k HK).
  rewrite (fmt_kind _ _ _ OK C) in FS. pose proof HK as KF. apply has_kind_fn in KF. rewrite KF in FS.
  unfold fmt_of_kind in FS. rewrite AS in FS.
  assert (NB : f <> BLOB) by (destruct k as [[]| | | | |]; congruence).
  assert (LNI : ni < 2 ^ 32) by (apply nthN_Some_lt in RN; lia).
  assert (LTI : ti < 2 ^ 32) by (apply nthN_Some_lt in D1; lia).
  assert (LNI' : ni < lenN NN) by (apply nthN_Some_lt in RN; lia).
  assert (MAIN : exists data, (exists s, pass (env n) = Ok s /\ write_value f size s = Ok [AWrite data]) /\
    data_wf yes d data /\ (forall v, value_of f data v -> shows ps k (env n) f (lenN data) v)).
  { destruct LG as [IN LG]. destruct k as [[] m| | | | |]; cbn in IN; destruct (env n) as [z|b|b|ad s|s] eqn:EV; try (exfalso; exact IN); try discriminate FS; injection FS as <- <-.
    - pose proof (kind_int_size _ _ _ HK) as I.
      exists (le_bytes (N.to_nat m) (zbits z)).
      assert (LB : lenN (le_bytes (N.to_nat m) (zbits z)) = m) by (rewrite lenN_le_bytes; lia).
      assert (HM : In m [1; 2; 4; 8]) by (cbn [In] in *; lia).
      split; [|split].
      + eexists. split; [reflexivity|]. unfold write_value. cbn [In] in HM.
        destruct HM as [<-|[<-|[<-|[<-|[]]]]]; reflexivity.
      + unfold data_wf. rewrite D2, D3. split; auto.
      + intros v (u & -> & Hu & Hs). rewrite LB. apply sh_signed; auto. rewrite Hs.
        apply signed_bytes; auto. rewrite N_nat_Z. auto.
    - pose proof (kind_int_size _ _ _ HK) as I.
      exists (le_bytes (N.to_nat m) (zbits z)).
      assert (LB : lenN (le_bytes (N.to_nat m) (zbits z)) = m) by (rewrite lenN_le_bytes; lia).
      assert (HM : In m [1; 2; 4; 8]) by (cbn [In] in *; lia).
      split; [|split].
      + eexists. split; [reflexivity|]. unfold write_value. cbn [In] in HM.
        destruct HM as [<-|[<-|[<-|[<-|[]]]]]; reflexivity.
      + unfold data_wf. rewrite D2, D3. split; auto. cbn [In] in HM. lia.
      + intros v ->. rewrite LB. rewrite unsigned_bytes; auto; [|rewrite N_nat_Z; auto]. apply sh_unsigned.
    - exists (le_bytes 4 b). cbn [pass]. split; [|split].
      + eexists. split; [reflexivity|]. cbn. rewrite narrow_widen; auto.
      + unfold data_wf. rewrite D2, D3. split; [reflexivity|lia].
      + intros v ->. rewrite le_val_lebytes_mod. rewrite N.mod_small by exact IN. apply sh_float.
    - exists (le_bytes 8 b). cbn [pass]. split; [|split].
      + eexists. split; reflexivity.
      + unfold data_wf. rewrite D2, D3. split; [reflexivity|lia].
      + intros v ->. rewrite le_val_lebytes_mod. rewrite N.mod_small by exact IN. apply sh_double.
    - exists (le_bytes 8 ad). cbn [pass]. split; [|split].
      + eexists. split; reflexivity.
      + unfold data_wf. rewrite D2, D3. split; [reflexivity|lia].
      + intros v ->. rewrite le_val_lebytes_mod. rewrite N.mod_small by exact IN. apply sh_ptr; auto.
    - exists (le_bytes 8 ad). cbn [pass]. split; [|split].
      + eexists. split; reflexivity.
      + unfold data_wf. rewrite D2, D3. split; [reflexivity|lia].
      + intros v ->. rewrite le_val_lebytes_mod. rewrite N.mod_small by apply IN. apply sh_ptr; auto. }
  destruct MAIN as (data & (s & P & W) & DW & SH).
  exists [[x02]; le_bytes 4 ni; le_bytes 4 ti; data], (EVar ni ti data). split; [|split].
  - unfold write_trace_variable. cbn [va_expr va_fmt va_size va_name va_type]. rewrite P. cbn [bind]. rewrite W. reflexivity.
  - cbn [concat enc_entry]. rewrite (is_var_blob_false _ _ D1) by congruence. cbn [app]. now rewrite app_nil_r.
  - exists ni, ti, data. split; auto. split; [cbn; repeat split; auto; exists d; auto|].
    intros tr h x E1 E2 (V1 & V2 & V3 & d' & V4 & V5 & V6 & _). rewrite D1 in V4. injection V4 as <-.
    unfold var_shows. cbn [fst snd]. rewrite E1, E2, V1, V2, V3, V5, D2. split; auto. split; [exists d; auto|].
    exists k. split; auto. apply SH. now rewrite <- D2.
Qed.

Lemma run_blob : forall env ps x a, blob_ok fin ps x a -> (forall k, has_kind (snd x) k -> loggable k (env (fst x))) ->
  exists ws e, write_trace_blob env a = Ok (map AWrite ws) /\ concat ws = enc_entry TT e /\ logs env (ps, fst x, snd x) e.
Proof.
  intros env ps [n t] [ni ti ex] (EX & OK & C & (RN & (d & D1 & D2 & D3 & D4) & FS) & (k & HK & AS)) LG.
  cbn [fst snd ba_expr ba_name ba_type] in *. subst ex. specialize (LG k HK).
  assert (LNI : ni < 2 ^ 32) by (apply nthN_Some_lt in RN; lia).
  assert (LTI : ti < 2 ^ 32) by (apply nthN_Some_lt in D1; lia).
  assert (LNI' : ni < lenN NN) by (apply nthN_Some_lt in RN; lia).
  unfold as_string in AS. apply andb_true_iff in AS. destruct AS as [-> AS].
  assert (MAIN : exists s, (env n = RString s \/ exists a, env n = RPtr a s) /\ lenN s < 2 ^ 32 /\ shows true k (env n) BLOB (lenN s) (VBlob s)).
  { destruct LG as [IN LG]. destruct k as [[] m| | | | |]; try discriminate AS; cbn in IN; destruct (env n) as [z|b|b|ad s|s] eqn:EV; try (exfalso; exact IN).
    - exists s. split; eauto. split; auto. apply sh_cstr; auto.
    - exists s. split; eauto. split; auto. apply sh_str; auto. }
  destruct MAIN as (s & EV & LS & SH).
  exists [[x02]; le_bytes 4 ni; le_bytes 4 ti; le_bytes 4 (lenN s); s], (EVar ni ti s). split; [|split].
  - unfold write_trace_blob. cbn [ba_expr ba_name ba_type].
    assert (SM : lenN s mod two32 = lenN s) by (apply N.mod_small; exact LS).
    destruct EV as [-> | (a & ->)]; cbn [bind]; rewrite SM, takeN_all by lia; reflexivity.
  - cbn [concat enc_entry]. rewrite (is_var_blob_true _ _ D1) by congruence. cbn [app]. now rewrite app_nil_r.
  - exists ni, ti, s. split; auto. split.
    + cbn. repeat split; auto. exists d. split; auto. unfold data_wf. rewrite D2. split; auto.
    + intros tr h x E1 E2 (V1 & V2 & V3 & d' & V4 & V5 & V6 & _). rewrite D1 in V4. injection V4 as <-.
      unfold var_shows. cbn [fst snd]. rewrite E1, E2, V1, V2, V3, V5, D2. split; auto. split; [exists d; auto|].
      exists k. split; auto. rewrite D2 in V6. cbn in V6. rewrite V6. auto.
Qed.

Lemma mapC_app : forall A (f : A -> outcome (list action)) l m a b, mapC f l = Ok a -> mapC f m = Ok b -> mapC f (l ++ m) = Ok (a ++ b).
Proof.
  induction l as [|x l IH]; intros m a b E F; cbn [mapC app] in *.
  - injection E as <-. auto.
  - destruct (f x) as [ax| | | |]; cbn [bind] in *; try discriminate.
    destruct (mapC f l) as [al| | | |]; cbn [bind] in *; try discriminate. injection E as <-.
    rewrite (IH m al b eq_refl F). cbn [bind]. now rewrite app_assoc.
Qed.

Lemma logged_sub : forall ps b l a, logged_vars ps b l a -> forall x, In x a -> In x l.
Proof. induction 1; cbn; intros x I; auto; try tauto. destruct I as [<-|I]; auto. Qed.

Lemma run_group : forall env ps l st code st', sinv texts kf st -> Forall (var_pre ps) l ->
  Forall (fun x => forall k, has_kind (snd x) k -> loggable k (env (fst x))) l ->
  instrument_c_exprs test l ps st = (code, st') -> ext st' fin ->
  sinv texts kf st' /\ ext st st' /\
  (exists a b, logged_vars ps false l a /\ logged_vars ps true l b /\
    exists ws es, run_stmts env code = Ok (map AWrite ws) /\ concat ws = enc_entries TT es /\
      Forall2 (logs env) (map (fun x => (ps, fst x, snd x)) (a ++ b)) es).
Proof.
  intros env ps l st code st' I F LG E XF. unfold instrument_c_exprs in E.
  destruct (instrument_vars test l ps st) as [[vs bs] st1] eqn:EI. injection E as <- ->.
  destruct (instrument_vars_spec _ _ _ _ _ _ I F EI) as (I1 & X1 & (a & b & La & Lb & Fa & Fb) & _).
  split; auto. split; auto. exists a, b. split; auto. split; auto.
  assert (RV : exists ws es, mapC (write_trace_variable env) vs = Ok (map AWrite ws) /\ concat ws = enc_entries TT es /\
    Forall2 (logs env) (map (fun x => (ps, fst x, snd x)) a) es).
  { assert (LGa : Forall (fun x => forall k, has_kind (snd x) k -> loggable k (env (fst x))) a).
    { apply Forall_forall. intros x Ix. rewrite Forall_forall in LG. exact (LG x (logged_sub _ _ _ _ La _ Ix)). }
    clear La EI LG. induction Fa as [|x y a vs AO _ IH].
    - exists [], []. repeat split; constructor.
    - inversion LGa; subst. destruct IH as (ws' & es' & E1' & E2' & E3'); auto.
      destruct (run_var env ps x y) as (ws & e & E1 & E2 & E3); eauto using arg_ext.
      exists (ws ++ ws'), (e :: es'). cbn [mapC]. rewrite E1. cbn [bind]. rewrite E1'. cbn [bind]. rewrite map_app. split; auto.
      split; [rewrite concat_app, E2, E2'; reflexivity|]. cbn. constructor; auto. }
  assert (RB : exists ws es, mapC (write_trace_blob env) bs = Ok (map AWrite ws) /\ concat ws = enc_entries TT es /\
    Forall2 (logs env) (map (fun x => (ps, fst x, snd x)) b) es).
  { assert (LGb : Forall (fun x => forall k, has_kind (snd x) k -> loggable k (env (fst x))) b).
    { apply Forall_forall. intros x Ix. rewrite Forall_forall in LG. exact (LG x (logged_sub _ _ _ _ Lb _ Ix)). }
    clear Lb EI LG. induction Fb as [|x y b bs AO _ IH].
    - exists [], []. repeat split; constructor.
    - inversion LGb; subst. destruct IH as (ws' & es' & E1' & E2' & E3'); auto.
      destruct (run_blob env ps x y) as (ws & e & E1 & E2 & E3); eauto using blob_ext.
      exists (ws ++ ws'), (e :: es'). cbn [mapC]. rewrite E1. cbn [bind]. rewrite E1'. cbn [bind]. rewrite map_app. split; auto.
      split; [rewrite concat_app, E2, E2'; reflexivity|]. cbn. constructor; auto. }
  destruct RV as (w1 & e1 & V1 & V2 & V3). destruct RB as (w2 & e2 & B1 & B2 & B3).
  exists (w1 ++ w2), (e1 ++ e2). split; [|split].
  - unfold run_stmts. rewrite map_app. apply mapC_app.
    + destruct vs; cbn [mapC run_stmt] in *; [exact V1|]. change (run_stmt env (IVars (v :: vs))) with (mapC (write_trace_variable env) (v :: vs)).
      rewrite V1. cbn [bind]. now rewrite app_nil_r.
    + destruct bs; cbn [mapC run_stmt] in *; [exact B1|]. change (run_stmt env (IBlobs (b0 :: bs))) with (mapC (write_trace_blob env) (b0 :: bs)).
      rewrite B1. cbn [bind]. now rewrite app_nil_r.
  - rewrite concat_app, V2, B2. unfold enc_entries. now rewrite map_app, concat_app.
  - rewrite map_app. apply Forall2_app; auto.
Qed.

Definition group_pre (env : name -> rvalue) (g : group) : Prop :=
  Forall (var_pre (fst g)) (snd g) /\
  Forall (fun x => forall k, has_kind (snd x) k -> loggable k (env (fst x))) (snd g).

Lemma run_extra : forall env gs st code st', sinv texts kf st -> Forall (group_pre env) gs ->
  extra_stmts test gs st = (code, st') -> ext st' fin ->
  exists l ws es, site_vars gs l /\ run_stmts env code = Ok (map AWrite ws) /\ concat ws = enc_entries TT es /\
    Forall2 (logs env) l es.
Proof.
  intros env gs. induction gs as [|[ps l] gs IH]; intros st code st' I F E XF; cbn [extra_stmts] in E.
  - injection E as <- <-. exists [], [], []. repeat split; constructor.
  - inversion F as [|? ? [F1 F2] F']; subst. cbn [fst snd] in *.
    destruct (instrument_c_exprs test l ps st) as [s1 st1] eqn:E1.
    destruct (extra_stmts test gs st1) as [s2 st2] eqn:E2. injection E as <- ->.
    assert (PRE : sinv texts kf st1 /\ ext st1 st').
    { clear IH. assert (X : sinv texts kf st1).
      { unfold instrument_c_exprs in E1. destruct (instrument_vars test l ps st) as [[vs bs] st3] eqn:EI. injection E1 as _ <-.
        destruct (instrument_vars_spec _ _ _ _ _ _ I F1 EI) as (I1 & _). auto. }
      split; auto. clear -E2 F' X AG. revert s2 st1 st' X E2. induction gs as [|[p l] gs IH]; cbn [extra_stmts]; intros s2 st1 st' X E2.
      - injection E2 as _ <-. apply ext_refl.
      - destruct (instrument_c_exprs test l p st1) as [u st3] eqn:E3. destruct (extra_stmts test gs st3) as [v st4] eqn:E4. injection E2 as _ <-.
        inversion F' as [|? ? [G1 G2] G']; subst. cbn [fst snd] in *.
        unfold instrument_c_exprs in E3. destruct (instrument_vars test l p st1) as [[vs bs] st5] eqn:EI. injection E3 as _ <-.
        destruct (instrument_vars_spec _ _ _ _ _ _ X G1 EI) as (I1 & X1 & _). eapply ext_trans; [exact X1|]. eapply IH; eauto. }
    destruct PRE as [I1 X1].
    destruct (run_group env ps l st s1 st1 I F1 F2 E1) as (_ & _ & a & b & La & Lb & w1 & e1 & R1 & R2 & R3); [eapply ext_trans; eauto|].
    destruct (IH _ _ _ I1 F' E2 XF) as (l2 & w2 & e2 & V & S1 & S2 & S3).
    exists (map (fun x => (ps, fst x, snd x)) (a ++ b) ++ l2), (w1 ++ w2), (e1 ++ e2).
    split; [constructor; auto|]. split; [|split].
    + rewrite map_app. apply mapC_app; auto.
    + rewrite concat_app, R2, S2. unfold enc_entries. now rewrite map_app, concat_app.
    + apply Forall2_app; auto.
Qed.

(** State after a site and after all sites. *)
Lemma extra_spec : forall gs st code st', sinv texts kf st -> Forall (fun g => Forall (var_pre (fst g)) (snd g)) gs ->
  extra_stmts test gs st = (code, st') -> sinv texts kf st' /\ ext st st'.
Proof.
  induction gs as [|[ps l] gs IH]; intros st code st' I F E; cbn [extra_stmts] in E.
  - injection E as <- <-. split; auto. apply ext_refl.
  - inversion F; subst. cbn [fst snd] in *.
    destruct (instrument_c_exprs test l ps st) as [s1 st1] eqn:E1.
    destruct (extra_stmts test gs st1) as [s2 st2] eqn:E2. injection E as <- ->.
    unfold instrument_c_exprs in E1. destruct (instrument_vars test l ps st) as [[vs bs] st3] eqn:EI. injection E1 as _ <-.
    destruct (instrument_vars_spec _ _ _ _ _ _ I H1 EI) as (I1 & X1 & _).
    destruct (IH _ _ _ I1 H2 E2) as [I2 X2]. split; auto. eapply ext_trans; eauto.
Qed.

Lemma run_site : forall env id gs st code st', sinv texts kf st -> Forall (group_pre env) gs ->
  instrument_ast test id gs st = (code, st') -> ext st' fin -> id < 2 ^ 64 ->
  exists ws es l, run_stmts env code = Ok (ALock :: map AWrite ws ++ [AFlush; AUnlock]) /\
    concat ws = enc_point TT (EStmt id :: es) /\ site_vars gs l /\ Forall2 (logs env) l es.
Proof.
  intros env id gs st code st' I F E XF HI. unfold instrument_ast in E.
  destruct (extra_stmts test gs st) as [extra st1] eqn:EE. injection E as <- <-.
  destruct (run_extra env gs st extra st1 I F EE XF) as (l & ws & es & V & R1 & R2 & R3).
  exists ([x01] :: le_bytes 8 id :: ws ++ [[x00]]), es, l. split; [|split; [|split]]; auto.
  - cbn [map]. unfold run_stmts. cbn [mapC run_stmt bind].
    rewrite (mapC_app _ (run_stmt env) extra [IEnd] (map AWrite ws) (write_end_entry ++ []) R1 eq_refl). cbn [bind].
    unfold write_trace_id, write_end_entry. cbn. rewrite map_app, <- app_assoc. reflexivity.
  - cbn [concat]. rewrite concat_app, R2. unfold enc_point, enc_entries. cbn [map concat enc_entry app]. rewrite ?app_nil_r, <- ?app_assoc. reflexivity.
Qed.

(** Entries of a site show its variables. *)
Lemma logs_vars : forall env l es, Forall2 (logs env) l es -> forall tr h xs, tr_names tr = NN -> tr_types tr = TT ->
  vars_of TT h es xs ->
  Forall2 (fun y x => var_shows tr (fst (fst y)) (snd (fst y)) (snd y) (env (snd (fst y))) x) l xs.
Proof.
  intros env l es F. induction F as [|y e l es (ni & ti & data & -> & _ & SH) _ IH]; intros tr h xs E1 E2 V.
  - inversion V; subst. constructor.
  - inversion V; subst. constructor; eauto.
Qed.
Lemma logs_plain : forall env l es, Forall2 (logs env) l es -> stmt_of es = None /\ records es = [] /\ aux_of es = [] /\ Forall (entry_wf yes NN TT) es.
Proof.
  intros env l es F. induction F as [|y e l es (ni & ti & data & -> & W & _) _ (IH1 & IH2 & IH3 & IH4)]; [repeat split; constructor|].
  cbn [stmt_of records aux_of]. rewrite IH1, IH2, IH3. repeat split; auto.
Qed.

End Prog.
