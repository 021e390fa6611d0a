(** Proofs about the foreign interface: memory and scalars. *)
From Coq Require Import Strings.String.
From Verif Require Import Base BaseProofs Types Compare Predicate Query CApi Lisp Ffi FfiSpec.

Lemma load_length : forall m a n, length (load m a n) = n.
Proof. intros. unfold load. now rewrite map_length, seq_length. Qed.

Lemma load_ext : forall m m' a n, (forall x, a <= x < a + N.of_nat n -> m x = m' x) -> load m a n = load m' a n.
Proof.
  intros m m' a n H. unfold load. apply map_ext_in. intros i Hi. apply in_seq in Hi. apply H. lia.
Qed.

Lemma load_cons : forall m a n, load m a (S n) = m a :: load m (a + 1) n.
Proof.
  intros. unfold load. cbn [seq map]. f_equal; [f_equal; lia|].
  rewrite <- seq_shift, map_map. apply map_ext. intros i. f_equal. lia.
Qed.

Lemma put_in : forall m a bs x, a <= x < a + lenN bs -> put m a bs x = nth (N.to_nat (x - a)) bs x00.
Proof.
  intros. unfold put. destruct (N.leb_spec a x); destruct (N.ltb_spec x (a + lenN bs)); cbn [andb]; try lia; reflexivity.
Qed.
Lemma put_out : forall m a bs x, ~ (a <= x < a + lenN bs) -> put m a bs x = m x.
Proof.
  intros. unfold put. destruct (N.leb_spec a x); destruct (N.ltb_spec x (a + lenN bs)); cbn [andb]; try reflexivity.
  exfalso. lia.
Qed.

Lemma load_put_same : forall m a bs, load (put m a bs) a (length bs) = bs.
Proof.
  intros. apply nth_ext with (d := x00) (d' := x00); [apply load_length|].
  intros n Hn. rewrite load_length in Hn. unfold load.
  rewrite nth_indep with (d' := put m a bs (a + N.of_nat 0)) by (rewrite map_length, seq_length; exact Hn).
  rewrite (map_nth (fun i => put m a bs (a + N.of_nat i))), seq_nth by exact Hn.
  rewrite put_in by (unfold lenN; lia). f_equal. lia.
Qed.

Lemma encode_length : forall t z, length (encode t z) = N.to_nat (size t).
Proof. intros. apply le_bytes_length. Qed.
Lemma encode_lenN : forall t z, lenN (encode t z) = size t.
Proof. intros. unfold lenN. rewrite encode_length. lia. Qed.

Lemma modulus_pos : forall t, (0 < modulus t)%Z. Proof. destruct t; vm_compute; reflexivity. Qed.

(** a value written with one type and read with another of the same size *)
Lemma decode_encode : forall t t' z, size t = size t' -> in_range t z = true -> in_range t' z = true ->
  decode t' (encode t z) = z.
Proof.
  intros t t' z Hs Hr Hr'. unfold decode, encode.
  rewrite le_val_le_bytes.
  assert (Hm : modulus t' = modulus t) by (unfold modulus; now rewrite Hs).
  assert (HM : Z.of_N (two8 ^ N.of_nat (N.to_nat (size t))) = modulus t) by (destruct t; vm_compute; reflexivity).
  assert (Hmod := Z.mod_pos_bound z (modulus t) (modulus_pos t)).
  rewrite N.mod_small.
  2:{ apply N2Z.inj_lt. rewrite HM, Z2N.id by lia. lia. }
  rewrite Z2N.id by lia.
  unfold in_range in Hr'. rewrite Hm in *.
  assert (He : (modulus t = 2 * (modulus t / 2))%Z) by (destruct t; vm_compute; reflexivity).
  assert (Hp := modulus_pos t).
  set (M := modulus t) in *. set (Hf := (M / 2)%Z) in *. clearbody M Hf.
  destruct (signed t'); cbn [andb] in *.
  - apply andb_true_iff in Hr'. destruct Hr' as [H1 H2].
    apply Z.leb_le in H1. apply Z.ltb_lt in H2.
    destruct (Z_lt_le_dec z 0) as [Hn|Hn].
    + assert (E : (z mod M = z + M)%Z).
      { symmetry. apply Z.mod_unique with (q := (-1)%Z); lia. }
      rewrite E. destruct (Z.leb_spec Hf (z + M)); lia.
    + rewrite Z.mod_small by lia. destruct (Z.leb_spec Hf z); lia.
  - apply andb_true_iff in Hr'. destruct Hr' as [H1 H2].
    apply Z.leb_le in H1. apply Z.ltb_lt in H2.
    apply Z.mod_small. lia.
Qed.

Lemma read_write_same : forall t t' z m a, size t = size t' -> in_range t z = true -> in_range t' z = true ->
  read t' (write t z m a) a = z.
Proof.
  intros. unfold read, write. rewrite <- H, <- (encode_length t z), load_put_same. now apply decode_encode.
Qed.
Lemma read_write_other : forall t t' z m a b, a + size t <= b \/ b + size t' <= a ->
  read t' (write t z m a) b = read t' m b.
Proof.
  intros. unfold read, write. f_equal. apply load_ext. intros x Hx.
  apply put_out. rewrite encode_lenN. lia.
Qed.
Lemma read_ext : forall t m m' a, (forall x, a <= x < a + size t -> m x = m' x) -> read t m a = read t m' a.
Proof. intros. unfold read. f_equal. apply load_ext. intros x Hx. apply H. lia. Qed.
Lemma write_out : forall t z m a x, ~ (a <= x < a + size t) -> write t z m a x = m x.
Proof. intros. unfold write. apply put_out. now rewrite encode_lenN. Qed.

Lemma elements_cons : forall a w n, elements a w (S n) = a :: elements (a + w) w n.
Proof.
  intros. unfold elements. cbn [seq map]. f_equal; [lia|].
  rewrite <- seq_shift, map_map. apply map_ext. intros i. lia.
Qed.

Lemma range_u : forall t n, signed t = false -> n < 2 ^ (8 * size t) -> in_range t (Z.of_N n) = true.
Proof.
  intros t n Hs Hn. unfold in_range. rewrite Hs. unfold modulus.
  apply andb_true_iff. split; [apply Z.leb_le; lia|]. apply Z.ltb_lt.
  assert (E : (2 ^ (8 * Z.of_N (size t)) = Z.of_N (2 ^ (8 * size t)))%Z).
  { rewrite N2Z.inj_pow, N2Z.inj_mul. reflexivity. }
  rewrite E. lia.
Qed.

(** ** Reading in Lisp what the library finds *)
Local Open Scope string_scope.

Lemma enum_format : forall f, enumerator l_type_format (code c_type_format (c_format_name f)) =
  Some (match f with UNSIGNED => "unsigned" | SIGNED => "signed" | FLOAT => "float" | POINTER => "pointer"
        | BLOB => "blob" | INVALID_FORMAT => "invalid-format" end).
Proof. destruct f; reflexivity. Qed.

Lemma decode_u : forall t bs, signed t = false -> decode t bs = Z.of_N (le_val bs).
Proof. intros. unfold decode. now rewrite H. Qed.

(** reading the enum with the signed base type of Lisp: the codes are small *)
Lemma small_i32 : forall bs, length bs = 4%nat -> (decode TU32 bs < 2 ^ 31)%Z -> decode TI32 bs = decode TU32 bs.
Proof.
  intros bs Hl H. rewrite decode_u in * by reflexivity. unfold decode. cbn [signed andb].
  replace (modulus TI32 / 2)%Z with (2 ^ 31)%Z by reflexivity.
  destruct (Z.leb_spec (2 ^ 31) (Z.of_N (le_val bs))); lia.
Qed.

Lemma format_small : forall f, (0 <= code c_type_format (c_format_name f) < 2 ^ 31)%Z.
Proof. destruct f; vm_compute; split; congruence. Qed.
Lemma l_format : forall m a f, get c_var_info m a "format" = code c_type_format (c_format_name f) ->
  get l_var_info m a "format" = code c_type_format (c_format_name f).
Proof.
  intros m a f H. rewrite <- H. change (get l_var_info m a "format") with (read TI32 m (a + 8)).
  change (get c_var_info m a "format") with (read TU32 m (a + 8)) in *. unfold read in *.
  apply small_i32; [apply load_length|]. rewrite H. apply format_small.
Qed.

Lemma load_firstn : forall m a k n, (k <= n)%nat -> firstn k (load m a n) = load m a k.
Proof.
  intros m a k n H. unfold load. rewrite firstn_map. f_equal.
  replace n with (k + (n - k))%nat by lia. rewrite seq_app, firstn_app, seq_length, Nat.sub_diag. cbn [firstn].
  rewrite app_nil_r. rewrite <- (seq_length k 0) at 1. apply firstn_all.
Qed.
Lemma load_app : forall m a j k, load m a (j + k) = (load m a j ++ load m (a + N.of_nat j) k)%list.
Proof.
  intros m a j k. revert a. induction j; intros a; cbn [Nat.add].
  - cbn [load seq map List.app]. f_equal. lia.
  - rewrite !load_cons, IHj. cbn [List.app]. do 3 f_equal. lia.
Qed.

Lemma read_i64 : forall m a, read TI64 m a = s64 (Z.to_N (read TU64 m a)).
Proof.
  intros. unfold read. cbn [size]. rewrite (decode_u TU64) by reflexivity. rewrite N2Z.id.
  unfold decode, s64. cbn [signed andb].
  assert (B := le_val_bound (load m a (N.to_nat 8))).
  replace (modulus TI64 / 2)%Z with (Z.of_N two63) by reflexivity.
  replace (modulus TI64) with (Z.of_N two64) by reflexivity.
  destruct (Z.leb_spec (Z.of_N two63) (Z.of_N (le_val (load m a (N.to_nat 8)))));
    destruct (N.ltb_spec (le_val (load m a (N.to_nat 8))) two63); try lia; reflexivity.
Qed.
Lemma read_f32 : forall m a, Z.to_N (read TF32 m a) = Z.to_N (read TU64 m a) mod two32.
Proof.
  intros. unfold read. rewrite !decode_u by reflexivity. rewrite !N2Z.id. cbn [size].
  change (N.to_nat 8) with (4 + 4)%nat. change (N.to_nat 4) with 4%nat. rewrite load_app, le_val_app. unfold lenN. rewrite load_length.
  assert (B := le_val_bound (load m a 4)). unfold lenN in B. rewrite load_length in B.
  change (two8 ^ N.of_nat 4) with two32 in *.
  rewrite N.mul_comm, N.mod_add by (vm_compute; discriminate). symmetry. apply N.mod_small. exact B.
Qed.

Lemma l_var_ok : forall names m a v, c_var_at m a v -> l_read_var names m a = expand_var names v.
Proof.
  intros names m a v ((x & Hx & Hv) & Hf & Hn & Ht & Hs & Hb & Hh).
  unfold l_read_var, expand_var. apply l_format in Hf.
  change (get l_var_info m a "var-name-index") with (get c_var_info m a "var_name_index").
  change (get l_var_info m a "type-name-index") with (get c_var_info m a "type_name_index").
  change (get l_var_info m a "has-buffer-size") with (get c_var_info m a "has_buffer_size").
  change (get l_var_info m a "buffer-size") with (get c_var_info m a "buffer_size").
  rewrite Hn, Ht, Hb, Hh, !N2Z.id.
  assert (Hx' : read TU64 m a = Z.of_N x).
  { rewrite <- Hx. unfold get. cbn [find_field layout c_var_info String.eqb Ascii.eqb Bool.eqb]. unfold round_up. cbn [size].
    f_equal. change ((0 + 8 - 1) / 8 * 8) with 0. lia. }
  assert (Hval : l_read_value m a = expand_value v).
  { unfold l_read_value, expand_value. rewrite Hf, enum_format.
    change (get l_var_info m a "size") with (get c_var_info m a "size"). rewrite Hs.
    unfold holds_value in Hv.
    destruct (cv_format v); destruct (cv_value v); try contradiction; subst;
      cbn [l_value_type String.eqb Ascii.eqb Bool.eqb]; try reflexivity.
    - now rewrite Hx'.
    - rewrite read_i64, Hx', N2Z.id. reflexivity.
    - assert (E : (Z.of_N (cv_size v) =? 4)%Z = (cv_size v =? 4)%N).
      { destruct (Z.eqb_spec (Z.of_N (cv_size v)) 4); destruct (N.eqb_spec (cv_size v) 4); lia. }
      rewrite E. destruct (cv_size v =? 4)%N.
      + rewrite read_f32, Hx', N2Z.id. reflexivity.
      + change (read TF64 m a) with (read TU64 m a). rewrite Hx', N2Z.id. reflexivity.
    - now rewrite Hx'.
    - destruct Hv as [Hl Hle]. change (read TPtr m a) with (read TU64 m a). rewrite Hx', N2Z.id.
      destruct (N.leb_spec (cv_size v) (lenN bs)); [|lia].
      do 2 f_equal. rewrite takeN_firstn, <- Hl. unfold lenN in *.
      rewrite load_firstn by lia. f_equal. lia. }
  rewrite Hval. destruct (expand_value v); try reflexivity. cbn [bind].
  destruct (aref names (cv_name v)); try reflexivity. cbn [bind].
  destruct (aref names (cv_tname v)); try reflexivity. cbn [bind].
  assert (E : (Z.of_N (cv_has v) =? 0)%Z = (cv_has v =? 0)%N).
  { destruct (Z.eqb_spec (Z.of_N (cv_has v)) 0); destruct (N.eqb_spec (cv_has v) 0); lia. }
  rewrite E. reflexivity.
Qed.

Lemma mapO_Forall2 : forall A B C (f : A -> outcome C) (g : B -> outcome C) l l',
  Forall2 (fun a b => f a = g b) l l' -> mapO f l = mapO g l'.
Proof. induction 1; cbn [mapO]; [reflexivity|]. rewrite H, IHForall2. reflexivity. Qed.
Lemma Forall2_imp : forall A B (P Q : A -> B -> Prop) l l', (forall a b, P a b -> Q a b) -> Forall2 P l l' -> Forall2 Q l l'.
Proof. induction 2; constructor; auto. Qed.

Lemma l_point_ok : forall names m a x, c_point_at m a x -> l_read_point names m a = expand_point names x.
Proof.
  intros names m a x (Hs & Hnv & Hna & Hvs & Haux).
  unfold l_read_point, expand_point.
  change (get l_trace_point m a "statement") with (get c_trace_point m a "statement").
  change (get l_trace_point m a "vars") with (get c_trace_point m a "vars").
  change (get l_trace_point m a "n-vars") with (get c_trace_point m a "n_vars").
  change (get l_trace_point m a "aux") with (get c_trace_point m a "aux").
  change (get l_trace_point m a "n-aux") with (get c_trace_point m a "n_aux").
  change (sizeof l_var_info) with (sizeof c_var_info).
  rewrite Hs, Hnv, Hna, N2Z.id. unfold lenN. rewrite !nat_N_Z, !Nat2Z.id.
  rewrite (mapO_Forall2 _ _ _ _ (expand_var names) _ (ip_vars x)) by (eapply Forall2_imp; [|exact Hvs]; cbv beta; intros; now apply l_var_ok).
  destruct (mapO (expand_var names) (ip_vars x)); try reflexivity. cbn [bind]. do 2 f_equal.
  rewrite <- map_map, Haux, map_map. rewrite <- (map_id (ip_aux x)) at 2. apply map_ext. apply N2Z.id.
Qed.

Lemma l_points_ok : forall names m a xs, c_points_at m a xs ->
  l_read_points names m a (length xs) = mapO (expand_point names) xs.
Proof.
  intros names m a xs H. unfold l_read_points. change (sizeof l_trace_point) with (sizeof c_trace_point).
  apply mapO_Forall2. eapply Forall2_imp; [|exact H]. intros. now apply l_point_ok.
Qed.
