(** Proofs about the passing of variable arguments. *)
From Verif Require Import BaseProofs Types Instr InstrRun InstrText VaArg VaSpec.

Definition is_double (t : aty) : bool := match t with TDouble => true | _ => false end.
Definition wide (t : aty) : bool := match t with TInt | TUInt => false | _ => true end.

(** [holds ap l]: the arguments l are still to be fetched from ap. *)
Definition holds_at (ap : va_list) (junk : nat -> N) (gp fp : nat) (l : list arg) : Prop :=
  (gp <= 4)%nat /\ (fp <= 8)%nat /\ gp_offset ap = 48 - 8 * N.of_nat gp /\ fp_offset ap = 176 - 16 * N.of_nat fp /\
  exists pg pf, v_gp ap = pg ++ fst (fst (place junk gp fp l)) /\ lenN pg = 4 - N.of_nat gp /\
                v_fp ap = pf ++ snd (fst (place junk gp fp l)) /\ lenN pf = 8 - N.of_nat fp /\
                overflow ap = snd (place junk gp fp l).
Definition holds (ap : va_list) (l : list arg) : Prop := exists junk gp fp, holds_at ap junk gp fp l.

Lemma holds_start : forall junk l, holds (va_start (place junk 4 8 l)) l.
Proof.
  intros junk l. exists junk, 4%nat, 8%nat. unfold holds_at, va_start. destruct (place junk 4 8 l) as [[g f] m]. cbn [gp_offset fp_offset overflow v_gp v_fp fst snd].
  conj_split; try reflexivity; try lia. exists [], []. conj_split; reflexivity.
Qed.

Lemma low_word : forall j a, is_double (a_ty a) = false -> fst (to_word j a) mod 2 ^ 32 = a_bits a mod 2 ^ 32.
Proof.
  intros j a H. unfold to_word. destruct (a_ty a); try reflexivity; cbn [fst]; rewrite (N.mul_comm _ j), N.mod_add, N.mod_mod by discriminate; reflexivity.
Qed.
Lemma wide_word : forall j a, wide (a_ty a) = true -> fst (to_word j a) = a_bits a.
Proof. intros j a H. unfold to_word. destruct (a_ty a); try reflexivity; discriminate. Qed.
Lemma text_word : forall j a, snd (to_word j a) = a_text a.
Proof. intros j a. unfold to_word. destruct (a_ty a); reflexivity. Qed.

Lemma get_word : forall t ap a l, holds ap (a :: l) -> is_double (a_ty a) = is_double t ->
  exists j ap', va_arg t ap = Ok (match t with TInt | TUInt => fst (to_word j a) mod 2 ^ 32 | _ => fst (to_word j a) end, snd (to_word j a), ap') /\ holds ap' l.
Proof.
  intros t ap a l (junk & gp & fp & Hg & Hf & Og & Of & pg & pf & Eg & Lg & Ef & Lf & Eo) D. exists (junk O). cbn [place] in Eg, Ef, Eo. unfold va_arg.
  destruct (is_double t) eqn:Dt.
  - assert (Et : t = TDouble) by (destruct t; try discriminate; reflexivity). assert (Ea : a_ty a = TDouble) by (destruct (a_ty a); try discriminate; reflexivity).
    subst t. rewrite Ea in Eg, Ef, Eo. rewrite Of. destruct fp as [|fp].
    + destruct (place (fun k => junk (S k)) gp 0 l) as [[g f] m] eqn:P. cbn [fst snd] in Eg, Ef, Eo. cbn [N.of_nat N.mul N.sub N.ltb N.compare]. change (176 - 16 * 0 <? 176) with false. cbv iota. rewrite Eo. cbn [bind].
      eexists. split; [reflexivity|]. exists (fun k => junk (S k)), gp, O. unfold holds_at. cbn [gp_offset fp_offset overflow v_gp v_fp]. rewrite P. cbn [fst snd].
      conj_split; auto; try lia. exists pg, pf. conj_split; auto.
    + destruct (place (fun k => junk (S k)) gp fp l) as [[g f] m] eqn:P. cbn [fst snd] in Eg, Ef, Eo.
      assert (E1 : (176 - 16 * N.of_nat (S fp) <? 176) = true) by (apply N.ltb_lt; lia). rewrite E1.
      assert (E2 : (176 - 16 * N.of_nat (S fp) - 48) / 16 = lenN pf).
      { rewrite Lf. replace (176 - 16 * N.of_nat (S fp) - 48) with ((8 - N.of_nat (S fp)) * 16) by lia. apply N.div_mul. discriminate. }
      rewrite E2, Ef, nthN_app2, N.sub_diag by lia. cbn [nthN bind]. eexists. split; [reflexivity|].
      exists (fun k => junk (S k)), gp, fp. unfold holds_at. cbn [gp_offset fp_offset overflow v_gp v_fp]. rewrite P. cbn [fst snd].
      conj_split; auto; try lia. exists pg, (pf ++ [to_word (junk O) a]). rewrite <- app_assoc, lenN_app. conj_split; auto. rewrite Lf. change (lenN [to_word (junk O) a]) with 1. lia.
  - assert (Da : is_double (a_ty a) = false) by congruence.
    assert (Ec : exists (w : word) ap', (if gp_offset ap <? 48 then
                     match nthN (v_gp ap) ((gp_offset ap - 16) / 8) with
                     | Some w => Ok (w, mkVL (gp_offset ap + 8) (fp_offset ap) (overflow ap) (v_gp ap) (v_fp ap))
                     | None => UB UUninit
                     end
                   else match overflow ap with
                        | w :: r => Ok (w, mkVL (gp_offset ap) (fp_offset ap) r (v_gp ap) (v_fp ap))
                        | [] => UB UOob
                        end) = Ok (w, ap') /\ w = to_word (junk O) a /\ holds ap' l).
    { assert (Ep : forall X (x y : X), match a_ty a with TDouble => x | _ => y end = y) by (intros; destruct (a_ty a); try discriminate; reflexivity).
      rewrite Ep in Eg, Ef, Eo. clear Ep. rewrite Og. destruct gp as [|gp].
      + destruct (place (fun k => junk (S k)) 0 fp l) as [[g f] m] eqn:P. cbn [fst snd] in Eg, Ef, Eo. change (48 - 8 * N.of_nat 0 <? 48) with false. cbv iota. rewrite Eo.
        eexists _, _. split; [reflexivity|]. split; [reflexivity|]. exists (fun k => junk (S k)), O, fp. unfold holds_at. cbn [gp_offset fp_offset overflow v_gp v_fp]. rewrite P. cbn [fst snd].
        conj_split; auto; try lia. exists pg, pf. conj_split; auto.
      + destruct (place (fun k => junk (S k)) gp fp l) as [[g f] m] eqn:P. cbn [fst snd] in Eg, Ef, Eo.
        assert (E1 : (48 - 8 * N.of_nat (S gp) <? 48) = true) by (apply N.ltb_lt; lia). rewrite E1.
        assert (E2 : (48 - 8 * N.of_nat (S gp) - 16) / 8 = lenN pg).
        { rewrite Lg. replace (48 - 8 * N.of_nat (S gp) - 16) with ((4 - N.of_nat (S gp)) * 8) by lia. apply N.div_mul. discriminate. }
        rewrite E2, Eg, nthN_app2, N.sub_diag by lia. cbn [nthN]. eexists _, _. split; [reflexivity|]. split; [reflexivity|].
        exists (fun k => junk (S k)), gp, fp. unfold holds_at. cbn [gp_offset fp_offset overflow v_gp v_fp]. rewrite P. cbn [fst snd].
        conj_split; auto; try lia. exists (pg ++ [to_word (junk O) a]), pf. rewrite <- app_assoc, lenN_app. conj_split; auto. rewrite Lg. change (lenN [to_word (junk O) a]) with 1. lia. }
    destruct Ec as (w & ap' & Ec & -> & H). exists ap'. split; [|exact H].
    destruct t; try discriminate; rewrite Ec; reflexivity.
Qed.

Lemma get : forall t ap a l, holds ap (a :: l) -> is_double (a_ty a) = is_double t -> (wide t = true -> wide (a_ty a) = true) ->
  exists ap', va_arg t ap = Ok (if wide t then a_bits a else a_bits a mod 2 ^ 32, a_text a, ap') /\ holds ap' l.
Proof.
  intros t ap a l H D W. destruct (get_word t ap a l H D) as (j & ap' & E & H'). exists ap'. split; [|exact H']. rewrite E, text_word. f_equal. f_equal. f_equal.
  destruct t; cbn [wide] in *; try (apply wide_word; apply W; reflexivity); apply low_word; rewrite D; reflexivity.
Qed.

Lemma le_bytes_mod : forall n x, le_bytes n x = le_bytes n (x mod 2 ^ (8 * N.of_nat n)).
Proof.
  intros n x. rewrite <- (le_bytes_le_val (le_bytes n x)) at 1. rewrite le_bytes_length, le_val_le_bytes. f_equal. f_equal. change two8 with (2 ^ 8). rewrite <- N.pow_mul_r. reflexivity.
Qed.
Lemma le_bytes_cong : forall n x y, x mod 2 ^ (8 * N.of_nat n) = y mod 2 ^ (8 * N.of_nat n) -> le_bytes n x = le_bytes n y.
Proof. intros n x y H. rewrite le_bytes_mod, H, <- le_bytes_mod. reflexivity. Qed.
Lemma mod_mod_le : forall x a b, a <= b -> (x mod 2 ^ b) mod 2 ^ a = x mod 2 ^ a.
Proof.
  intros x a b H. replace b with (a + (b - a)) by lia. rewrite N.pow_add_r, N.mod_mul_r by (apply N.pow_nonzero; discriminate).
  rewrite (N.mul_comm (2 ^ a) (_ mod _)), N.mod_add, N.mod_mod by (apply N.pow_nonzero; discriminate). reflexivity.
Qed.
Lemma zlow : forall z k, k <= 32 -> Z.to_N (z mod 2 ^ 32) mod 2 ^ k = Z.to_N (z mod 2 ^ 64) mod 2 ^ k.
Proof.
  intros z k H. assert (HP : forall m, (0 <= z mod 2 ^ Z.of_N m)%Z) by (intro m; apply Z.mod_pos_bound; lia).
  assert (G : forall m, k <= m -> Z.of_N (Z.to_N (z mod 2 ^ Z.of_N m) mod 2 ^ k) = (z mod 2 ^ Z.of_N k)%Z).
  { intros m Hm. rewrite N2Z.inj_mod, N2Z.inj_pow, Z2N.id by apply HP. cbn [Z.of_N].
    replace (Z.of_N m) with (Z.of_N k + Z.of_N (m - k))%Z by lia. rewrite Z.pow_add_r by lia.
    rewrite Z.rem_mul_r by lia. rewrite (Z.mul_comm (2 ^ Z.of_N k) (_ mod _)), Z.mod_add by lia. apply Z.mod_mod. lia. }
  apply N2Z.inj. transitivity (z mod 2 ^ Z.of_N k)%Z; [exact (G 32 H)|symmetry; apply (G 64); lia].
Qed.

Lemma literal_class : forall n, is_double (a_ty (literal n)) = false /\ a_bits (literal n) = n.
Proof. intro n. unfold literal. destruct (_ <? _); split; reflexivity. Qed.

(** The value of one variable. *)
Lemma value_fetched : forall ptr ap a env l x acts, usual a -> value_arg ptr (va_fmt a) (va_size a) (env (va_expr a)) = Ok x -> holds ap (x :: l) ->
  (s <- pass (env (va_expr a)) ;; write_value (va_fmt a) (va_size a) s) = Ok acts ->
  exists ap', fetch_value va_list va_arg (va_fmt a) (va_size a) ap = Ok (acts, ap') /\ holds ap' l.
Proof.
  intros ptr ap a env l x acts U V H W. unfold usual in U. destruct a as [ni ti size f e]. cbn [va_fmt va_size va_expr] in *. destruct (env e) as [z|b|b|p s|s]; cbn [pass bind value_arg] in *; try discriminate.
  - destruct f; cbn [write_value fetch_value va_gen va_double bind] in *; try contradiction;
      try (destruct U as [<-|[<-|[<-|[<-|[]]]]]; cbn [N.eqb Pos.eqb N.ltb N.compare Pos.compare Pos.compare_cont] in *; inversion V; subst x; cbn [bind] in W; inversion W; subst acts;
           [destruct (get TInt _ _ _ H eq_refl ltac:(discriminate)) as (ap' & E & H'); exists ap'; rewrite E; cbn [bind wide a_bits]; split; [|exact H'];
            rewrite (le_bytes_cong 1 _ (Z.to_N (z mod 2 ^ 64))); [reflexivity|]; change (8 * N.of_nat 1) with 8; rewrite mod_mod_le by lia; apply zlow; lia
           |destruct (get TInt _ _ _ H eq_refl ltac:(discriminate)) as (ap' & E & H'); exists ap'; rewrite E; cbn [bind wide a_bits]; split; [|exact H'];
            rewrite (le_bytes_cong 2 _ (Z.to_N (z mod 2 ^ 64))); [reflexivity|]; change (8 * N.of_nat 2) with 16; rewrite mod_mod_le by lia; apply zlow; lia
           |destruct (get TInt _ _ _ H eq_refl ltac:(discriminate)) as (ap' & E & H'); exists ap'; rewrite E; cbn [bind wide a_bits]; split; [|exact H'];
            rewrite (le_bytes_cong 4 _ (Z.to_N (z mod 2 ^ 64))); [reflexivity|]; change (8 * N.of_nat 4) with 32; rewrite mod_mod_le by lia; apply zlow; lia
           |destruct (get TLong _ _ _ H eq_refl ltac:(reflexivity)) as (ap' & E & H'); exists ap'; rewrite E; split; [reflexivity|exact H']]).
    + destruct (size =? 4); discriminate.
    + subst size. inversion V; subst x. inversion W; subst acts. destruct (get (TPtr PVoid) _ _ _ H eq_refl ltac:(reflexivity)) as (ap' & E & H'). exists ap'. rewrite E. split; [reflexivity|exact H'].
  - inversion V; subst x. destruct f; cbn [write_value fetch_value va_gen va_double bind] in *; try contradiction; try discriminate;
      try (destruct U as [<-|[<-|[<-|[<-|[]]]]]; discriminate).
    destruct U as [<-|[<-|[]]]; cbn [N.eqb Pos.eqb] in *; cbn [bind] in W; inversion W; subst acts;
      destruct (get TDouble _ _ _ H eq_refl ltac:(reflexivity)) as (ap' & E & H'); exists ap'; rewrite E; (split; [reflexivity|exact H']).
  - inversion V; subst x. destruct f; cbn [write_value fetch_value va_gen va_double bind] in *; try contradiction; try discriminate;
      try (destruct U as [<-|[<-|[<-|[<-|[]]]]]; discriminate).
    destruct U as [<-|[<-|[]]]; cbn [N.eqb Pos.eqb] in *; cbn [bind] in W; inversion W; subst acts;
      destruct (get TDouble _ _ _ H eq_refl ltac:(reflexivity)) as (ap' & E & H'); exists ap'; rewrite E; (split; [reflexivity|exact H']).
  - inversion V; subst x. destruct f; cbn [write_value fetch_value va_gen va_double bind] in *; try contradiction; try discriminate;
      try (destruct U as [<-|[<-|[<-|[<-|[]]]]]; cbn [N.eqb Pos.eqb] in *; cbn [bind] in W; inversion W; subst acts;
           [destruct (get TInt _ _ _ H eq_refl ltac:(discriminate)) as (ap' & E & H'); exists ap'; rewrite E; cbn [bind wide a_bits]; split; [|exact H'];
            rewrite (le_bytes_cong 1 _ p); [reflexivity|]; change (8 * N.of_nat 1) with 8; apply mod_mod_le; lia
           |destruct (get TInt _ _ _ H eq_refl ltac:(discriminate)) as (ap' & E & H'); exists ap'; rewrite E; cbn [bind wide a_bits]; split; [|exact H'];
            rewrite (le_bytes_cong 2 _ p); [reflexivity|]; change (8 * N.of_nat 2) with 16; apply mod_mod_le; lia
           |destruct (get TInt _ _ _ H eq_refl ltac:(discriminate)) as (ap' & E & H'); exists ap'; rewrite E; cbn [bind wide a_bits]; split; [|exact H'];
            rewrite (le_bytes_cong 4 _ p); [reflexivity|]; change (8 * N.of_nat 4) with 32; apply mod_mod_le; lia
           |destruct (get TLong _ _ _ H eq_refl ltac:(reflexivity)) as (ap' & E & H'); exists ap'; rewrite E; split; [reflexivity|exact H']]).
    + destruct (size =? 4); discriminate.
    + inversion W; subst acts. destruct (get (TPtr PVoid) _ _ _ H eq_refl ltac:(reflexivity)) as (ap' & E & H'). exists ap'. rewrite E. split; [reflexivity|exact H'].
Qed.

Lemma usual_size : forall a, usual a -> va_fmt a <> POINTER -> va_size a mod 2 ^ 32 = va_size a.
Proof.
  intros a U NP. unfold usual in U. destruct (va_fmt a); try contradiction; try congruence; cbn in U; intuition; subst;
  match goal with H : _ = va_size a |- _ => rewrite <- H; reflexivity end.
Qed.

Lemma vars_fetched : forall ptr env args l acts ap rest, Forall usual args -> mapA (var_args TULong ptr env) args = Ok l ->
  mapC (write_trace_variable env) args = Ok acts -> holds ap (l ++ rest) ->
  c_write_trace_variables va_list va_arg (length args) ap = Ok acts.
Proof.
  intros ptr env args. induction args as [|a args IH]; intros l acts ap rest U L W H; cbn [mapA mapC length] in *.
  - inversion W. reflexivity.
  - inversion U as [|? ? Ua Ur]; subst. cbn [c_write_trace_variables].
    destruct (var_args TULong ptr env a) as [la| | | |] eqn:Ea; cbn [bind] in L; try discriminate.
    destruct (mapA (var_args TULong ptr env) args) as [lr| | | |] eqn:Er; cbn [bind] in L; try discriminate. inversion L; subst l.
    destruct (write_trace_variable env a) as [wa| | | |] eqn:Wa; cbn [bind] in W; try discriminate.
    destruct (mapC (write_trace_variable env) args) as [wr| | | |] eqn:Wr; cbn [bind] in W; try discriminate. inversion W; subst acts.
    unfold var_args in Ea. destruct (value_arg (ptr (va_expr a)) (va_fmt a) (va_size a) (env (va_expr a))) as [x| | | |] eqn:Ex; cbn [bind] in Ea; try discriminate. inversion Ea; subst la.
    unfold write_trace_variable in Wa.
    assert (Wv : exists w, (s <- pass (env (va_expr a)) ;; write_value (va_fmt a) (va_size a) s) = Ok w /\
      wa = [AWrite [x02]; AWrite (le_bytes 4 (va_name a)); AWrite (le_bytes 4 (va_type a))] ++ w).
    { destruct (pass (env (va_expr a))) as [s| | | |]; cbn [bind] in *; try discriminate. destruct (write_value (va_fmt a) (va_size a) s) as [w| | | |]; cbn [bind] in *; try discriminate. inversion Wa. exists w. split; reflexivity. }
    destruct Wv as (w & Wv & ->). cbn [app] in H.
    destruct (literal_class (va_name a)) as [C1 B1], (literal_class (va_type a)) as [C2 B2].
    destruct (get TUInt _ _ _ H C1 ltac:(discriminate)) as (ap1 & E1 & H1). rewrite E1. cbn [bind].
    destruct (get TUInt _ _ _ H1 C2 ltac:(discriminate)) as (ap2 & E2 & H2). rewrite E2. cbn [bind].
    destruct (get TUInt _ _ _ H2 eq_refl ltac:(discriminate)) as (ap3 & E3 & H3). rewrite E3. cbn [bind].
    destruct (get TInt _ _ _ H3 eq_refl ltac:(discriminate)) as (ap4 & E4 & H4). rewrite E4. cbn [bind wide a_bits].
    rewrite B1, B2.
    assert (F : fmt_of_code (fmt_code (va_fmt a) mod 2 ^ 32) = va_fmt a) by (destruct (va_fmt a); reflexivity). rewrite F.
    assert (Sz : va_size a mod 2 ^ 32 = va_size a).
    { destruct (va_fmt a) eqn:Fa; try (apply usual_size; [exact Ua|congruence]). unfold usual in Ua. rewrite Fa in Ua. rewrite Ua. reflexivity. }
    rewrite Sz. destruct (value_fetched _ _ _ _ _ _ _ Ua Ex H4 Wv) as (ap5 & E5 & H5). rewrite E5. cbn [bind].
    rewrite (IH lr wr ap5 rest Ur eq_refl eq_refl H5). cbn [bind].
    rewrite (le_bytes_cong 4 (va_name a mod 2 ^ 32) (va_name a)), (le_bytes_cong 4 (va_type a mod 2 ^ 32) (va_type a)) by (apply mod_mod_le; lia).
    rewrite app_assoc. reflexivity.
Qed.

Lemma blobs_fetched : forall ptr env args l acts ap rest, mapA (blob_args TULong ptr env) args = Ok l ->
  mapC (write_trace_blob env) args = Ok acts -> holds ap (l ++ rest) ->
  c_write_trace_blobs va_list va_arg (length args) ap = Ok acts.
Proof.
  intros ptr env args. induction args as [|a args IH]; intros l acts ap rest L W H; cbn [mapA mapC length] in *.
  - inversion W. reflexivity.
  - cbn [c_write_trace_blobs].
    destruct (blob_args TULong ptr env a) as [la| | | |] eqn:Ea; cbn [bind] in L; try discriminate.
    destruct (mapA (blob_args TULong ptr env) args) as [lr| | | |] eqn:Er; cbn [bind] in L; try discriminate. inversion L; subst l.
    destruct (write_trace_blob env a) as [wa| | | |] eqn:Wa; cbn [bind] in W; try discriminate.
    destruct (mapC (write_trace_blob env) args) as [wr| | | |] eqn:Wr; cbn [bind] in W; try discriminate. inversion W; subst acts.
    assert (X : exists t p s, la = [literal (ba_name a); literal (ba_type a); mkArg TULong (lenN s) []; mkArg (TPtr t) p s] /\
      wa = [AWrite [x02]; AWrite (le_bytes 4 (ba_name a)); AWrite (le_bytes 4 (ba_type a)); AWrite (le_bytes 4 (lenN s mod two32)); AWrite (takeN (lenN s mod two32) s)]).
    { unfold blob_args in Ea. unfold write_trace_blob in Wa. destruct (env (ba_expr a)) as [z|b|b|p s|s]; try discriminate; inversion Ea; cbn [bind] in Wa; inversion Wa.
      - exists (ptr (ba_expr a)), p, s. split; reflexivity.
      - exists PChar, 0, s. split; reflexivity. }
    destruct X as (t & p & s & -> & ->). cbn [app] in H.
    destruct (literal_class (ba_name a)) as [C1 B1], (literal_class (ba_type a)) as [C2 B2].
    destruct (get TUInt _ _ _ H C1 ltac:(discriminate)) as (ap1 & E1 & H1). rewrite E1. cbn [bind].
    destruct (get TUInt _ _ _ H1 C2 ltac:(discriminate)) as (ap2 & E2 & H2). rewrite E2. cbn [bind].
    destruct (get TUInt _ _ _ H2 eq_refl ltac:(discriminate)) as (ap3 & E3 & H3). rewrite E3. cbn [bind].
    destruct (get (TPtr PVoid) _ _ _ H3 eq_refl ltac:(reflexivity)) as (ap4 & E4 & H4). rewrite E4. cbn [bind wide a_bits a_text].
    assert (LE : (lenN s <? lenN s mod 2 ^ 32) = false) by (apply N.ltb_ge, N.mod_le; discriminate). rewrite LE.
    rewrite B1, B2, (IH lr wr ap4 rest eq_refl eq_refl H4). cbn [bind].
    rewrite (le_bytes_cong 4 (ba_name a mod 2 ^ 32) (ba_name a)), (le_bytes_cong 4 (ba_type a mod 2 ^ 32) (ba_type a)) by (apply mod_mod_le; lia).
    reflexivity.
Qed.

(** The arguments exist whenever the idealised calls do. *)
Lemma vars_args : forall ptr env args acts, mapC (write_trace_variable env) args = Ok acts -> exists l, mapA (var_args TULong ptr env) args = Ok l.
Proof.
  intros ptr env args. induction args as [|a args IH]; intros acts W; cbn [mapA mapC] in *; [eauto|].
  destruct (write_trace_variable env a) as [wa| | | |] eqn:Wa; cbn [bind] in W; try discriminate.
  destruct (mapC (write_trace_variable env) args) as [wr| | | |] eqn:Wr; cbn [bind] in W; try discriminate.
  destruct (IH wr eq_refl) as (lr & ->). unfold var_args. unfold write_trace_variable in Wa.
  destruct (env (va_expr a)) as [z|b|b|p s|s]; cbn [value_arg bind pass] in *; try discriminate; eauto.
  destruct (va_size a <? 4); [|destruct (va_size a =? 4)]; cbn [bind]; eauto.
Qed.
Lemma blobs_args : forall ptr env args acts, mapC (write_trace_blob env) args = Ok acts -> exists l, mapA (blob_args TULong ptr env) args = Ok l.
Proof.
  intros ptr env args. induction args as [|a args IH]; intros acts W; cbn [mapA mapC] in *; [eauto|].
  destruct (write_trace_blob env a) as [wa| | | |] eqn:Wa; cbn [bind] in W; try discriminate.
  destruct (mapC (write_trace_blob env) args) as [wr| | | |] eqn:Wr; cbn [bind] in W; try discriminate.
  destruct (IH wr eq_refl) as (lr & ->). unfold blob_args. unfold write_trace_blob in Wa.
  destruct (env (ba_expr a)) as [z|b|b|p s|s]; cbn [bind] in *; try discriminate; eauto.
Qed.

Definition usual_stmt (s : istmt) : Prop := match s with IVars args => Forall usual args | _ => True end.

Lemma stmt_passed : forall junk env s acts, usual_stmt s -> run_stmt env s = Ok acts -> run_stmt_abi junk env s = Ok acts.
Proof.
  intros junk env s acts U R. destruct s as [id|args|args|]; cbn [run_stmt run_stmt_abi usual_stmt] in *; auto.
  - destruct (vars_args (fun _ => POther) _ _ _ R) as (l & E). rewrite E. cbn [bind]. eapply vars_fetched with (rest := []); eauto. rewrite app_nil_r. apply holds_start.
  - destruct (blobs_args (fun _ => PChar) _ _ _ R) as (l & E). rewrite E. cbn [bind]. eapply blobs_fetched with (rest := []); eauto. rewrite app_nil_r. apply holds_start.
Qed.
Lemma stmts_passed : forall env l junk acts, Forall usual_stmt l -> run_stmts env l = Ok acts -> run_stmts_abi junk env l = Ok acts.
Proof.
  intros env l. induction l as [|s l IH]; intros junk acts U R; unfold run_stmts in *; cbn [mapC run_stmts_abi] in *; [exact R|].
  inversion U; subst. destruct (run_stmt env s) as [a| | | |] eqn:Es; cbn [bind] in R; try discriminate.
  destruct (mapC (run_stmt env) l) as [b| | | |] eqn:El; cbn [bind] in R; try discriminate.
  rewrite (stmt_passed _ _ _ _ H1 Es). cbn [bind]. rewrite (IH (fun k => junk (S k)) b H2 eq_refl). exact R.
Qed.

(** The instrumenter makes such calls only. *)
Lemma sizeof_in : forall n, member n signed_names = true \/ member n unsigned_names = true -> In (sizeof n) [1; 2; 4; 8].
Proof.
  intros n H. assert (E : exists m, In m (signed_names ++ unsigned_names) /\ n = m).
  { destruct H as [H|H]; unfold member in H; apply existsb_exists in H; destruct H as (m & I & B); exists m; (split; [apply in_or_app; auto|]);
    apply InstrText.beq in B; exact B. }
  destruct E as (m & I & ->).
  assert (A : forallb (fun m => existsb (N.eqb (sizeof m)) [1; 2; 4; 8]) (signed_names ++ unsigned_names) = true) by (vm_compute; reflexivity).
  rewrite forallb_forall in A. specialize (A m I). apply existsb_exists in A. destruct A as (k & K & E). apply N.eqb_eq in E. rewrite E. exact K.
Qed.
Lemma var_usual : forall test n t ps st vs bs st', instrument_var test n t ps st = (vs, bs, st') -> Forall usual vs.
Proof.
  intros test n t ps st vs bs st' E. unfold instrument_var in E. destruct (type_format_and_size t ps) as [[f size]|] eqn:T; [|inversion E; constructor].
  destruct (get_type_index test t f size ps st) as [ti st1]. destruct (get_name_index test n st1) as [ni st2].
  destruct (ps && c_string_type_p t)%bool eqn:P1; [inversion E; constructor|]. destruct (ps && cpp_string_type_p t)%bool eqn:P2; [inversion E; constructor|].
  inversion E; subst. constructor; [|constructor]. unfold type_format_and_size in T.
  assert (NS : (ps && string_type_p t)%bool = false) by (unfold string_type_p; destruct ps, (c_string_type_p t), (cpp_string_type_p t); auto).
  rewrite NS in T. unfold usual. cbn [va_fmt va_size].
  destruct (pointer_type_p t || array_type_p t)%bool; [inversion T; reflexivity|].
  destruct (member (base_typename t) signed_names) eqn:M1; [inversion T; apply sizeof_in; auto|].
  destruct (member (base_typename t) unsigned_names) eqn:M2; [inversion T; apply sizeof_in; auto|].
  destruct (Compare.bytes_eqb (base_typename t) _); [inversion T; cbn; auto|].
  destruct (Compare.bytes_eqb (base_typename t) _); [inversion T; cbn; auto|]. discriminate.
Qed.
Lemma vars_usual : forall test l ps st vs bs st', instrument_vars test l ps st = (vs, bs, st') -> Forall usual vs.
Proof.
  intros test l. induction l as [|[n t] l IH]; intros ps st vs bs st' E; cbn [instrument_vars] in E; [inversion E; constructor|].
  destruct (instrument_var test n t ps st) as [[v1 b1] st1] eqn:E1. destruct (instrument_vars test l ps st1) as [[v2 b2] st2] eqn:E2. inversion E; subst.
  apply Forall_app. split; [eapply var_usual; eauto|eapply IH; eauto].
Qed.
Lemma extra_usual : forall test gs st l st', extra_stmts test gs st = (l, st') -> Forall usual_stmt l.
Proof.
  intros test gs. induction gs as [|[ps g] gs IH]; intros st l st' E; cbn [extra_stmts] in E; [inversion E; constructor|].
  destruct (instrument_c_exprs test g ps st) as [s1 st1] eqn:E1. destruct (extra_stmts test gs st1) as [s2 st2] eqn:E2. inversion E; subst.
  apply Forall_app. split; [|eapply IH; eauto]. unfold instrument_c_exprs in E1. destruct (instrument_vars test g ps st) as [[vs bs] st3] eqn:E3. inversion E1; subst.
  apply Forall_app. apply vars_usual in E3. split; [destruct vs; [constructor|constructor; [exact E3|constructor]]|destruct bs; [constructor|constructor; [exact I|constructor]]].
Qed.
Lemma all_usual : forall test sites st code st', instrument_all test sites st = (code, st') -> Forall (Forall usual_stmt) code.
Proof.
  intros test sites. induction sites as [|[id gs] sites IH]; intros st code st' E; cbn [instrument_all] in E; [inversion E; constructor|].
  destruct (instrument_ast test id gs st) as [s1 st1] eqn:E1. destruct (instrument_all test sites st1) as [s2 st2] eqn:E2. inversion E; subst.
  constructor; [|eapply IH; eauto]. unfold instrument_ast in E1. destruct (extra_stmts test gs st) as [x st3] eqn:E3. inversion E1; subst.
  constructor; [exact I|]. apply Forall_app. split; [eapply extra_usual; eauto|]. repeat constructor.
Qed.

(** ** The standard *)

Lemma mapA_ub : forall A (f : A -> outcome (list arg)) l, (forall x, (exists a, f x = Ok a) \/ (exists u, f x = UB u)) ->
  (exists a, mapA f l = Ok a) \/ (exists u, mapA f l = UB u).
Proof.
  intros A f l H. induction l as [|x l IH]; cbn [mapA]; [eauto|]. destruct (H x) as [[a ->]|[u ->]]; cbn [bind]; [|eauto].
  destruct IH as [[b ->]|[u ->]]; cbn [bind]; eauto.
Qed.
Lemma var_args_ub : forall sz ptr env x, (exists a, var_args sz ptr env x = Ok a) \/ (exists u, var_args sz ptr env x = UB u).
Proof.
  intros sz ptr env x. unfold var_args, value_arg. destruct (env (va_expr x)); cbn [bind]; eauto.
  destruct (va_size x <? 4); [|destruct (va_size x =? 4)]; cbn [bind]; eauto.
Qed.
Lemma blob_args_ub : forall sz ptr env x, (exists a, blob_args sz ptr env x = Ok a) \/ (exists u, blob_args sz ptr env x = UB u).
Proof. intros sz ptr env x. unfold blob_args. destruct (env (ba_expr x)); eauto. Qed.

Lemma may_literal : forall n, may_fetch (literal n) TUInt = (n <? 2 ^ 31).
Proof. intro n. unfold may_fetch, literal. destruct (n <? 2 ^ 31) eqn:E; cbn [a_ty a_bits]; [exact E|reflexivity]. Qed.

Lemma iso_vars_ub : forall ptr env a args, exists u, iso_call TULong ptr env (IVars (a :: args)) = UB u.
Proof.
  intros ptr env a args. cbn [iso_call mapA]. destruct (var_args_ub TULong ptr env a) as [[la Ea]|[u ->]]; [|cbn [bind]; eauto].
  destruct (mapA_ub _ (var_args TULong ptr env) args (var_args_ub TULong ptr env)) as [[lr Er]|[u Er]]; rewrite Ea, Er; cbn [bind]; [|eauto].
  unfold var_args in Ea. destruct (value_arg _ _ _ _) as [x| | | |]; cbn [bind] in Ea; try discriminate. inversion Ea; subst la. cbn [app length c_write_trace_variables iso_next].
  rewrite may_literal. destruct (va_name a <? 2 ^ 31); cbn [bind iso_next]; [|eauto]. rewrite may_literal. destruct (va_type a <? 2 ^ 31); cbn [bind iso_next]; [|eauto]. cbn. eauto.
Qed.
Lemma iso_blobs_ub : forall ptr env a args, exists u, iso_call TULong ptr env (IBlobs (a :: args)) = UB u.
Proof.
  intros ptr env a args. cbn [iso_call mapA]. destruct (blob_args_ub TULong ptr env a) as [[la Ea]|[u ->]]; [|cbn [bind]; eauto].
  destruct (mapA_ub _ (blob_args TULong ptr env) args (blob_args_ub TULong ptr env)) as [[lr Er]|[u Er]]; rewrite Ea, Er; cbn [bind]; [|eauto].
  unfold blob_args in Ea. destruct (env (ba_expr a)); try discriminate; inversion Ea; subst la; cbn [app length c_write_trace_blobs iso_next];
  rewrite may_literal; (destruct (ba_name a <? 2 ^ 31); cbn [bind iso_next]; [|eauto]); rewrite may_literal; (destruct (ba_type a <? 2 ^ 31); cbn [bind iso_next]; [|eauto]); cbn; eauto.
Qed.

Lemma fetch_ok : forall t a l x, iso_next t (a :: l) = Ok x <-> may_fetch a t = true /\ x = (a_bits a, a_text a, l).
Proof. intros t a l x. cbn [iso_next]. destruct (may_fetch a t); split; [intros E; inversion E; auto|intros [_ ->]; reflexivity|discriminate|intros [E _]; discriminate]. Qed.

Lemma zlt : forall x k, (0 <= x)%Z -> (Z.to_N x <? 2 ^ k) = true <-> (x < 2 ^ Z.of_N k)%Z.
Proof. intros x k H. rewrite N.ltb_lt, N2Z.inj_lt, Z2N.id, N2Z.inj_pow by exact H. reflexivity. Qed.

Lemma ok_inj : forall A (x y : A), Ok x = Ok y -> x = y.
Proof. congruence. Qed.

(** One value, by the standard. *)
Lemma value_iso : forall ptr env a l x acts, usual a -> matches env a ->
  value_arg (ptr (va_expr a)) (va_fmt a) (va_size a) (env (va_expr a)) = Ok x ->
  (s <- pass (env (va_expr a)) ;; write_value (va_fmt a) (va_size a) s) = Ok acts ->
  (portable_value ptr env a -> fetch_value (list arg) iso_next (va_fmt a) (va_size a) (x :: l) = Ok (acts, l)) /\
  (forall r, fetch_value (list arg) iso_next (va_fmt a) (va_size a) (x :: l) = Ok r -> portable_value ptr env a).
Proof.
  intros ptr env a l x acts U M V W. unfold usual in U. unfold matches in M. unfold portable_value. destruct a as [ni ti size f e]. cbn [va_fmt va_size va_expr] in *.
  destruct (env e) as [z|b|b|p s|s] eqn:Ee; cbn [pass bind value_arg] in *; try discriminate; destruct f; cbn [write_value fetch_value va_gen va_double bind] in *; try contradiction.
  - destruct U as [<-|[<-|[<-|[<-|[]]]]]; cbn [N.eqb Pos.eqb N.ltb N.compare Pos.compare Pos.compare_cont] in *; apply ok_inj in V; subst x; cbn [bind] in W; apply ok_inj in W; subst acts; cbn [iso_next may_fetch a_ty a_bits a_text].
    + split; [intros _|intros r _; split; discriminate]. cbn [bind]. rewrite (le_bytes_cong 1 _ (Z.to_N (z mod 2 ^ 64))); [reflexivity|]. apply zlow. vm_compute; discriminate.
    + split; [intros _|intros r _; split; discriminate]. cbn [bind]. rewrite (le_bytes_cong 2 _ (Z.to_N (z mod 2 ^ 64))); [reflexivity|]. apply zlow. vm_compute; discriminate.
    + assert (B := zlt (z mod 2 ^ 32) 31 ltac:(apply Z.mod_pos_bound; reflexivity)). split.
      * intros [P _]. rewrite (proj2 B (P eq_refl)). cbn [bind]. rewrite (le_bytes_cong 4 _ (Z.to_N (z mod 2 ^ 64))); [reflexivity|]. apply zlow. vm_compute; discriminate.
      * intros r R. split; [intros _|discriminate]. apply B. destruct (_ <? _); [reflexivity|discriminate].
    + assert (B := zlt (z mod 2 ^ 64) 63 ltac:(apply Z.mod_pos_bound; reflexivity)). split.
      * intros [_ P]. rewrite (proj2 B (P eq_refl)). reflexivity.
      * intros r R. split; [discriminate|intros _]. apply B. destruct (_ <? _); [reflexivity|discriminate].
  - split; [intros _|auto]. destruct U as [<-|[<-|[<-|[<-|[]]]]]; cbn [N.eqb Pos.eqb N.ltb N.compare Pos.compare Pos.compare_cont] in *; apply ok_inj in V; subst x; cbn [bind] in W; apply ok_inj in W; subst acts; cbn [iso_next may_fetch a_ty a_bits a_text bind].
    + rewrite (le_bytes_cong 1 _ (Z.to_N (z mod 2 ^ 64))); [reflexivity|]. apply zlow. vm_compute; discriminate.
    + rewrite (le_bytes_cong 2 _ (Z.to_N (z mod 2 ^ 64))); [reflexivity|]. apply zlow. vm_compute; discriminate.
    + rewrite (le_bytes_cong 4 _ (Z.to_N (z mod 2 ^ 64))); [reflexivity|]. apply zlow. vm_compute; discriminate.
    + reflexivity.
  - split; [intros _|auto]. apply ok_inj in V; subst x. destruct U as [<-|[<-|[]]]; cbn [N.eqb Pos.eqb] in *; inversion W; reflexivity.
  - split; [intros _|auto]. apply ok_inj in V; subst x. destruct U as [<-|[<-|[]]]; cbn [N.eqb Pos.eqb] in *; inversion W; reflexivity.
  - apply ok_inj in V; subst x. inversion W; subst acts. cbn [iso_next may_fetch a_ty a_bits a_text]. destruct (ptr e); cbn [bind]; split; auto; try discriminate; congruence.
Qed.

Lemma vars_iso : forall ptr env args acts, Forall usual args -> Forall (matches env) args ->
  mapC (write_trace_variable env) args = Ok acts ->
  (Forall (portable ptr env) args -> iso_call TUInt ptr env (IVars args) = Ok acts) /\
  (forall r, iso_call TUInt ptr env (IVars args) = Ok r -> Forall (portable ptr env) args).
Proof.
  intros ptr env args. cbn [iso_call]. induction args as [|a args IH]; intros acts U M W; cbn [mapA mapC length] in *.
  - inversion W. split; [reflexivity|constructor].
  - inversion U as [|? ? Ua Ur]; subst. inversion M as [|? ? Ma Mr]; subst. 
    destruct (write_trace_variable env a) as [wa| | | |] eqn:Wa; cbn [bind] in W; try discriminate.
    destruct (mapC (write_trace_variable env) args) as [wr| | | |] eqn:Wr; cbn [bind] in W; try discriminate. inversion W; subst acts. specialize (IH wr Ur Mr eq_refl).
    unfold write_trace_variable in Wa.
    assert (Wv : exists w, (s <- pass (env (va_expr a)) ;; write_value (va_fmt a) (va_size a) s) = Ok w /\
      wa = [AWrite [x02]; AWrite (le_bytes 4 (va_name a)); AWrite (le_bytes 4 (va_type a))] ++ w).
    { destruct (pass (env (va_expr a))) as [s| | | |]; cbn [bind] in *; try discriminate. destruct (write_value (va_fmt a) (va_size a) s) as [w| | | |]; cbn [bind] in *; try discriminate. inversion Wa. exists w. split; reflexivity. }
    destruct Wv as (w & Wv & ->). clear Wa.
    assert (Ex : exists x, value_arg (ptr (va_expr a)) (va_fmt a) (va_size a) (env (va_expr a)) = Ok x).
    { destruct (env (va_expr a)) as [z|b|b|p s|s]; cbn [value_arg bind pass] in *; try discriminate; eauto. destruct (va_size a <? 4); [|destruct (va_size a =? 4)]; eauto. }
    destruct Ex as [x Ex]. unfold var_args at 1 3. rewrite Ex. cbn [bind].
    destruct (mapA_ub _ (var_args TUInt ptr env) args (var_args_ub TUInt ptr env)) as [[lr Er]|[u Er]]; rewrite Er in *; cbn [bind] in *.
    2:{ split; [|discriminate]. intros F. inversion F; subst. destruct IH as [IH _]. specialize (IH ltac:(assumption)). discriminate. }
    assert (F : fmt_of_code (fmt_code (va_fmt a)) = va_fmt a) by (destruct (va_fmt a); reflexivity).
    destruct (value_iso ptr env a lr x w Ua Ma Ex Wv) as [V1 V2].
    cbn [app c_write_trace_variables iso_next]. rewrite !may_literal.
    assert (B : forall n, a_bits (literal n) = n) by reflexivity. 
    cbn [may_fetch a_ty a_bits a_text bind]. unfold portable. split.
    + intros P. inversion P as [|? ? (P1 & P2 & P3) Pr]; subst. apply N.ltb_lt in P1, P2. rewrite P1. cbn [bind iso_next]. rewrite may_literal, P2. cbn [bind iso_next may_fetch a_ty a_bits]. rewrite F, (V1 P3). cbn [bind].
      destruct IH as [IH _]. rewrite (IH Pr). cbn [bind]. rewrite <- ?app_assoc. reflexivity.
    + intros r R. destruct (va_name a <? 2 ^ 31) eqn:P1; cbn [bind iso_next] in R; [|discriminate]. rewrite may_literal in R. destruct (va_type a <? 2 ^ 31) eqn:P2; cbn [bind iso_next may_fetch a_ty a_bits] in R; [|discriminate].
      rewrite F in R. destruct (fetch_value (list arg) iso_next (va_fmt a) (va_size a) (x :: lr)) as [[w' st]| | | |] eqn:FV; cbn [bind] in R; try discriminate.
      specialize (V2 _ eq_refl). specialize (V1 V2). inversion V1; subst w' st.
      destruct (c_write_trace_variables (list arg) iso_next (length args) lr) as [r'| | | |]; cbn [bind] in R; try discriminate.
      destruct IH as [_ IH]. specialize (IH r' eq_refl). constructor; [|exact IH]. apply N.ltb_lt in P1, P2. auto.
Qed.

Lemma blobs_iso : forall ptr env args acts, Forall (short_string env) args ->
  mapC (write_trace_blob env) args = Ok acts ->
  (Forall (portable_blob ptr env) args -> iso_call TUInt ptr env (IBlobs args) = Ok acts) /\
  (forall r, iso_call TUInt ptr env (IBlobs args) = Ok r -> Forall (portable_blob ptr env) args).
Proof.
  intros ptr env args. cbn [iso_call]. induction args as [|a args IH]; intros acts M W; cbn [mapA mapC length] in *.
  - inversion W. split; [reflexivity|constructor].
  - inversion M as [|? ? Ma Mr]; subst. 
    destruct (write_trace_blob env a) as [wa| | | |] eqn:Wa; cbn [bind] in W; try discriminate.
    destruct (mapC (write_trace_blob env) args) as [wr| | | |] eqn:Wr; cbn [bind] in W; try discriminate. inversion W; subst acts. specialize (IH wr Mr eq_refl).
    assert (X : exists t p s, blob_args TUInt ptr env a = Ok [literal (ba_name a); literal (ba_type a); mkArg TUInt (lenN s) []; mkArg (TPtr t) p s] /\ lenN s < 2 ^ 32 /\
      (t <> POther <-> match env (ba_expr a) with RPtr _ _ => ptr (ba_expr a) <> POther | _ => True end) /\
      wa = [AWrite [x02]; AWrite (le_bytes 4 (ba_name a)); AWrite (le_bytes 4 (ba_type a)); AWrite (le_bytes 4 (lenN s mod two32)); AWrite (takeN (lenN s mod two32) s)]).
    { unfold blob_args. unfold write_trace_blob in Wa. unfold short_string in Ma. destruct (env (ba_expr a)) as [z|b|b|p s|s]; try discriminate; cbn [bind] in Wa; inversion Wa.
      - exists (ptr (ba_expr a)), p, s. conj_split; auto; reflexivity.
      - exists PChar, 0, s. conj_split; auto. split; [auto|discriminate]. }
    destruct X as (t & p & s & Ea & Ls & Ht & ->). rewrite Ea. cbn [bind].
    destruct (mapA_ub _ (blob_args TUInt ptr env) args (blob_args_ub TUInt ptr env)) as [[lr Er]|[u Er]]; rewrite Er in *; cbn [bind] in *.
    2:{ split; [|discriminate]. intros F. inversion F; subst. destruct IH as [IH _]. specialize (IH ltac:(assumption)). discriminate. }
    assert (Sz : lenN s mod two32 = lenN s) by (apply N.mod_small; exact Ls). rewrite Sz.
    cbn [app c_write_trace_blobs iso_next]. rewrite !may_literal. unfold portable_blob. split.
    + intros P. inversion P as [|? ? (P1 & P2 & P3) Pr]; subst. apply N.ltb_lt in P1, P2. rewrite P1. cbn [bind iso_next]. rewrite may_literal, P2. cbn [bind iso_next may_fetch a_ty a_bits a_text].
      apply Ht in P3. destruct t; [| |congruence]; cbn [bind]; destruct IH as [IH _]; rewrite (IH Pr), N.ltb_irrefl; reflexivity.
    + intros r R. destruct (ba_name a <? 2 ^ 31) eqn:P1; cbn [bind iso_next] in R; [|discriminate]. rewrite may_literal in R. destruct (ba_type a <? 2 ^ 31) eqn:P2; cbn [bind iso_next may_fetch a_ty a_bits] in R; [|discriminate].
      assert (T : t <> POther) by (intros ->; discriminate).
      assert (R' : exists r', c_write_trace_blobs (list arg) iso_next (length args) lr = Ok r').
      { destruct t; [| |congruence]; cbn [bind a_text] in R; rewrite N.ltb_irrefl in R; destruct (c_write_trace_blobs (list arg) iso_next (length args) lr) as [r'| | | |]; cbn [bind] in R; try discriminate; eauto. }
      destruct R' as [r' R']. destruct IH as [_ IH]. specialize (IH r' R'). constructor; [|exact IH]. apply N.ltb_lt in P1, P2. conj_split; auto. apply Ht. exact T.
Qed.
