(** Proofs about programs for machines with addresses of four bytes. *)
From Verif Require Import BaseProofs Types Stream SkipList MemMapSpec Reader Compare FormatSpec ReaderMore ReaderProps.
From Verif Require Import Instr InstrRun InstrSpec InstrText InstrFloat InstrConc InstrProofs InstrEnd VaArg VaProofs Ilp32.

Definition eight (t : aty) : bool := match t with TLong | TULong | TDouble => true | _ => false end.

Lemma pop4 : forall t a r, eight t = false -> eight (a_ty a) = false -> pop t (push a ++ r) = Ok (a_bits a mod 2 ^ 32, a_text a, r).
Proof. intros t a r T A. unfold push. destruct (a_ty a); try discriminate A; destruct t; try discriminate T; reflexivity. Qed.
Lemma halves : forall x, x < 2 ^ 64 -> x mod 2 ^ 32 + 2 ^ 32 * ((x / 2 ^ 32) mod 2 ^ 32) = x.
Proof.
  intros x H. rewrite (N.mod_small (x / 2 ^ 32)).
  - rewrite N.add_comm. symmetry. apply N.div_mod. discriminate.
  - apply N.div_lt_upper_bound; [discriminate|]. exact H.
Qed.
Lemma pop8 : forall t a r, eight t = true -> eight (a_ty a) = true -> a_bits a < 2 ^ 64 -> pop t (push a ++ r) = Ok (a_bits a, [], r).
Proof.
  intros t a r T A L. unfold push. destruct (a_ty a); try discriminate A; destruct t; try discriminate T; cbn [app pop]; rewrite halves by exact L; reflexivity.
Qed.
Lemma pop_literal : forall t n r, eight t = false -> n < 2 ^ 31 -> pop t (push (literal n) ++ r) = Ok (n, [], r).
Proof.
  intros t n r T L. unfold literal. destruct (N.ltb_spec n (2 ^ 31)) as [_|X]; [|lia]. rewrite pop4 by (exact T || reflexivity). cbn [a_bits a_text].
  rewrite N.mod_small; [reflexivity|]. etransitivity; [exact L|reflexivity].
Qed.

Lemma lor_lt : forall n a b, a < 2 ^ n -> b < 2 ^ n -> N.lor a b < 2 ^ n.
Proof.
  intros n a b A B. destruct (N.eq_0_gt_0_cases (N.lor a b)) as [->|P]; [apply N.neq_0_lt_0, N.pow_nonzero; discriminate|].
  apply N.log2_lt_pow2; [exact P|]. rewrite N.log2_lor. destruct (N.eq_0_gt_0_cases a) as [->|PA]; destruct (N.eq_0_gt_0_cases b) as [->|PB].
  - discriminate P.
  - cbn [N.log2]. rewrite N.max_r by lia. apply N.log2_lt_pow2; assumption.
  - cbn [N.log2]. rewrite N.max_l by lia. apply N.log2_lt_pow2; assumption.
  - apply N.max_lub_lt; apply N.log2_lt_pow2; assumption.
Qed.
Lemma widen_lt : forall b, b < 2 ^ 32 -> widen b < 2 ^ 64.
Proof.
  intros b H. unfold widen. set (m := b mod 2 ^ 23). set (e := (b / 2 ^ 23) mod 2 ^ 8).
  assert (M : m < 2 ^ 23) by (apply N.mod_lt; discriminate). assert (E : e < 2 ^ 8) by (apply N.mod_lt; discriminate).
  assert (S : b / 2 ^ 31 < 2) by (apply N.div_lt_upper_bound; [discriminate|exact H]).
  assert (X : forall x, x < 2 ^ 63 -> b / 2 ^ 31 * 2 ^ 63 + x < 2 ^ 64).
  { intros x Hx. change (2 ^ 64) with (2 ^ 63 + 2 ^ 63). set (q := 2 ^ 63) in *. nia. }
  apply X. clear X S H. destruct (N.eqb_spec e 255) as [_|NE].
  - assert (L : (if m =? 0 then 0 else N.lor m (2 ^ 22)) < 2 ^ 23) by (destruct (m =? 0); [reflexivity|apply lor_lt; [exact M|reflexivity]]).
    set (w := if m =? 0 then 0 else N.lor m (2 ^ 22)) in *. clearbody w. change (2 ^ 23) with 8388608 in L. change (2047 * 2 ^ 52) with 9218868437227405312. change (2 ^ 29) with 536870912. change (2 ^ 63) with 9223372036854775808. lia.
  - destruct (N.eqb_spec e 0) as [_|_].
    + destruct (N.eqb_spec m 0) as [_|N0]; [reflexivity|]. assert (K : N.log2 m < 23) by (apply N.log2_lt_pow2; [lia|exact M]).
      destruct (N.log2_spec m) as [A B]; [lia|]. set (k := N.log2 m) in *. clearbody k.
      assert (P : (m - 2 ^ k) * 2 ^ (52 - k) < 2 ^ 52).
      { replace 52 with (k + (52 - k)) at 2 by lia. rewrite N.pow_add_r. apply N.mul_lt_mono_pos_r; [apply N.neq_0_lt_0, N.pow_nonzero; discriminate|].
        rewrite N.pow_succ_r' in B. lia. }
      set (w := (m - 2 ^ k) * 2 ^ (52 - k)) in *. clearbody w. change (2 ^ 52) with 4503599627370496 in *. change (2 ^ 63) with 9223372036854775808. lia.
    + change (2 ^ 8) with 256 in E. change (2 ^ 23) with 8388608 in M. change (2 ^ 52) with 4503599627370496. change (2 ^ 29) with 536870912. change (2 ^ 63) with 9223372036854775808. lia.
Qed.

(** The bytes of a value. *)
Definition image (f : fmt) (size : N) (v : rvalue) : list byte :=
  match v with
  | RInt z => le_bytes (N.to_nat size) (zbits z)
  | RFloat b | RDouble b => le_bytes (N.to_nat size) b
  | RPtr a s => match f with BLOB => s | _ => le_bytes 4 a end
  | RString s => s
  end.
Definition entry_of (env : name -> rvalue) (it : item) : entry :=
  EVar (it_name it) (it_type it) (image (it_fmt it) (it_size it) (env (it_expr it))).


Lemma low4 : forall n ty z, (N.of_nat n <= 4) -> le_bytes n (a_bits (mkArg ty (Z.to_N (z mod 2 ^ 32)) []) mod 2 ^ 32) = le_bytes n (zbits z).
Proof. intros n ty z H. apply le_bytes_cong. cbn [a_bits]. rewrite mod_mod_le by lia. apply zlow. lia. Qed.
Lemma low8 : forall z, Z.to_N (z mod 2 ^ 64) < 2 ^ 64.
Proof. intro z. apply N2Z.inj_lt. rewrite Z2N.id by (apply Z.mod_pos_bound; reflexivity). apply Z.mod_pos_bound. reflexivity. Qed.
Lemma int_fetched32 : forall f size z x r, f = SIGNED \/ f = UNSIGNED -> In size [1; 2; 4; 8] -> value_arg POther f size (RInt z) = Ok x ->
  fetch_value32 f size (push x ++ r) = Ok ([AWrite (le_bytes (N.to_nat size) (zbits z))], r).
Proof.
  intros f size z x r F S A. assert (E : exists ty, x = mkArg ty (Z.to_N (z mod 2 ^ (if size =? 8 then 64 else 32))) [] /\ eight ty = (size =? 8)).
  { destruct S as [<-|[<-|[<-|[<-|[]]]]]; cbv [value_arg N.ltb N.compare Pos.compare Pos.compare_cont N.eqb Pos.eqb] in A; injection A as <-; eexists; (split; [reflexivity|]);
      destruct F as [->| ->]; reflexivity. }
  clear A. destruct E as (ty & -> & T). destruct S as [<-|[<-|[<-|[<-|[]]]]].
  1-3: destruct F as [->| ->]; cbn [fetch_value32 N.eqb Pos.eqb]; rewrite pop4 by exact T || reflexivity; cbn [bind]; rewrite low4 by lia; reflexivity.
  destruct F as [->| ->]; cbn [fetch_value32 N.eqb Pos.eqb]; rewrite pop8 by (exact T || reflexivity || apply low8); reflexivity.
Qed.
Lemma value_fetched32 : forall f size v x r, f <> BLOB -> size32 f size -> value_ok32 f size v -> value_arg POther f size v = Ok x ->
  fetch_value32 f size (push x ++ r) = Ok ([AWrite (image f size v)], r).
Proof.
  intros f size v x r NB S V A. destruct f; try contradiction; try congruence; cbn [size32 value_ok32] in *; destruct v as [z|b|b|a s|s]; try contradiction.
  - apply int_fetched32; auto.
  - apply int_fetched32; auto.
  - destruct V as (-> & L & NS). injection A as <-. cbn [fetch_value32 N.eqb Pos.eqb image]. rewrite pop8; [|reflexivity|reflexivity|cbn [a_bits]; apply widen_lt; exact L].
    cbn [bind a_bits]. rewrite narrow_widen by assumption. reflexivity.
  - destruct V as (-> & L). injection A as <-. cbn [fetch_value32 N.eqb Pos.eqb image]. rewrite pop8; [reflexivity|reflexivity|reflexivity|exact L].
  - injection A as <-. subst size. cbn [fetch_value32 image]. rewrite pop4 by reflexivity. cbn [bind a_bits]. rewrite N.mod_small by exact V. reflexivity.
Qed.

Lemma value_passed32 : forall f size v, f <> BLOB -> size32 f size -> value_ok32 f size v -> exists x, value_arg POther f size v = Ok x.
Proof.
  intros f size v NB S V. destruct v as [z|b|b|a s|s]; try (eexists; reflexivity).
  - cbn [value_arg]. destruct (size <? 4); [eauto|]. destruct (size =? 4); eauto.
  - destruct f; contradiction || congruence.
Qed.
Lemma size32_lt : forall f size, size32 f size -> size < 2 ^ 32.
Proof. intros f size S. destruct f; cbn [size32 In] in S; change (2 ^ 32) with 4294967296; lia || contradiction. Qed.
Lemma pop_number : forall t ty n r, eight t = false -> eight ty = false -> n < 2 ^ 32 -> pop t (push (mkArg ty n []) ++ r) = Ok (n, [], r).
Proof. intros t ty n r T Y L. rewrite pop4 by assumption. cbn [a_bits a_text]. rewrite N.mod_small by exact L. reflexivity. Qed.
Lemma format_back32 : forall f, f <> INVALID_FORMAT -> fmt_of_code (fmt_code f) = f /\ fmt_code f < 2 ^ 32.
Proof. intros f H. destruct f; try congruence; split; reflexivity. Qed.
Lemma push_app : forall a b, concat (map push (a ++ b)) = concat (map push a) ++ concat (map push b).
Proof. intros a b. rewrite map_app. apply concat_app. Qed.

Section Statements.
Variables (names : list name) (types : list tdesc) (env : name -> rvalue).
Definition fine (it : item) : Prop := item_ok names types it /\ value_ok32 (it_fmt it) (it_size it) (env (it_expr it)).

Lemma blob_type : forall ti nm f size, nthN types ti = Some (mkT nm f size) -> (f = BLOB -> size = 0) -> is_var_blob types ti = match f with BLOB => true | _ => false end.
Proof. intros ti nm f size H Z. unfold is_var_blob. rewrite H. destruct f; try reflexivity. rewrite Z by reflexivity. reflexivity. Qed.

Lemma vars_run32 : forall args, Forall (fun a => va_fmt a <> BLOB) args -> Forall fine (items (IVars args)) ->
  exists l ws, mapA (var_args TUInt (fun _ => POther) env) args = Ok l /\
    (forall rest, write_variables32 (length args) (concat (map push l) ++ rest) = Ok (map AWrite ws)) /\
    concat ws = enc_entries types (map (entry_of env) (items (IVars args))).
Proof.
  induction args as [|[ni ti size f ex] args IH]; intros NB F.
  - exists [], []. split; [reflexivity|]. split; [intro; reflexivity|reflexivity].
  - pose proof (Forall_inv NB) as NB1. pose proof (Forall_inv F) as F1. cbn [va_fmt va_name va_type va_size va_expr] in NB1, F1.
    destruct (IH (Forall_inv_tail NB) (Forall_inv_tail F)) as (l & ws & E1 & E2 & E3). clear IH NB F.
    destruct F1 as ((_ & LN & LT & SZ & nm & TY) & V). cbn [it_name it_type it_fmt it_size it_expr] in *.
    destruct (value_passed32 _ _ _ NB1 SZ V) as (x & X). pose proof (size32_lt _ _ SZ) as LS.
    assert (NI : f <> INVALID_FORMAT) by (intros ->; exact SZ). destruct (format_back32 _ NI) as [FB FL].
    exists ([literal ni; literal ti; mkArg TUInt size []; mkArg TInt (fmt_code f) []; x] ++ l), ([[x02]; le_bytes 4 ni; le_bytes 4 ti; image f size (env ex)] ++ ws).
    split; [|split].
    + cbn [mapA]. unfold var_args at 1. cbn [va_fmt va_name va_type va_size va_expr]. rewrite X. cbn [bind]. rewrite E1. reflexivity.
    + intro rest. rewrite push_app. cbn [map concat length]. rewrite app_nil_r, <- !app_assoc. cbn [write_variables32].
      rewrite pop_literal by (reflexivity || exact LN). cbn [bind]. rewrite pop_literal by (reflexivity || exact LT). cbn [bind].
      rewrite pop_number by (reflexivity || exact LS). cbn [bind]. rewrite pop_number by (reflexivity || exact FL). cbn [bind]. rewrite FB.
      rewrite (value_fetched32 _ _ _ _ _ NB1 SZ V X). cbn [bind]. rewrite E2. cbn [bind]. rewrite map_app. reflexivity.
    + rewrite concat_app, E3. cbn [items map enc_entries concat entry_of it_name it_type it_fmt it_size it_expr va_fmt va_name va_type va_size va_expr enc_entry].
      unfold enc_entries. cbn [map concat enc_entry]. rewrite (blob_type _ _ _ _ TY) by congruence. destruct f; try congruence; cbn [app]; rewrite <- ?app_assoc, ?app_nil_r; reflexivity.
Qed.

Lemma blobs_run32 : forall args, Forall fine (items (IBlobs args)) ->
  exists l ws, mapA (blob_args TUInt (fun _ => PChar) env) args = Ok l /\
    (forall rest, write_blobs32 (length args) (concat (map push l) ++ rest) = Ok (map AWrite ws)) /\
    concat ws = enc_entries types (map (entry_of env) (items (IBlobs args))).
Proof.
  induction args as [|[ni ti ex] args IH]; intros F.
  - exists [], []. split; [reflexivity|]. split; [intro; reflexivity|reflexivity].
  - pose proof (Forall_inv F) as F1. cbn [ba_name ba_type ba_expr] in F1.
    destruct (IH (Forall_inv_tail F)) as (l & ws & E1 & E2 & E3). clear IH F.
    destruct F1 as ((_ & LN & LT & SZ & nm & TY) & V). cbn [it_name it_type it_fmt it_size it_expr] in *.
    assert (X : exists p s, blob_args TUInt (fun _ => PChar) env (mkBA ni ti ex) = Ok [literal ni; literal ti; mkArg TUInt (lenN s) []; mkArg (TPtr PChar) p s] /\
      image BLOB 0 (env ex) = s /\ lenN s < 2 ^ 32).
    { unfold blob_args. cbn [ba_name ba_type ba_expr]. destruct (env ex) as [z|b|b|a s|s]; try contradiction; eauto. }
    destruct X as (p & s & X & I & LS).
    exists ([literal ni; literal ti; mkArg TUInt (lenN s) []; mkArg (TPtr PChar) p s] ++ l), ([[x02]; le_bytes 4 ni; le_bytes 4 ti; le_bytes 4 (lenN s); s] ++ ws).
    split; [|split].
    + cbn [mapA]. rewrite X. cbn [bind]. rewrite E1. reflexivity.
    + intro rest. rewrite push_app. cbn [map concat length]. rewrite app_nil_r, <- !app_assoc. cbn [write_blobs32].
      rewrite pop_literal by (reflexivity || exact LN). cbn [bind]. rewrite pop_literal by (reflexivity || exact LT). cbn [bind].
      rewrite pop_number by (reflexivity || exact LS). cbn [bind]. rewrite pop4 by reflexivity. cbn [bind a_text]. rewrite N.ltb_irrefl.
      rewrite E2. cbn [bind]. rewrite map_app, takeN_all by lia. reflexivity.
    + rewrite concat_app, E3. unfold enc_entries. cbn [items map concat entry_of it_name it_type it_fmt it_size it_expr ba_name ba_type ba_expr enc_entry].
      rewrite (blob_type _ _ _ _ TY) by reflexivity. rewrite I. cbn [app]. rewrite <- ?app_assoc, ?app_nil_r. reflexivity.
Qed.

Lemma stmt_run32 : forall s, logs_variables s -> Forall fine (items s) ->
  exists ws, run_stmt32 env s = Ok (map AWrite ws) /\ concat ws = enc_entries types (map (entry_of env) (items s)).
Proof.
  intros [id|args|args|] LV F; try contradiction.
  - destruct (vars_run32 args LV F) as (l & ws & E1 & E2 & E3). exists ws. split; [|exact E3]. cbn [run_stmt32]. rewrite E1. cbn [bind].
    rewrite <- (app_nil_r (concat (map push l))). apply E2.
  - destruct (blobs_run32 args F) as (l & ws & E1 & E2 & E3). exists ws. split; [|exact E3]. cbn [run_stmt32]. rewrite E1. cbn [bind].
    rewrite <- (app_nil_r (concat (map push l))). apply E2.
Qed.

Lemma mid_run32 : forall mid, Forall logs_variables mid -> Forall fine (concat (map items mid)) ->
  exists ws, run_stmts32 env mid = Ok (map AWrite ws) /\ concat ws = enc_entries types (map (entry_of env) (concat (map items mid))).
Proof.
  induction mid as [|s mid IH]; intros LV F.
  - exists []. split; reflexivity.
  - cbn [map concat] in F. apply Forall_app in F. destruct F as [F1 F2]. destruct (stmt_run32 s (Forall_inv LV) F1) as (w1 & A1 & A2).
    destruct (IH (Forall_inv_tail LV) F2) as (w2 & B1 & B2). exists (w1 ++ w2). unfold run_stmts32 in *. cbn [mapC]. rewrite A1. cbn [bind]. rewrite B1. cbn [bind].
    rewrite map_app. split; [reflexivity|]. rewrite concat_app, A2, B2. cbn [map concat]. unfold enc_entries. rewrite !map_app, concat_app. reflexivity.
Qed.

Hypothesis FIT : fits names types.

Lemma image_len : forall f size v, f <> BLOB -> size32 f size -> value_ok32 f size v -> lenN (image f size v) = size.
Proof.
  intros f size v NB S V. destruct f; try contradiction; try congruence; destruct v as [z|b|b|a s|s]; try contradiction; cbn [image size32] in *; rewrite lenN_le_bytes; lia.
Qed.
Lemma four : forall size, In size [1; 2; 4; 8] -> In (N.to_nat size) [1; 2; 4; 8]%nat.
Proof. intros size S. destruct S as [<-|[<-|[<-|[<-|[]]]]]; cbn; auto. Qed.

Lemma item_good : forall it, fine it -> entry_wf yes names types (entry_of env it) /\
  forall h x, var_of types h (it_name it) (it_type it) (image (it_fmt it) (it_size it) (env (it_expr it))) x -> item_seen it (env (it_expr it)) x.
Proof.
  intros [ni ti f size ex] ((LN & _ & LT & SZ & nm & TY) & V). destruct FIT as (FN & _). unfold entry_of. cbn [it_name it_type it_fmt it_size it_expr] in *. set (v := env ex) in *. split.
  - cbn [entry_wf]. split; [exact (N.lt_trans _ _ _ LN FN)|]. split; [etransitivity; [exact LT|reflexivity]|]. split; [exact LN|]. exists (mkT nm f size). split; [exact TY|]. unfold data_wf. cbn [t_fmt t_size].
    destruct f; try contradiction.
    + rewrite image_len by (assumption || discriminate). split; [reflexivity|]. cbn [size32 In] in SZ. lia.
    + rewrite image_len by (assumption || discriminate). split; [reflexivity|exact SZ].
    + rewrite image_len by (assumption || discriminate). split; [reflexivity|]. cbn [size32 In] in SZ. lia.
    + rewrite image_len by (assumption || discriminate). split; [reflexivity|]. cbn [size32 In] in SZ. lia.
    + cbn [size32] in SZ. subst size. split; [|reflexivity]. left. split; [reflexivity|]. destruct v; try contradiction; exact V.
  - intros h x (V1 & V2 & V3 & d & V4 & V5 & V6 & _). rewrite TY in V4. injection V4 as <-. cbn [t_fmt] in *. unfold item_seen. cbn [it_name it_type it_fmt it_size].
    rewrite V1, V2, V3, V5. repeat (split; [reflexivity|]). destruct f; try contradiction; cbn [value_of] in V6.
    + rewrite image_len by (assumption || discriminate). destruct v as [z|b|b|a s|s]; try contradiction. split; [reflexivity|]. rewrite V6. cbn [image]. f_equal. apply unsigned_bytes.
      * apply four. exact SZ.
      * rewrite N_nat_Z. exact V.
    + rewrite image_len by (assumption || discriminate). destruct v as [z|b|b|a s|s]; try contradiction. split; [reflexivity|]. destruct V6 as (u & U1 & U2 & U3). exists u. split; [exact U1|]. split; [exact U2|].
      rewrite U3. cbn [image]. apply signed_bytes; [apply four; exact SZ|]. rewrite N_nat_Z. exact V.
    + rewrite image_len by (assumption || discriminate). destruct v as [z|b|b|a s|s]; try contradiction; (split; [reflexivity|]); rewrite V6; cbn [image]; f_equal; rewrite le_val_lebytes_mod.
      * destruct V as (-> & L & _). apply N.mod_small. exact L.
      * destruct V as (-> & L). apply N.mod_small. exact L.
    + rewrite image_len by (assumption || discriminate). destruct v as [z|b|b|a s|s]; try contradiction. split; [reflexivity|]. rewrite V6. cbn [image]. f_equal. rewrite le_val_lebytes_mod. apply N.mod_small. exact V.
    + destruct v as [z|b|b|a s|s]; try contradiction; (split; [reflexivity|exact V6]).
Qed.

Lemma items_good : forall its, Forall fine its -> Forall (entry_wf yes names types) (map (entry_of env) its) /\
  stmt_of (map (entry_of env) its) = None /\ records (map (entry_of env) its) = [] /\ aux_of (map (entry_of env) its) = [] /\
  forall h xs, vars_of types h (map (entry_of env) its) xs -> Forall2 (fun it x => item_seen it (env (it_expr it)) x) its xs.
Proof.
  induction its as [|it its IH]; intros F.
  - split; [constructor|]. repeat (split; [reflexivity|]). intros h xs V. inversion V; subst. constructor.
  - destruct (IH (Forall_inv_tail F)) as (W & S & R & A & V). destruct (item_good it (Forall_inv F)) as [G1 G2]. cbn [map stmt_of records aux_of].
    unfold entry_of at 2 4 6 8. rewrite S. split; [constructor; assumption|]. split; [reflexivity|]. split; [exact R|]. split; [exact A|].
    intros h xs X. inversion X; subst. constructor; [eapply G2; eassumption|eapply V; eassumption].
Qed.
End Statements.

(** ** Points *)
Definition good32 (names : list name) (types : list tdesc) (code : list (list istmt)) (e : event) (acts : list action) (es : list entry) : Prop :=
  event_run32 code e = Ok acts /\ point_shape acts /\ written acts = enc_point types es /\
  Forall (entry_wf yes names types) es /\ records es = [] /\
  forall i h p, point_of types i h es p -> event_shows32 code e p.

Lemma event_good32 : forall names types code e, fits names types -> event_ok32 names types code e -> exists acts es, good32 names types code e acts es.
Proof.
  intros names types code [k env] FIT (id & mid & PL & HI & LV & F). cbn [snd] in F.
  destruct (mid_run32 names types env mid LV F) as (ws & R1 & R2). destruct (items_good names types env FIT _ F) as (W & S & R & A & V).
  set (es := map (entry_of env) (concat (map items mid))) in *.
  exists (ALock :: map AWrite ([x01] :: le_bytes 8 id :: ws ++ [[x00]]) ++ [AFlush; AUnlock]), (EStmt id :: es).
  split; [|split; [|split; [|split; [|split]]]].
  - unfold event_run32. unfold place_of in PL. cbn [fst] in PL |- *. rewrite PL. cbn [snd]. unfold run_stmts32 in *. cbn [mapC run_stmt32 bind].
    rewrite (mapC_app _ (run_stmt32 env) mid [IEnd] (map AWrite ws) (write_end_entry ++ []) R1 eq_refl). cbn [bind].
    unfold write_trace_id, write_end_entry. cbn [map app]. rewrite map_app, <- app_assoc. reflexivity.
  - eexists. reflexivity.
  - change (ALock :: map AWrite ([x01] :: le_bytes 8 id :: ws ++ [[x00]]) ++ [AFlush; AUnlock]) with ([ALock] ++ map AWrite ([x01] :: le_bytes 8 id :: ws ++ [[x00]]) ++ [AFlush; AUnlock]).
    rewrite !written_app, written_ws. unfold written. cbn [map concat app]. rewrite concat_app, R2. unfold enc_point, enc_entries. cbn [map concat enc_entry app].
    rewrite ?app_nil_r, <- ?app_assoc. reflexivity.
  - constructor; [exact HI|exact W].
  - exact R.
  - intros i h p (_ & Q2 & Q3 & Q4 & Q5). exists id, mid. split; [exact PL|]. cbn [stmt_of records aux_of] in *. rewrite S in Q2. rewrite R in Q3. rewrite A in Q5.
    repeat (split; [assumption|]). inversion Q4; subst. eapply V. eassumption.
Qed.

Lemma threads_good32 : forall names types code ths, fits names types -> Forall (Forall (event_ok32 names types code)) ths ->
  exists acts, Forall2 (Forall2 (fun e a => exists es, good32 names types code e a es)) ths acts.
Proof.
  intros names types code ths FIT. induction 1 as [|l ths H _ (acts & IH)]; [exists []; constructor|].
  assert (G : exists a, Forall2 (fun e a => exists es, good32 names types code e a es) l a).
  { clear -H FIT. induction H as [|e l H _ (a & IH)]; [exists []; constructor|]. destruct (event_good32 _ _ _ _ FIT H) as (x & es & G). exists (x :: a). constructor; eauto. }
  destruct G as (a & G). exists (a :: acts). constructor; assumption.
Qed.

Lemma points_read32 : forall names types code order o, Forall2 (fun e a => exists es, good32 names types code e a es) order o ->
  exists pts, wr o = enc_points types pts /\ Forall (Forall (entry_wf yes names types)) pts /\ records (concat pts) = [] /\
    forall i h ps, points_of types i h pts ps -> Forall2 (event_shows32 code) order ps.
Proof.
  intros names types code order o F. induction F as [|e a order o (es & G) _ (pts & E1 & E3 & E4 & E5)].
  - exists []. repeat split; auto. intros i h ps P. inversion P; subst. constructor.
  - destruct G as (G1 & G2 & G3 & G4 & G5 & G6). exists (es :: pts). split; [|split; [|split]].
    + unfold wr, enc_points in *. cbn [map concat]. now rewrite G3, E1.
    + constructor; auto.
    + cbn [concat]. clear -G5 E4. induction es as [|[] es IH]; cbn in *; auto; discriminate.
    + intros i h ps P. inversion P; subst. constructor; eauto.
Qed.

Lemma file_fine32 : forall names types pts, tables_ok names types -> Forall (Forall (entry_wf yes names types)) pts -> sentinel_safe (records (concat pts)) ->
  file_wf yes (mkF names types pts).
Proof.
  intros names types pts (NF & TW & L1 & L2 & L3) W R. split; [|split; [|split]]; cbn [f_names f_types f_points]; auto.
  - split; [exact NF|]. auto.
  - split; [exact TW|]. auto.
Qed.

Lemma read_back32 : forall names types code ths, tables_ok names types -> Forall (Forall (event_ok32 names types code)) ths ->
  exists acts, Forall2 (Forall2 (fun e a => event_run32 code e = Ok a)) ths acts /\
    forall s, rsteps (rstart names types (map (@concat action) acts)) s -> Forall (eq []) (r_threads s) ->
    forall ok coins pos t, (forall n, n <= lenN (r_out s) -> ok n = true) ->
    exists order tr, merge ths order /\ read_trace ok (skip_map coins pos) 0 (open_stream (r_out s) t) = Ok tr /\
      tr_names tr = names /\ tr_types tr = types /\ Forall2 (event_shows32 code) order (tr_points tr) /\
      (order <> [] -> r_disk s = lenN (r_out s)).
Proof.
  intros names types code ths TO HO. pose proof TO as (NF & TW & FIT). destruct (threads_good32 _ _ _ _ FIT HO) as (acts & G). exists acts. split.
  { clear -G. induction G as [|a b l m X F IH]; constructor; auto. clear -X. induction X as [|e x l m (es & X) F IH]; constructor; auto. apply X. }
  assert (SH : Forall (Forall point_shape) acts).
  { clear -G. induction G as [|a b l m X F IH]; constructor; auto. clear -X. induction X as [|e x l m (es & X) F IH]; constructor; auto. apply X. }
  intros s R F ok coins pos t OK. destruct (finished_lemma _ _ _ _ SH R F) as (o & M & OUT & LK & DK).
  destruct (merge_rel _ _ _ _ _ M _ G) as (order & M' & F'). destruct (points_read32 _ _ _ _ _ F') as (pts & E1 & E3 & E4 & E5).
  pose proof FIT as (L1 & L2 & L3).
  assert (OE : r_out s = enc_file (mkF names types pts)).
  { rewrite OUT, header_bytes, E1 by assumption. reflexivity. }
  assert (WF : file_wf ok (mkF names types pts)).
  { apply file_wf_ok; [apply file_fine32; auto|]. { rewrite E4. intros pre post X. symmetry in X. apply app_eq_nil in X. destruct X as [-> _]. cbn. lia. } rewrite <- OE. exact OK. }
  destruct (complete_lemma ok coins pos t _ WF) as (tr & RD & (D1 & D2 & D3) & _). cbn [f_names f_types f_points] in *.
  exists order, tr. rewrite OE. repeat split; auto; try (eapply E5; eauto; fail).
  intros NE. rewrite <- OE. apply DK. intros ->. inversion F'; subst. congruence.
Qed.

(** ** Buffer sizes *)
Section Compiler.
Variable gcc : bool.
Definition seen_at (r : N * N) : N * N := (uint64_of_address gcc (fst r), snd r).
Lemma uint64_lt : forall a, a < 2 ^ 32 - 1 -> uint64_of_address gcc a < 2 ^ 64 - 1.
Proof. intros a H. unfold uint64_of_address. change (2 ^ 31) with 2147483648. change (2 ^ 64) with 18446744073709551616. change (2 ^ 32) with 4294967296 in *. destruct gcc; cbn [andb]; [|lia]. destruct (N.leb_spec 2147483648 a); lia. Qed.

Lemma records_written : forall types h, written (concat (map (fun r => write_buffer_size32 gcc (fst r) (snd r)) h)) = enc_entries types (map (fun r => EBuf (fst (seen_at r)) (snd r)) h).
Proof.
  intros types. induction h as [|[a s] h IH]; [reflexivity|]. cbn [map concat]. rewrite written_app, IH. unfold enc_entries, written, write_buffer_size32. cbn [map concat enc_entry seen_at fst snd app]. rewrite ?app_nil_r, <- ?app_assoc. reflexivity.
Qed.
Lemma no_sentinel : forall h, Forall (fun r => fst r < 2 ^ 64 - 1) h -> sentinel_safe h.
Proof.
  intros h F pre post E. assert (Z : sentinel_frees pre = 0%nat).
  { rewrite E in F. apply Forall_app in F. destruct F as [F _]. clear E. unfold sentinel_frees. induction F as [|[a s] pre H F IH]; [reflexivity|]. cbn [filter fst snd] in *.
    destruct (N.eqb_spec a (2 ^ 64 - 1)) as [->|_]; [lia|exact IH]. }
  rewrite Z. lia.
Qed.
Lemma records_bufs : forall h es, records (map (fun r => EBuf (fst (seen_at r)) (snd r)) h ++ es) = map seen_at h ++ records es.
Proof. induction h as [|[a s] h IH]; intro es; [reflexivity|]. cbn [map app records]. rewrite IH. reflexivity. Qed.
Lemma vars_bufs : forall types h g es xs, vars_of types g (map (fun r => EBuf (fst (seen_at r)) (snd r)) h ++ es) xs -> vars_of types (g ++ map seen_at h) es xs.
Proof.
  intros types. induction h as [|[a s] h IH]; intros g es xs V; cbn [map app] in V.
  - cbn [map]. rewrite app_nil_r. exact V.
  - inversion V; subst. match goal with X : vars_of _ (_ ++ _) _ _ |- _ => apply IH in X; rewrite <- app_assoc in X; exact X end.
Qed.

Lemma buffers32 : forall names types id h a env p s0, tables_ok names types -> id < 2 ^ 64 ->
  item_ok names types (mkItem (va_name a) (va_type a) POINTER 4 (va_expr a)) -> va_fmt a = POINTER -> va_size a = 4 ->
  env (va_expr a) = RPtr p s0 -> p < 2 ^ 32 ->
  Forall (fun r => fst r < 2 ^ 32 - 1 /\ snd r < 2 ^ 64) h ->
  exists w, run_stmt32 env (IVars [a]) = Ok w /\
  forall bs, bs = written (write_trace_header names types ++ write_trace_id id ++ concat (map (fun r => write_buffer_size32 gcc (fst r) (snd r)) h) ++ w ++ write_end_entry) ->
  forall ok coins pos t, (forall n, n <= lenN bs -> ok n = true) ->
  exists tr q x, read_trace ok (skip_map coins pos) 0 (open_stream bs t) = Ok tr /\ tr_points tr = [q] /\ p_vars q = [x] /\
    v_val x = VBits p /\ pointer_size (map seen_at h) p (v_bsz x) (v_has x).
Proof.
  intros names types id h [ni ti size f ex] env p s0 TO HI IO AF AS EV LP HH. cbn [va_name va_type va_fmt va_size va_expr] in *. subst f size.
  pose proof TO as (NF & TW & FIT). pose proof IO as (_ & _ & _ & _ & nm & TY). cbn [it_type it_fmt it_size] in TY.
  assert (F : Forall (fine names types env) (items (IVars [mkVA ni ti 4 POINTER ex]))).
  { constructor; [|constructor]. split; [exact IO|]. cbn [it_fmt it_size it_expr va_expr va_fmt va_size]. rewrite EV. exact LP. }
  destruct (stmt_run32 names types env (IVars [mkVA ni ti 4 POINTER ex])) as (ws & R1 & R2); [constructor; [discriminate|constructor]|exact F|].
  destruct (items_good names types env FIT _ F) as (W & S & R & A & _).
  exists (map AWrite ws). split; [exact R1|]. intros bs EB ok coins pos t OK.
  set (es := map (entry_of env) (items (IVars [mkVA ni ti 4 POINTER ex]))) in *.
  assert (BE : bs = enc_file (mkF names types [EStmt id :: map (fun r => EBuf (fst (seen_at r)) (snd r)) h ++ es])).
  { rewrite EB, !written_app, written_ws, (records_written types), R2, header_bytes by (exact NF || apply FIT). unfold enc_file, enc_points, enc_point. cbn [f_names f_types f_points map concat].
    unfold enc_entries at 3. cbn [map concat enc_entry]. rewrite map_app, concat_app. unfold enc_entries, written, write_trace_id, write_end_entry. cbn [map concat]. rewrite ?app_nil_r, <- ?app_assoc. reflexivity. }
  assert (WF : file_wf ok (mkF names types [EStmt id :: map (fun r => EBuf (fst (seen_at r)) (snd r)) h ++ es])).
  { apply file_wf_ok; [|rewrite <- BE; exact OK]. apply file_fine32; [exact TO| |].
    - constructor; [|constructor]. constructor; [exact HI|]. apply Forall_app. split; [|exact W]. apply Forall_forall. intros e I. apply in_map_iff in I. destruct I as (r & <- & I).
      rewrite Forall_forall in HH. destruct (HH _ I) as [H1 H2]. split; [|exact H2]. pose proof (uint64_lt _ H1) as X. unfold seen_at. cbn [fst]. lia.
    - apply no_sentinel. cbn [concat]. rewrite app_nil_r. cbn [records]. rewrite records_bufs, R, app_nil_r. apply Forall_forall. intros r I. apply in_map_iff in I. destruct I as (r' & <- & I).
      rewrite Forall_forall in HH. apply (uint64_lt _ (proj1 (HH _ I))). }
  destruct (complete_lemma ok coins pos t _ WF) as (tr & RD & (D1 & D2 & D3) & _). cbn [f_names f_types f_points] in *. rewrite <- BE in RD.
  inversion D3 as [|? ? ? q ? ps PO PR]; subst. inversion PR; subst. destruct PO as (_ & _ & _ & V & _). inversion V; subst.
  match goal with X : vars_of _ _ (_ ++ _) _ |- _ => apply vars_bufs in X; rename X into V1 end. unfold es in V1. cbn [items map] in V1. inversion V1; subst.
  match goal with X : vars_of _ _ [] _ |- _ => inversion X; subst end.
  match goal with X : var_of _ _ _ _ _ _ |- _ => destruct X as (_ & _ & _ & d & X4 & _ & X6 & X7 & _) end.
  cbn [it_type it_fmt it_size it_expr it_name va_name va_type va_fmt va_size va_expr] in *. rewrite TY in X4. injection X4 as <-. cbn [t_fmt] in *. rewrite EV in *. cbn [image value_of app] in *.
  assert (LV : le_val (le_bytes 4 p) = p) by (rewrite le_val_lebytes_mod; apply N.mod_small; exact LP). rewrite LV in *.
  exists tr, q, v. split; [exact RD|]. split; [symmetry; assumption|]. split; [symmetry; assumption|]. split; [exact X6|]. apply X7. reflexivity.
Qed.

Lemma seen_same : forall h, Forall (fun r => gcc = false \/ fst r < 2 ^ 31) h -> map seen_at h = h.
Proof.
  induction 1 as [|[a s] h H _ IH]; [reflexivity|]. cbn [map]. rewrite IH. f_equal. unfold seen_at, uint64_of_address. cbn [fst snd] in *. destruct H as [->|H]; [reflexivity|].
  destruct (N.leb_spec (2 ^ 31) a) as [X|_]; [lia|]. rewrite andb_false_r. reflexivity.
Qed.
End Compiler.
Lemma last_size_In : forall h k v, last_size h k = Some v -> In (k, v) h.
Proof.
  induction h as [|[a s] h IH]; intros k v E; [discriminate|]. cbn [last_size] in E. destruct (last_size h k) as [x|] eqn:L.
  - injection E as <-. right. apply IH. exact L.
  - destruct (N.eqb_spec a k) as [->|]; [|discriminate]. injection E as <-. left. reflexivity.
Qed.
Lemma none_high : forall h p b n, Forall (fun r => 2 ^ 31 <= fst r) h -> p < 2 ^ 32 -> pointer_size (map (seen_at true) h) p b n -> b = 0 /\ n = 0.
Proof.
  intros h p b n F LP PS. inversion PS as [r L A LR|X]; subst; [|split; reflexivity]. exfalso.
  assert (G : forall k v, live (map (seen_at true) h) k v -> k <= p -> False).
  { intros k v [L1 _] L2. apply last_size_In in L1. apply in_map_iff in L1. destruct L1 as ([a s] & E & I). rewrite Forall_forall in F. specialize (F _ I). unfold seen_at, uint64_of_address in E. cbn [fst snd] in *.
    destruct (N.leb_spec (2 ^ 31) a) as [_|X]; [|lia]. cbn [andb] in E. injection E as <- _. change (2 ^ 64 - 2 ^ 32) with 18446744069414584320 in L2. change (2 ^ 32) with 4294967296 in LP. lia. }
  inversion A as [k v [LV [LE _]] _|k v [LV [LE _]] _|_]; subst.
  - exact (G _ _ LV LE).
  - exact (G _ _ LV LE).
  - lia.
Qed.

(** ** Byte order *)
Lemma eight_halves : forall x, x < 2 ^ 32 -> le_bytes 8 x = le_bytes 4 x ++ le_bytes 4 0.
Proof.
  intros x H. cbn [le_bytes app]. assert (Z : x / two8 / two8 / two8 / two8 = 0).
  { rewrite !N.div_div by discriminate. apply N.div_small. exact H. }
  rewrite Z. reflexivity.
Qed.
Lemma four_back : forall x, x < 2 ^ 32 -> le_val (le_bytes 4 x) = x.
Proof. intros x H. rewrite le_val_lebytes_mod. apply N.mod_small. exact H. Qed.
Lemma count_same : forall big long x, x < 2 ^ 32 -> long = 4 \/ (long = 8 /\ big = false) -> count_read big (count_written big long x) = x.
Proof.
  intros big long x H [-> |[-> ->]]; unfold count_read, count_written, in_memory, from_memory; cbn [N.to_nat Pos.to_nat Pos.iter_op Nat.add].
  - destruct big.
    + rewrite takeN_all by (unfold lenN; rewrite rev_length, le_bytes_length; cbn; lia). rewrite rev_involutive. apply four_back. exact H.
    + rewrite takeN_all by (unfold lenN; rewrite le_bytes_length; cbn; lia). apply four_back. exact H.
  - rewrite eight_halves by exact H. rewrite takeN_app by (unfold lenN; rewrite le_bytes_length; reflexivity). apply four_back. exact H.
Qed.
Lemma count_lost : forall x, x < 2 ^ 32 -> count_read true (count_written true 8 x) = 0.
Proof.
  intros x H. unfold count_read, count_written, in_memory, from_memory. cbn [N.to_nat Pos.to_nat Pos.iter_op Nat.add]. rewrite eight_halves by exact H. rewrite rev_app_distr.
  rewrite takeN_app by (unfold lenN; rewrite rev_length, le_bytes_length; reflexivity). reflexivity.
Qed.
