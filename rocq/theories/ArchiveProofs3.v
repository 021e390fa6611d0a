(** Reading arbitrary text; text after an archive; many names. *)
From Verif Require Import BaseProofs Types FormatSpec Compare Order Dec DecProofs CApi CApiSpec Archive ArchiveSpec ArchiveProofs.

(** ** Arbitrary text *)
Definition left_ (s : lst) : nat := length (i_rest (l_in s)).

(** Loading throws, or succeeds and consumes something ([strict]) or nothing. *)
Definition steps {A} (strict : bool) (s : lst) (o : outcome (A * lst)) : Prop :=
  match o with
  | Ok (_, s') => if strict then (left_ s' < left_ s)%nat else (left_ s' <= left_ s)%nat
  | Throw _ => True
  | _ => False
  end.

Lemma skip_space_len : forall l, (length (skip_space l) <= length l)%nat.
Proof. induction l as [|b l IH]; [apply le_n|]. cbn [skip_space]. destruct (is_space b); cbn [length]; lia. Qed.
Lemma take_sign_len : forall l, (length (snd (take_sign l)) <= length l)%nat.
Proof. intros [|b l]; [apply le_n|]. cbn [take_sign]. destruct (_ =? 45); [cbn; lia|]. destruct (_ =? 43); cbn; lia. Qed.
Lemma span_len : forall l, length l = (length (fst (span_digits l)) + length (snd (span_digits l)))%nat.
Proof. induction l as [|b l IH]; [reflexivity|]. cbn [span_digits]. destruct (is_digitb b); [|reflexivity]. destruct (span_digits l) as [d r]. cbn [fst snd length] in *. lia. Qed.

Lemma get_number_len : forall s neg n s', get_number s = Some (neg, n, s') -> (length (i_rest s') < length (i_rest s))%nat.
Proof.
  intros s neg n s' H. unfold get_number in H. destruct (good s); [|discriminate].
  pose proof (skip_space_len (i_rest s)) as H1. pose proof (take_sign_len (skip_space (i_rest s))) as H2. destruct (take_sign (skip_space (i_rest s))) as [ng l]. cbn [snd] in H2.
  pose proof (span_len l) as H3. destruct (span_digits l) as [ds r]. cbn [fst snd] in H3. destruct ds as [|d ds]; [discriminate|]. inversion H; subst. cbn [i_rest length] in *. lia.
Qed.
Lemma load_N_steps : forall bits s, steps true s (load_N bits s).
Proof.
  intros bits s. unfold load_N, get_N. destruct (get_number (l_in s)) as [[[neg n] i]|] eqn:E; [|exact I]. destruct (n <? 2 ^ bits); [|exact I]. cbn. eapply get_number_len. exact E.
Qed.
Lemma load_Z_steps : forall bits s, steps true s (load_Z bits s).
Proof.
  intros bits s. unfold load_Z, get_Z. destruct (get_number (l_in s)) as [[[neg n] i]|] eqn:E; [|exact I]. cbv zeta. destruct (_ && _)%bool; [|exact I]. cbn. eapply get_number_len. exact E.
Qed.
Lemma skip_char_len : forall i, (length (i_rest (skip_char i)) <= length (i_rest i))%nat.
Proof. intro i. unfold skip_char. destruct (good i); [|apply le_n]. destruct (i_rest i); cbn; lia. Qed.
Lemma read_chars_len : forall n i, (length (i_rest (snd (read_chars n i))) <= length (i_rest i))%nat.
Proof.
  intros n i. unfold read_chars. destruct (good i); [|apply le_n]. destruct (n <=? _); cbn [snd i_rest]; [|cbn; lia].
  rewrite dropN_skipn, skipn_length. lia.
Qed.
Lemma load_string_steps : forall ok s, steps true s (load_string ok s).
Proof.
  intros ok s. unfold load_string, get_N. destruct (get_number (l_in s)) as [[[neg n] i]|] eqn:E; [|exact I]. destruct (n <? 2 ^ 64); [|exact I]. cbn [bind].
  apply get_number_len in E. pose proof (skip_char_len i) as H. unfold reserve. destruct (ok _); [|exact I]. cbn [bind].
  destruct (_ =? 0); [cbn; unfold left_; cbn; lia|]. pose proof (read_chars_len (if neg then (2 ^ 64 - n) mod 2 ^ 64 else n) (skip_char i)) as H2.
  destruct (read_chars _ (skip_char i)) as [x i2]. cbn [snd] in H2. cbn. unfold left_. cbn [l_in]. lia.
Qed.

Lemma steps_weaken : forall A s (o : outcome (A * lst)), steps true s o -> steps false s o.
Proof. intros A s [[x s']| | | |]; cbn; auto; lia. Qed.
Lemma steps_bind : forall A B (b1 b2 : bool) s (o : outcome (A * lst)) (f : A * lst -> outcome (B * lst)), steps b1 s o ->
  (forall x s', o = Ok (x, s') -> steps b2 s' (f (x, s'))) -> steps (b1 || b2) s (bind o f).
Proof.
  intros A B b1 b2 s [[x s']| | | |] f H1 H2; cbn [bind]; try exact H1. specialize (H2 x s' eq_refl). destruct (f (x, s')) as [[y s'']| | | |]; try exact H2.
  cbn in *. destruct b1, b2; cbn [orb]; lia.
Qed.
Lemma steps_class : forall B (b : bool) c s (f : lst -> outcome (B * lst)), (forall s', (left_ s' <= left_ s)%nat -> steps b s' (f s')) -> steps b s (bind (load_class c s) f).
Proof.
  intros B b c s f H. unfold load_class. destruct (seen _ c); [cbn [bind]; apply H; apply le_n|].
  pose proof (load_N_steps 1 s) as H1. destruct (load_N 1 s) as [[n s1]| | | |]; try exact H1. cbn [bind]. destruct (n =? 0); [|exact I].
  pose proof (load_N_steps 32 s1) as H2. destruct (load_N 32 s1) as [[m s2]| | | |]; try exact H2. cbn [bind]. cbn in H1, H2.
  set (s3 := mkL (l_in s2) _). assert (E : left_ s3 = left_ s2) by reflexivity. specialize (H s3 ltac:(lia)).
  destruct (f s3) as [[y s4]| | | |]; try exact H. cbn in *. destruct b; lia.
Qed.
Lemma steps_ret : forall A (x : A) s, steps false s (Ok (x, s)).
Proof. intros. cbn. apply le_n. Qed.

Section Total.
Variable ok : N -> bool.
Hypothesis Hok : forall n, ok n = true.
Variable fuel : nat.

Lemma load_list_steps : forall A (f : load A), (forall s, (left_ s < fuel)%nat -> steps true s (f s)) ->
  forall fu n s, (left_ s < fu)%nat -> (left_ s < fuel)%nat -> steps false s (load_list f fu n s).
Proof.
  intros A f Hf. induction fu as [|fu IH]; intros n s H1 H2; [lia|]. cbn [load_list]. destruct (n =? 0); [apply steps_ret|].
  pose proof (Hf s H2) as H. destruct (f s) as [[x s1]| | | |]; try exact H. cbn [bind]. cbn in H.
  specialize (IH (n - 1) s1 ltac:(lia) ltac:(lia)). destruct (load_list f fu (n - 1) s1) as [[r s2]| | | |]; try exact IH. cbn in *. lia.
Qed.

Ltac st := match goal with
  | |- steps true _ (bind (load_N _ _) _) => apply (steps_bind _ _ true false); [apply load_N_steps|]
  | |- steps false ?s (bind (load_N _ _) _) => apply steps_weaken; apply (steps_bind _ _ true false); [apply load_N_steps|]
  end; let x := fresh "x" in let s := fresh "s" in let E := fresh "E" in intros x s E.

Lemma after_N : forall bits s x s', load_N bits s = Ok (x, s') -> (left_ s' < left_ s)%nat.
Proof. intros bits s x s' E. pose proof (load_N_steps bits s) as H. rewrite E in H. exact H. Qed.

Lemma load_bufsz_steps : forall s, steps true s (load_bufsz s).
Proof. intro s. apply steps_class. intros s' _. st. st. apply steps_ret. Qed.
Lemma load_fmt_steps : forall s, steps true s (load_fmt s).
Proof. intro s. apply (steps_bind _ _ true false); [apply load_Z_steps|]. intros z s' _. apply steps_ret. Qed.
Lemma load_char_steps : forall s, steps true s (load_char s).
Proof. intro s. apply (steps_bind _ _ true false); [apply load_Z_steps|]. intros z s' _. apply steps_ret. Qed.
Lemma load_u8_steps : forall s, steps true s (load_u8 s).
Proof. intro s. apply (steps_bind _ _ true false); [apply load_N_steps|]. intros z s' _. apply steps_ret. Qed.
Lemma load_type_steps : forall s, steps true s (load_type s).
Proof.
  intro s. apply steps_class. intros s' _. st. apply steps_weaken, (steps_bind _ _ true false); [apply load_fmt_steps|]. intros f s1 _. st. apply steps_ret.
Qed.
Lemma steps_after : forall A s (o : outcome (A * lst)) x s', steps true s o -> o = Ok (x, s') -> (left_ s' < left_ s)%nat.
Proof. intros A s o x s' H ->. exact H. Qed.

Lemma load_var_steps : forall s, (left_ s < fuel)%nat -> steps true s (load_var ok fuel s).
Proof.
  intros s HL. apply steps_class. intros s0 H0. st. apply after_N in E. st. apply after_N in E0.
  apply steps_weaken, (steps_bind _ _ true false); [apply load_fmt_steps|]. intros f s3 E3. apply (steps_after _ _ _ _ _ (load_fmt_steps _)) in E3.
  st. apply after_N in E1. st. apply after_N in E2.
  apply steps_weaken, (steps_bind _ _ true false); [apply load_u8_steps|]. intros h s6 E6. apply (steps_after _ _ _ _ _ (load_u8_steps _)) in E6.
  destruct f; try (apply steps_weaken, (steps_bind _ _ true false); [apply load_N_steps|]; intros; apply steps_ret).
  rewrite Hok. cbn [orb]. apply (steps_bind _ _ false false); [|intros; apply steps_ret]. apply load_list_steps; [intros; apply load_char_steps| |]; lia.
Qed.

Lemma after_list : forall A (f : load A) n s x s', (forall s, (left_ s < fuel)%nat -> steps true s (f s)) -> (left_ s < fuel)%nat ->
  load_list f fuel n s = Ok (x, s') -> (left_ s' <= left_ s)%nat.
Proof. intros A f n s x s' Hf HL E. pose proof (load_list_steps A f Hf fuel n s HL HL) as H. rewrite E in H. exact H. Qed.

Lemma load_data_steps : forall s, (left_ s < fuel)%nat -> steps true s (load_data ok fuel s).
Proof.
  intros s HL. apply steps_class. intros s0 H0. st. apply after_N in E. st. apply after_N in E0. st. apply after_N in E1. unfold reserve. rewrite !Hok. cbn [bind].
  apply (steps_bind _ _ false false); [apply load_list_steps; [intros; apply load_bufsz_steps| |]; lia|]. intros a s4 E4. apply after_list in E4; [|intros; apply load_bufsz_steps|lia].
  apply (steps_bind _ _ false false); [apply load_list_steps; [exact load_var_steps| |]; lia|]. intros b s5 E5. apply after_list in E5; [|exact load_var_steps|lia].
  apply (steps_bind _ _ false false); [apply load_list_steps; [intros; apply load_N_steps| |]; lia|]. intros c s6 _. apply steps_ret.
Qed.

Lemma load_fly_steps : forall s, (left_ s < fuel)%nat -> steps true s (load_fly ok fuel s).
Proof.
  intros s HL. apply steps_class. intros s0 H0. st. apply after_N in E. destruct (N.ltb_spec (lenN (a_tab (l_st s1))) x); [exact I|]. destruct (N.eqb_spec x (lenN (a_tab (l_st s1)))).
  - pose proof (load_data_steps s1 ltac:(lia)) as H1. destruct (load_data ok fuel s1) as [[d s2]| | | |]; try exact H1. cbn in *. unfold left_ in *. cbn [l_in]. lia.
  - destruct (nthN (a_tab (l_st s1)) x) eqn:EN; [apply steps_ret|]. apply nthN_None in EN. lia.
Qed.

Lemma load_point_steps : forall s, (left_ s < fuel)%nat -> steps true s (load_point ok fuel s).
Proof.
  intros s HL. apply steps_class. intros s0 H0. st. apply after_N in E. st. apply after_N in E0.
  apply steps_weaken, (steps_bind _ _ true false); [apply load_fly_steps; lia|]. intros. apply steps_ret.
Qed.

Lemma load_trace_steps : forall s, (left_ s < fuel)%nat -> steps true s (load_trace ok fuel s).
Proof.
  intros s HL. apply steps_class. intros s0 H0. st. apply after_N in E. st. apply after_N in E0. st. apply after_N in E1. unfold reserve. rewrite !Hok. cbn [bind].
  apply (steps_bind _ _ false false); [apply load_list_steps; [exact load_point_steps| |]; lia|]. intros a s4 E4. apply after_list in E4; [|exact load_point_steps|lia].
  apply (steps_bind _ _ false false); [apply load_list_steps; [intros; apply load_string_steps| |]; lia|]. intros b s5 E5. apply after_list in E5; [|intros; apply load_string_steps|lia].
  apply (steps_bind _ _ false false); [apply load_list_steps; [intros; apply load_type_steps| |]; lia|]. intros c s6 _. apply steps_ret.
Qed.

Lemma load_db_steps : forall s, (left_ s < fuel)%nat -> steps true s (load_db ok fuel s).
Proof.
  intros s HL. apply steps_class. intros s0 H0. st. apply after_N in E. unfold reserve. rewrite !Hok. cbn [bind].
  apply load_list_steps; [exact load_trace_steps| |]; lia.
Qed.
End Total.

Lemma deserialize_total : forall ok ver txt, (forall n, ok n = true) ->
  deserialize_trace_db ok ver txt = Abort \/ exists d, deserialize_trace_db ok ver txt = Ok d.
Proof.
  intros ok ver txt Hok. unfold deserialize_trace_db. set (t := c_string txt). unfold load_header.
  set (s := mkL (mkI t false false) arch0).
  pose proof (load_string_steps ok s) as H1. destruct (load_string ok s) as [[x s1]| | | |]; cbn [bind]; try contradiction; [|left; reflexivity].
  destruct (bytes_eqb x signature); [|left; reflexivity].
  pose proof (load_N_steps 16 s1) as H2. destruct (load_N 16 s1) as [[v s2]| | | |]; cbn [bind]; try contradiction; [|left; reflexivity].
  destruct (ver <? v); [left; reflexivity|]. cbn [bind]. cbn in H1, H2. unfold left_ in H1. cbn in H1. fold t in H1.
  assert (HL : (left_ s2 < S (length t))%nat) by (unfold left_ in *; lia).
  pose proof (load_db_steps ok Hok (S (length t)) s2 HL) as H3. destruct (load_db ok (S (length t)) s2) as [[ts s3]| | | |]; try contradiction; [right; eauto|left; reflexivity].
Qed.

(** ** Text after an archive *)
Lemma c_string_app : forall a b, clean a -> c_string (a ++ b) = a ++ c_string b.
Proof.
  intros a b H. induction H as [|x a Hx _ IH]; [reflexivity|]. cbn [app c_string]. destruct (N.eqb_spec (N_of_byte x) 0) as [E|E]; [|rewrite IH; reflexivity].
  exfalso. apply Hx. apply N_of_byte_inj. rewrite E. reflexivity.
Qed.

Lemma trailing_ignored : forall ok ver d more, (forall n, ok n = true) -> ver < 2 ^ 16 -> storable (traces d) ->
  deserialize_trace_db ok ver (serialize_trace_db ver d ++ space :: more) = deserialize_trace_db ok ver (serialize_trace_db ver d).
Proof.
  intros ok ver d more Hok HV HS. destruct (round_trip ok ver d Hok HV HS) as [_ ->].
  destruct (storable_data _ HS) as (Dl & D1 & D2 & D3). pose proof HS as (HN & _ & HF & _).
  unfold traces in *. unfold serialize_trace_db. destruct (put_db (map fst (db_traces d)) arch0) as [out st'] eqn:E. cbn [fst].
  set (rest := space :: c_string more).
  set (fuel := S (length (header ver ++ out ++ rest))).
  destruct (db_rt ok Hok fuel Dl D1 D2 _ HN HF D3 _ _ _ E (arch0_inv Dl)) as (S1 & C1 & _ & R1).
  assert (HC : clean (header ver ++ out)) by (apply clean_app; [apply header_clean|exact C1]).
  unfold deserialize_trace_db. rewrite (c_string_app _ _ HC). change (c_string (space :: more)) with rest. rewrite <- app_assoc. cbv zeta. fold fuel.
  destruct (load_header_ok ok ver (out ++ rest) arch0 Hok HV) as (i & E1 & A1); [destruct S1 as [o ->]; reflexivity|]. rewrite E1. cbn [bind].
  destruct (R1 rest i eq_refl A1) as (i2 & E2 & _); [unfold fuel; rewrite (app_length (header ver)); lia|]. rewrite E2. reflexivity.
Qed.

(** ** 2^32 names *)
Lemma put_names : forall names st, put_all put_name names st = (concat (map put_string names), st).
Proof. induction names as [|n names IH]; intro st; [reflexivity|]. cbn [put_all map concat]. unfold put_name at 1. rewrite IH. reflexivity. Qed.

Lemma names_text : forall ver d0 d1 names, db_traces d0 = [(mkTr [] [] [], [])] -> db_traces d1 = [(mkTr names [] [], [])] -> lenN names = 2 ^ 32 ->
  serialize_trace_db ver d1 = serialize_trace_db ver d0 ++ concat (map put_string names).
Proof.
  intros ver d0 d1 names E0 E1 HL. unfold serialize_trace_db. rewrite E0, E1. cbn [map fst]. rewrite <- app_assoc. f_equal.
  unfold put_db. replace (put_class CDb arch0) with (put_N 0 ++ put_N 0, mkA [CDb] []) by reflexivity. cbn [put_all]. unfold put_trace. cbn [tr_points tr_names tr_types put_all].
  replace (put_class CTrace (mkA [CDb] [])) with (put_N 0 ++ put_N 0, mkA [CTrace; CDb] []) by reflexivity.
  rewrite put_names, HL. change (2 ^ 32 mod two32) with 0. change (lenN (@nil name) mod two32) with 0. change (lenN (@nil tdesc) mod two32) with 0. change (lenN (@nil (point N))) with 0. change (lenN [mkTr names [] []]) with 1. change (lenN [mkTr [] [] []]) with 1.
  cbn [fst]. rewrite !app_nil_r. repeat rewrite <- app_assoc. reflexivity.
Qed.

Lemma ex_len : forall n, exists l : list name, lenN l = n /\ Forall (fun x => x = []) l.
Proof.
  intro n. exists (repeat [] (N.to_nat n)). split; [unfold lenN; rewrite repeat_length; apply N2Nat.id|]. apply Forall_forall. intros x Hx. apply repeat_spec in Hx. exact Hx.
Qed.

Lemma empty_storable : forall d, db_traces d = [(mkTr [] [] [], [])] -> storable (traces d).
Proof.
  intros d E. unfold traces. rewrite E. cbn [map fst]. split; [reflexivity|]. split; [reflexivity|]. split.
  - constructor; [|constructor]. unfold trace_in_range. cbn. conj_split; try reflexivity; constructor.
  - intros t u p q [<-|[]] _ [].
Qed.

Lemma many_names : forall ok ver d names, (forall n, ok n = true) -> ver < 2 ^ 16 -> lenN names = 2 ^ 32 -> db_traces d = [(mkTr names [] [], [])] ->
  deserialize_trace_db ok ver (serialize_trace_db ver d) = Ok (mkDB [(mkTr [] [] [], [])] 1 0).
Proof.
  intros ok ver d names Hok HV HL E. set (d0 := mkDB [(mkTr [] [] [], [])] 1 0). rewrite (names_text ver d0 d names eq_refl E HL).
  destruct names as [|n names]; [discriminate|].
  assert (X : exists more, concat (map put_string (n :: names)) = space :: more) by (cbn [map concat]; unfold put_string, put_N; cbn [app]; eexists; reflexivity).
  destruct X as (more & ->). rewrite trailing_ignored; [|exact Hok|exact HV|apply empty_storable; reflexivity].
  destruct (round_trip ok ver d0 Hok HV (empty_storable d0 eq_refl)) as [_ ->]. reflexivity.
Qed.
