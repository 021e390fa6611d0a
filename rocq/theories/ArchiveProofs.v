(** Proofs about text archives. *)
From Verif Require Import BaseProofs Types FormatSpec Compare Order OrderSpec OrderProofs Dec DecProofs CApi CApiSpec PredSpec Archive ArchiveSpec.

(** ** Streams *)
Definition at_ (rest : list byte) (i : istr) : Prop :=
  i_rest i = rest /\ i_fail i = false /\ (rest <> [] -> i_eof i = false).
Definition sep (rest : list byte) : Prop := match rest with [] => True | b :: _ => b = space end.
Definition clean (l : list byte) : Prop := Forall (fun b => b <> x00) l.
Definition starts (l : list byte) : Prop := exists o, l = space :: o.

Lemma at_good : forall b l i, at_ (b :: l) i -> good i = true.
Proof. intros b l i (_ & F & E). unfold good. rewrite F, E by discriminate. reflexivity. Qed.

Lemma span_app : forall ds r, Forall is_digit ds -> sep r -> span_digits (ds ++ r) = (ds, r).
Proof.
  induction ds as [|d ds IH]; intros r HD HS; cbn [app].
  - destruct r as [|b r]; [reflexivity|]. cbn in HS. subst b. reflexivity.
  - inversion HD as [|? ? H1 H2]; subst. cbn [span_digits]. unfold is_digitb. destruct H1 as [A B].
    apply N.leb_le in A, B. rewrite A, B. cbn [andb]. rewrite IH by assumption. reflexivity.
Qed.

Lemma digit_not_space : forall b, is_digit b -> is_space b = false.
Proof. intros b [A B]. unfold is_space. destruct (N.eqb_spec (N_of_byte b) 32); [lia|]. destruct (N.leb_spec (N_of_byte b) 13); [lia|]. rewrite andb_false_r. reflexivity. Qed.

Lemma sign_of_digit : forall b r, is_digit b -> take_sign (b :: r) = (false, b :: r).
Proof. intros b r [A B]. cbn [take_sign]. destruct (N.eqb_spec (N_of_byte b) 45); [lia|]. destruct (N.eqb_spec (N_of_byte b) 43); [lia|]. reflexivity. Qed.

Lemma digits_N_show : forall n, digits_N (show_N n) = n.
Proof. exact dec_show. Qed.

Lemma show_cons : forall n, exists d ds, show_N n = d :: ds /\ is_digit d.
Proof.
  intro n. assert (H := show_digit n). destruct (show_N n) as [|d ds] eqn:E; [exfalso; exact (show_nonempty n E)|].
  exists d, ds. split; [reflexivity|]. inversion H; assumption.
Qed.

Lemma at_end : forall r, at_ r (mkI r (match r with [] => true | _ => false end) false).
Proof. intro r. split; [reflexivity|]. split; [reflexivity|]. destruct r; [contradiction|reflexivity]. Qed.

Lemma skip_space_space : forall l, skip_space (space :: l) = skip_space l.
Proof. reflexivity. Qed.

(** A printed number is read back, with or without a space in front. *)
Lemma get_number_N0 : forall n rest i pre, pre = [] \/ pre = [space] -> sep rest -> at_ (pre ++ show_N n ++ rest) i ->
  exists i', get_number i = Some (false, n, i') /\ at_ rest i'.
Proof.
  intros n rest i pre HP HS HA. destruct (show_cons n) as (d & ds & E & HD).
  assert (HG : good i = true).
  { destruct HP as [-> | ->]; cbn [app] in HA; [rewrite E in HA|]; eapply at_good; exact HA. }
  destruct HA as (R & F & _). unfold get_number. rewrite HG, R.
  assert (HK : skip_space (pre ++ show_N n ++ rest) = show_N n ++ rest).
  { assert (HK0 : skip_space (show_N n ++ rest) = show_N n ++ rest) by (rewrite E; cbn [app skip_space]; rewrite digit_not_space by assumption; reflexivity).
    destruct HP as [-> | ->]; cbn [app]; [exact HK0|rewrite skip_space_space; exact HK0]. }
  rewrite HK. assert (HT : take_sign (show_N n ++ rest) = (false, show_N n ++ rest)) by (rewrite E; cbn [app]; apply sign_of_digit; assumption).
  rewrite HT, (span_app _ _ (show_digit n) HS). rewrite digits_N_show. rewrite E. eexists. split; [reflexivity|]. apply at_end.
Qed.
Lemma get_number_N : forall n rest i, sep rest -> at_ (put_N n ++ rest) i -> exists i', get_number i = Some (false, n, i') /\ at_ rest i'.
Proof. intros n rest i. apply (get_number_N0 n rest i [space]). right. reflexivity. Qed.

Lemma get_number_Z : forall z rest i, sep rest -> at_ (put_Z z ++ rest) i ->
  exists neg n i', get_number i = Some (neg, n, i') /\ at_ rest i' /\ (if neg then (- Z.of_N n)%Z else Z.of_N n) = z.
Proof.
  intros z rest i HS HA. unfold put_Z, show_Z in HA. destruct (Z.ltb_spec z 0) as [HZ|HZ].
  - pose proof (at_good _ _ _ HA) as HG. destruct HA as (R & F & _). unfold get_number. rewrite HG, R. cbn [app]. rewrite skip_space_space.
    change (skip_space (byte_of_N 45 :: show_N (Z.to_N (- z)) ++ rest)) with (byte_of_N 45 :: show_N (Z.to_N (- z)) ++ rest).
    change (take_sign (byte_of_N 45 :: show_N (Z.to_N (- z)) ++ rest)) with (true, show_N (Z.to_N (- z)) ++ rest).
    cbv beta iota. rewrite (span_app _ _ (show_digit _) HS), digits_N_show. destruct (show_cons (Z.to_N (- z))) as (d & ds & E & _). rewrite E.
    eexists _, _, _. split; [reflexivity|]. split; [apply at_end|]. lia.
  - destruct (get_number_N (Z.to_N z) rest i HS HA) as (i' & E & A). exists false, (Z.to_N z), i'. split; [exact E|]. split; [exact A|]. lia.
Qed.

Lemma get_N_ok : forall bits n rest i, sep rest -> n < 2 ^ bits -> at_ (put_N n ++ rest) i -> exists i', get_N bits i = Ok (n, i') /\ at_ rest i'.
Proof.
  intros bits n rest i HS HN HA. destruct (get_number_N n rest i HS HA) as (i' & E & A). exists i'. split; [|exact A].
  unfold get_N. rewrite E. apply N.ltb_lt in HN. rewrite HN. reflexivity.
Qed.

Lemma get_Z_ok : forall bits z rest i, sep rest -> (- 2 ^ (Z.of_N bits - 1) <= z < 2 ^ (Z.of_N bits - 1))%Z -> at_ (put_Z z ++ rest) i ->
  exists i', get_Z bits i = Ok (z, i') /\ at_ rest i'.
Proof.
  intros bits z rest i HS [H1 H2] HA. destruct (get_number_Z z rest i HS HA) as (neg & n & i' & E & A & EZ). exists i'. split; [|exact A].
  unfold get_Z. rewrite E. cbv zeta. rewrite EZ. apply Z.leb_le in H1. apply Z.ltb_lt in H2. rewrite H1, H2. reflexivity.
Qed.

Lemma skip_char_ok : forall b l i, at_ (b :: l) i -> at_ l (skip_char i).
Proof. intros b l i H. pose proof (at_good _ _ _ H) as HG. destruct H as (R & _). unfold skip_char. rewrite HG, R. split; [reflexivity|]. split; reflexivity. Qed.

Lemma read_chars_ok : forall s rest i, s <> [] -> at_ (s ++ rest) i -> exists i', read_chars (lenN s) i = (s, i') /\ at_ rest i'.
Proof.
  intros s rest i HN HA. assert (HG : good i = true) by (destruct s; [contradiction|eapply at_good; exact HA]).
  destruct HA as (R & _). unfold read_chars. rewrite HG, R. destruct (N.leb_spec (lenN s) (lenN (s ++ rest))) as [_|H]; [|rewrite lenN_app in H; lia].
  rewrite takeN_app, dropN_app by reflexivity. eexists. split; [reflexivity|]. split; [reflexivity|]. split; reflexivity.
Qed.

(** ** Separators and NULs *)
Lemma sep_app : forall a b, starts a \/ a = [] -> sep b -> sep (a ++ b).
Proof. intros a b [[o ->]| ->] H; [reflexivity|exact H]. Qed.
Lemma starts_app : forall a b, starts a -> starts (a ++ b).
Proof. intros a b [o ->]. exists (o ++ b). reflexivity. Qed.
Lemma starts_N : forall n, starts (put_N n).
Proof. intro n. eexists. reflexivity. Qed.
Lemma starts_Z : forall n, starts (put_Z n).
Proof. intro n. eexists. reflexivity. Qed.
Lemma clean_app : forall a b, clean a -> clean b -> clean (a ++ b).
Proof. intros a b H1 H2. apply Forall_app. split; assumption. Qed.
Lemma space_clean : space <> x00.
Proof. discriminate. Qed.
Lemma show_clean : forall n, clean (show_N n).
Proof. intro n. eapply Forall_impl; [|apply show_digit]. intros b [H _] ->. vm_compute in H. apply H. reflexivity. Qed.
Lemma clean_N : forall n, clean (put_N n).
Proof. intro n. constructor; [exact space_clean|apply show_clean]. Qed.
Lemma clean_Z : forall z, clean (put_Z z).
Proof. intro z. constructor; [exact space_clean|]. unfold show_Z. destruct (z <? 0)%Z; [constructor; [discriminate|]|]; apply show_clean. Qed.

Lemma NoDup_snoc : forall A (l : list A) x, NoDup l -> ~ In x l -> NoDup (l ++ [x]).
Proof.
  intros A l x HN HI. induction HN as [|y l Hy _ IH]; cbn [app]; [constructor; [exact HI|constructor]|].
  constructor; [|apply IH; intro X; apply HI; right; exact X]. intro X. apply in_app_or in X. destruct X as [X|[X|[]]]; [exact (Hy X)|]. apply HI. left. symmetry. exact X.
Qed.

(** ** Round trip *)
Section RoundTrip.
Variable ok : N -> bool.
Hypothesis Hok : forall n, ok n = true.
Variable fuel : nat.
(** The point data that occur. *)
Variable Dl : list pdata.
Hypothesis HDl : lenN Dl < 2 ^ 64.
Hypothesis Hcan : forall a b, In a Dl -> In b Dl -> data_eqb a b = true -> a = b.

Definition inv (st : arch) : Prop := NoDup (a_tab st) /\ incl (a_tab st) Dl.

Definition reads {A} (ld : load A) (x : A) (out : list byte) (st st' : arch) : Prop :=
  forall rest i, sep rest -> at_ (out ++ rest) i -> (length (out ++ rest) < fuel)%nat ->
    exists i', ld (mkL i st) = Ok (x, mkL i' st') /\ at_ rest i'.

Definition rt {A} (put : A -> arch -> list byte * arch) (ld : load A) (x : A) : Prop :=
  forall st out st', put x st = (out, st') -> inv st ->
    starts out /\ clean out /\ inv st' /\ reads ld x out st st'.

Lemma load_N_ok : forall bits n st rest i, sep rest -> n < 2 ^ bits -> at_ (put_N n ++ rest) i ->
  exists i', load_N bits (mkL i st) = Ok (n, mkL i' st) /\ at_ rest i'.
Proof. intros bits n st rest i HS HN HA. destruct (get_N_ok bits n rest i HS HN HA) as (i' & E & A). exists i'. unfold load_N. cbn [l_in l_st]. rewrite E. split; [reflexivity|exact A]. Qed.
Lemma load_Z_ok : forall bits n st rest i, sep rest -> (- 2 ^ (Z.of_N bits - 1) <= n < 2 ^ (Z.of_N bits - 1))%Z -> at_ (put_Z n ++ rest) i ->
  exists i', load_Z bits (mkL i st) = Ok (n, mkL i' st) /\ at_ rest i'.
Proof. intros bits n st rest i HS HN HA. destruct (get_Z_ok bits n rest i HS HN HA) as (i' & E & A). exists i'. unfold load_Z. cbn [l_in l_st]. rewrite E. split; [reflexivity|exact A]. Qed.

Lemma put_N_Z : forall n, put_N n = put_Z (Z.of_N n).
Proof. intro n. unfold put_N, put_Z, show_Z. destruct (Z.ltb_spec (Z.of_N n) 0); [lia|]. rewrite N2Z.id. reflexivity. Qed.

Lemma load_fmt_ok : forall f st rest i, sep rest -> at_ (put_N (fmt_code f) ++ rest) i ->
  exists i', load_fmt (mkL i st) = Ok (f, mkL i' st) /\ at_ rest i'.
Proof.
  intros f st rest i HS HA. rewrite put_N_Z in HA. destruct (load_Z_ok 32 (Z.of_N (fmt_code f)) st rest i HS) as (i' & E & A); [destruct f; cbn; lia|exact HA|].
  exists i'. unfold load_fmt. rewrite E. cbn [bind]. split; [|exact A]. destruct f; reflexivity.
Qed.
Lemma load_u8_ok : forall n st rest i, sep rest -> n < 2 ^ 8 -> at_ (put_N n ++ rest) i ->
  exists i', load_u8 (mkL i st) = Ok (n, mkL i' st) /\ at_ rest i'.
Proof.
  intros n st rest i HS HN HA. destruct (load_N_ok 16 n st rest i HS) as (i' & E & A); [change (2 ^ 8) with 256 in HN; change (2 ^ 16) with 65536; lia|exact HA|].
  exists i'. unfold load_u8. rewrite E. cbn [bind]. split; [|exact A]. rewrite N.mod_small by assumption. reflexivity.
Qed.
Lemma schar_range : forall b, (-128 <= schar b < 128)%Z.
Proof. intro b. pose proof (N_of_byte_lt b) as H. unfold two8 in H. unfold schar. destruct (N.ltb_spec (N_of_byte b) 128); lia. Qed.
Lemma schar_back : forall b, byte_of_N (Z.to_N (schar b mod 256)) = b.
Proof.
  intro b. pose proof (N_of_byte_lt b) as H. unfold two8 in H. apply N_of_byte_inj. rewrite N_of_byte_of_N. unfold schar.
  assert (E : ((if (N_of_byte b <? 128)%N then Z.of_N (N_of_byte b) else Z.of_N (N_of_byte b) - 256) mod 256 = Z.of_N (N_of_byte b))%Z).
  { destruct (N.ltb_spec (N_of_byte b) 128); [apply Z.mod_small; lia|]. symmetry. apply (Z.mod_unique _ _ (-1)); [left|]; lia. }
  rewrite E, N2Z.id. unfold two8. apply N.mod_small. lia.
Qed.
Lemma load_char_ok : forall b st rest i, sep rest -> at_ (put_char b ++ rest) i ->
  exists i', load_char (mkL i st) = Ok (b, mkL i' st) /\ at_ rest i'.
Proof.
  intros b st rest i HS HA. pose proof (schar_range b) as HR. destruct (load_Z_ok 16 (schar b) st rest i HS) as (i' & E & A); [cbn; lia|exact HA|].
  exists i'. unfold load_char. rewrite E. cbn [bind]. rewrite schar_back. split; [reflexivity|exact A].
Qed.

Lemma load_string_ok : forall s st rest i, sep rest -> lenN s < 2 ^ 64 -> at_ (put_string s ++ rest) i ->
  exists i', load_string ok (mkL i st) = Ok (s, mkL i' st) /\ at_ rest i'.
Proof.
  intros s st rest i HS HN HA. unfold put_string in HA. rewrite <- app_assoc in HA. cbn [app] in HA.
  destruct (get_N_ok 64 (lenN s) (space :: s ++ rest) i) as (i1 & E & A); [reflexivity|exact HN|exact HA|].
  unfold load_string. cbn [l_in l_st]. rewrite E. cbn [bind]. apply skip_char_ok in A. unfold reserve. rewrite Hok. cbn [bind].
  destruct (N.eqb_spec (lenN s) 0) as [Z|Z].
  - destruct s; [|rewrite lenN_cons in Z; lia]. eexists. split; [reflexivity|exact A].
  - destruct (read_chars_ok s rest _ ltac:(intros ->; apply Z; reflexivity) A) as (i2 & E2 & A2). rewrite E2. exists i2. split; [reflexivity|exact A2].
Qed.

Lemma put_class_ok : forall c st out st', put_class c st = (out, st') -> inv st ->
  (starts out \/ out = []) /\ clean out /\ inv st' /\ a_tab st' = a_tab st /\
  forall rest i, sep rest -> at_ (out ++ rest) i -> exists i', load_class c (mkL i st) = Ok (mkL i' st') /\ at_ rest i'.
Proof.
  intros c st out st' E HI. unfold put_class in E. unfold load_class. cbn [l_st]. destruct (seen (a_seen st) c).
  - inversion E; subst. split; [right; reflexivity|]. split; [constructor|]. split; [exact HI|]. split; [reflexivity|]. intros rest i _ HA. exists i. split; [reflexivity|exact HA].
  - apply pair_equal_spec in E; destruct E as [<- <-]. split; [left; apply starts_app, starts_N|]. split; [apply clean_app; apply clean_N|]. split; [exact HI|]. split; [reflexivity|].
    intros rest i HS HA. rewrite <- app_assoc in HA.
    destruct (load_N_ok 1 0 st (put_N 0 ++ rest) i) as (i1 & E1 & A1); [apply sep_app; [left; apply starts_N|exact HS]|reflexivity|exact HA|].
    rewrite E1. cbn [bind]. cbn [N.eqb].
    destruct (load_N_ok 32 0 st rest i1 HS) as (i2 & E2 & A2); [reflexivity|exact A1|]. rewrite E2. cbn [bind]. cbn [l_in l_st]. exists i2. split; [reflexivity|exact A2].
Qed.

(** Sequences of elements. *)
Lemma put_all_ok : forall A (put : A -> arch -> list byte * arch) (ld : load A) l, Forall (rt put ld) l ->
  forall st out st', put_all put l st = (out, st') -> inv st ->
  (starts out \/ out = []) /\ clean out /\ inv st' /\ (length l <= length out)%nat /\
  forall rest i fu, sep rest -> at_ (out ++ rest) i -> (length (out ++ rest) < fuel)%nat -> (length l <= fu)%nat ->
    exists i', load_list ld fu (lenN l) (mkL i st) = Ok (l, mkL i' st') /\ at_ rest i'.
Proof.
  intros A put ld l HF. induction HF as [|x l HX _ IH]; intros st out st' E HI; cbn [put_all] in E.
  - inversion E; subst. split; [right; reflexivity|]. split; [constructor|]. split; [exact HI|]. split; [apply le_n|].
    intros rest i fu _ HA _ _. exists i. split; [destruct fu; reflexivity|exact HA].
  - destruct (put x st) as [o1 st1] eqn:E1. destruct (put_all put l st1) as [o2 st2] eqn:E2. inversion E; subst out st'.
    destruct (HX _ _ _ E1 HI) as (S1 & C1 & I1 & R1). destruct (IH _ _ _ E2 I1) as (S2 & C2 & I2 & L2 & R2).
    split; [left; apply starts_app; exact S1|]. split; [apply clean_app; assumption|]. split; [exact I2|].
    assert (L1 : (1 <= length o1)%nat) by (destruct S1 as [o ->]; cbn; lia).
    split; [rewrite app_length; cbn [length]; lia|]. intros rest i fu HS HA HL Hfu. rewrite <- app_assoc in HA, HL.
    destruct (R1 (o2 ++ rest) i) as (i1 & F1 & A1); [apply sep_app; assumption|exact HA|exact HL|].
    destruct fu as [|fu]; [cbn in Hfu; lia|]. cbn [length] in Hfu.
    destruct (R2 rest i1 fu HS A1) as (i2 & F2 & A2); [rewrite app_length in HL; lia|lia|].
    exists i2. split; [|exact A2]. rewrite lenN_cons. cbn [load_list]. destruct (N.eqb_spec (N.succ (lenN l)) 0); [lia|].
    rewrite F1. cbn [bind]. replace (N.succ (lenN l) - 1) with (lenN l) by lia. rewrite F2. reflexivity.
Qed.

(** Elements that need no state. *)
Lemma put_map_ok : forall A (put : A -> list byte) (ld : load A) l st,
  (forall x, In x l -> starts (put x) /\ clean (put x) /\ forall rest i, sep rest -> at_ (put x ++ rest) i -> exists i', ld (mkL i st) = Ok (x, mkL i' st) /\ at_ rest i') ->
  (starts (concat (map put l)) \/ concat (map put l) = []) /\ clean (concat (map put l)) /\ (length l <= length (concat (map put l)))%nat /\
  forall rest i fu, sep rest -> at_ (concat (map put l) ++ rest) i -> (length l <= fu)%nat ->
    exists i', load_list ld fu (lenN l) (mkL i st) = Ok (l, mkL i' st) /\ at_ rest i'.
Proof.
  intros A put ld l st. induction l as [|x l IH]; intro H; cbn [map concat].
  - split; [right; reflexivity|]. split; [constructor|]. split; [apply le_n|]. intros rest i fu _ HA _. exists i. split; [destruct fu; reflexivity|exact HA].
  - destruct (H x (or_introl eq_refl)) as (S1 & C1 & R1). destruct IH as (S2 & C2 & L2 & R2); [intros y Hy; apply H; right; exact Hy|].
    split; [left; apply starts_app; exact S1|]. split; [apply clean_app; assumption|].
    assert (L1 : (1 <= length (put x))%nat) by (destruct S1 as [o ->]; cbn; lia).
    split; [rewrite app_length; cbn [length]; lia|]. intros rest i fu HS HA Hfu. rewrite <- app_assoc in HA.
    destruct (R1 (concat (map put l) ++ rest) i) as (i1 & F1 & A1); [apply sep_app; assumption|exact HA|].
    destruct fu as [|fu]; [cbn in Hfu; lia|]. cbn [length] in Hfu.
    destruct (R2 rest i1 fu HS A1) as (i2 & F2 & A2); [lia|].
    exists i2. split; [|exact A2]. rewrite lenN_cons. cbn [load_list]. destruct (N.eqb_spec (N.succ (lenN l)) 0); [lia|].
    rewrite F1. cbn [bind]. replace (N.succ (lenN l) - 1) with (lenN l) by lia. rewrite F2. reflexivity.
Qed.

Ltac sp := repeat rewrite <- app_assoc; repeat (apply sep_app; [first [assumption|left; first [apply starts_N|apply starts_Z|assumption]]|]); assumption.
(** One number of the input. *)
Ltac num L HA := let i := fresh "i" in let E := fresh "E" in let A := fresh "A" in
  edestruct L as (i & E & A); [| |exact HA|rewrite E; cbn [bind]; clear HA; rename A into HA]; [sp|try assumption|].
Ltac num0 L HA := let i := fresh "i" in let E := fresh "E" in let A := fresh "A" in
  edestruct L as (i & E & A); [|exact HA|rewrite E; cbn [bind]; clear HA; rename A into HA]; [sp|].

Lemma bufsz_rt : forall b, bufsz_in_range b -> rt put_bufsz load_bufsz b.
Proof.
  intros b [H1 H2] st out st' E HI. unfold put_bufsz in E. destruct (put_class CBuf st) as [o st1] eqn:EC. apply pair_equal_spec in E; destruct E as [<- <-].
  destruct (put_class_ok _ _ _ _ EC HI) as (S0 & C0 & I1 & T1 & R).
  split. { destruct S0 as [S0| ->]; [apply starts_app; exact S0|]. cbn [app]. apply starts_app, starts_N. }
  split; [repeat apply clean_app; first [assumption|apply clean_N]|]. split; [exact I1|].
  intros rest i HS HA _. repeat rewrite <- app_assoc in HA. unfold load_bufsz.
  num0 (R (put_N (b_addr b) ++ put_N (b_size b) ++ rest) i) HA.
  num (load_N_ok 64 (b_addr b) st1 (put_N (b_size b) ++ rest)) HA.
  num (load_N_ok 64 (b_size b) st1 rest) HA.
  eexists. split; [destruct b; reflexivity|exact HA].
Qed.

Lemma type_rt : forall t, type_in_range t -> rt put_type load_type t.
Proof.
  intros t [H1 H2] st out st' E HI. unfold put_type in E. destruct (put_class CType st) as [o st1] eqn:EC. apply pair_equal_spec in E; destruct E as [<- <-].
  destruct (put_class_ok _ _ _ _ EC HI) as (S0 & C0 & I1 & T1 & R).
  split. { destruct S0 as [S0| ->]; [apply starts_app; exact S0|]. cbn [app]. apply starts_app, starts_N. }
  split; [repeat apply clean_app; first [assumption|apply clean_N]|]. split; [exact I1|].
  intros rest i HS HA _. repeat rewrite <- app_assoc in HA. unfold load_type.
  num0 (R (put_N (t_name t) ++ put_N (fmt_code (t_fmt t)) ++ put_N (t_size t) ++ rest) i) HA.
  num (load_N_ok 32 (t_name t) st1 (put_N (fmt_code (t_fmt t)) ++ put_N (t_size t) ++ rest)) HA.
  num0 (load_fmt_ok (t_fmt t) st1 (put_N (t_size t) ++ rest)) HA.
  num (load_N_ok 32 (t_size t) st1 rest) HA.
  eexists. split; [destruct t; reflexivity|exact HA].
Qed.

Lemma var_rt : forall v, var_in_range v -> rt put_var (load_var ok fuel) v.
Proof.
  intros v (H1 & H2 & H3 & H4 & H5 & H6) st out st' E HI. unfold put_var in E. destruct (put_class CVar st) as [o st1] eqn:EC. apply pair_equal_spec in E; destruct E as [<- <-].
  destruct (put_class_ok _ _ _ _ EC HI) as (S0 & C0 & I1 & T1 & R).
  assert (HV : (starts (put_value v) \/ put_value v = []) /\ clean (put_value v) /\
    (forall bs, v_val v = VBlob bs -> (length bs <= length (put_value v))%nat /\
       forall rest i fu, sep rest -> at_ (put_value v ++ rest) i -> (length bs <= fu)%nat ->
         exists i', load_list load_char fu (lenN bs) (mkL i st1) = Ok (bs, mkL i' st1) /\ at_ rest i')).
  { unfold put_value. destruct (v_val v) as [u|bs|].
    - split; [left; apply starts_N|]. split; [apply clean_N|discriminate].
    - destruct (put_map_ok _ put_char load_char bs st1) as (A1 & A2 & A3 & A4).
      { intros x _. split; [apply starts_Z|]. split; [apply clean_Z|]. intros. apply load_char_ok; assumption. }
      split; [exact A1|]. split; [exact A2|]. intros bs' X. inversion X; subst bs'. split; assumption.
    - contradiction. }
  destruct HV as (VS & VC & VR).
  split. { destruct S0 as [S0| ->]; [apply starts_app; exact S0|]. cbn [app]. apply starts_app, starts_N. }
  split; [repeat apply clean_app; first [assumption|apply clean_N]|]. split; [exact I1|].
  intros rest i HS HA HL. repeat rewrite <- app_assoc in HA. unfold load_var.
  num0 (R (put_N (v_name v) ++ put_N (v_type v) ++ put_N (fmt_code (v_fmt v)) ++ put_N (v_size v) ++ put_N (v_bsz v) ++ put_N (v_has v) ++ put_value v ++ rest) i) HA.
  num (load_N_ok 32 (v_name v) st1 (put_N (v_type v) ++ put_N (fmt_code (v_fmt v)) ++ put_N (v_size v) ++ put_N (v_bsz v) ++ put_N (v_has v) ++ put_value v ++ rest)) HA.
  num (load_N_ok 32 (v_type v) st1 (put_N (fmt_code (v_fmt v)) ++ put_N (v_size v) ++ put_N (v_bsz v) ++ put_N (v_has v) ++ put_value v ++ rest)) HA.
  num0 (load_fmt_ok (v_fmt v) st1 (put_N (v_size v) ++ put_N (v_bsz v) ++ put_N (v_has v) ++ put_value v ++ rest)) HA.
  num (load_N_ok 32 (v_size v) st1 (put_N (v_bsz v) ++ put_N (v_has v) ++ put_value v ++ rest)) HA.
  num (load_N_ok 64 (v_bsz v) st1 (put_N (v_has v) ++ put_value v ++ rest)) HA.
  num (load_u8_ok (v_has v) st1 (put_value v ++ rest)) HA.
  destruct v as [val nm ty f sz bz hs]. cbn [v_val v_name v_type v_fmt v_size v_bsz v_has] in *. destruct val as [u|bs|]; [| |contradiction].
  - destruct H6 as [HF HU]. unfold put_value in HA. cbn [v_val] in HA. 
    destruct (load_N_ok 64 u st1 rest _ HS HU HA) as (j & EJ & AJ). exists j. split; [|exact AJ].
    destruct f; try (exfalso; apply HF; reflexivity); rewrite EJ; reflexivity.
  - destruct H6 as [-> HB]. rewrite Hok. cbn [orb]. destruct (VR bs eq_refl) as (LB & RB). rewrite <- HB.
    destruct (RB rest _ fuel HS HA) as (j & EJ & AJ); [repeat rewrite app_length in HL; lia|]. rewrite EJ. cbn [bind]. exists j. split; [reflexivity|exact AJ].
Qed.

Definition data_in_range (d : pdata) : Prop :=
  p_counter d = 0 /\ lenN (p_sizes d) < 2 ^ 64 /\ lenN (p_vars d) < 2 ^ 64 /\ lenN (p_aux d) < 2 ^ 64 /\
  Forall bufsz_in_range (p_sizes d) /\ Forall var_in_range (p_vars d) /\ Forall (fun u => u < 2 ^ 64) (p_aux d).

Lemma put_all_tab : forall A (put : A -> arch -> list byte * arch), (forall x st out st', put x st = (out, st') -> a_tab st' = a_tab st) ->
  forall l st out st', put_all put l st = (out, st') -> a_tab st' = a_tab st.
Proof.
  intros A put H. induction l as [|x l IH]; intros st out st' E; cbn [put_all] in E; [inversion E; reflexivity|].
  destruct (put x st) as [o1 st1] eqn:E1. destruct (put_all put l st1) as [o2 st2] eqn:E2. inversion E; subst. rewrite (IH _ _ _ E2). eapply H. exact E1.
Qed.
Lemma put_class_tab : forall c st out st', put_class c st = (out, st') -> a_tab st' = a_tab st.
Proof. intros c st out st' E. unfold put_class in E. destruct (seen _ _); inversion E; reflexivity. Qed.
Lemma put_bufsz_tab : forall x st out st', put_bufsz x st = (out, st') -> a_tab st' = a_tab st.
Proof. intros x st out st' E. unfold put_bufsz in E. destruct (put_class CBuf st) as [o st1] eqn:EC. inversion E; subst. eapply put_class_tab; exact EC. Qed.
Lemma put_var_tab : forall x st out st', put_var x st = (out, st') -> a_tab st' = a_tab st.
Proof. intros x st out st' E. unfold put_var in E. destruct (put_class CVar st) as [o st1] eqn:EC. inversion E; subst. eapply put_class_tab; exact EC. Qed.
Lemma put_data_tab : forall x st out st', put_data x st = (out, st') -> a_tab st' = a_tab st.
Proof.
  intros x st out st' E. unfold put_data in E. destruct (put_class CData st) as [o st1] eqn:EC.
  destruct (put_all put_bufsz (p_sizes x) st1) as [o1 st2] eqn:E1. destruct (put_all put_var (p_vars x) st2) as [o2 st3] eqn:E2. inversion E; subst.
  rewrite (put_all_tab _ _ put_var_tab _ _ _ _ E2), (put_all_tab _ _ put_bufsz_tab _ _ _ _ E1). eapply put_class_tab; exact EC.
Qed.

Lemma data_rt : forall d, data_in_range d -> rt put_data (load_data ok fuel) d.
Proof.
  intros d (H0 & H1 & H2 & H3 & H4 & H5 & H6) st out st' E HI. unfold put_data in E. destruct (put_class CData st) as [o st1] eqn:EC.
  destruct (put_all put_bufsz (p_sizes d) st1) as [o1 st2] eqn:E1. destruct (put_all put_var (p_vars d) st2) as [o2 st3] eqn:E2. apply pair_equal_spec in E; destruct E as [<- <-].
  destruct (put_class_ok _ _ _ _ EC HI) as (S0 & C0 & I1 & _ & R).
  destruct (put_all_ok _ put_bufsz load_bufsz (p_sizes d)) with (2 := E1) (3 := I1) as (S1 & C1 & I2 & L1 & R1).
  { eapply Forall_impl; [|exact H4]. apply bufsz_rt. }
  destruct (put_all_ok _ put_var (load_var ok fuel) (p_vars d)) with (2 := E2) (3 := I2) as (S2 & C2 & I3 & L2 & R2).
  { eapply Forall_impl; [|exact H5]. apply var_rt. }
  destruct (put_map_ok _ put_N (load_N 64) (p_aux d) st3) as (S3 & C3 & L3 & R3).
  { intros x Hx. split; [apply starts_N|]. split; [apply clean_N|]. intros. rewrite Forall_forall in H6. apply load_N_ok; [assumption|apply H6; exact Hx|assumption]. }
  split. { destruct S0 as [S0| ->]; [apply starts_app; exact S0|]. cbn [app]. apply starts_app, starts_N. }
  split; [repeat apply clean_app; first [assumption|apply clean_N]|]. split; [exact I3|].
  intros rest i HS HA HL. repeat rewrite <- app_assoc in HA. repeat rewrite app_length in HL. unfold load_data.
  set (o3 := concat (map put_N (p_aux d))) in *.
  num0 (R (put_N (lenN (p_sizes d)) ++ put_N (lenN (p_vars d)) ++ put_N (lenN (p_aux d)) ++ o1 ++ o2 ++ o3 ++ rest) i) HA.
  num (load_N_ok 64 (lenN (p_sizes d)) st1 (put_N (lenN (p_vars d)) ++ put_N (lenN (p_aux d)) ++ o1 ++ o2 ++ o3 ++ rest)) HA.
  num (load_N_ok 64 (lenN (p_vars d)) st1 (put_N (lenN (p_aux d)) ++ o1 ++ o2 ++ o3 ++ rest)) HA.
  num (load_N_ok 64 (lenN (p_aux d)) st1 (o1 ++ o2 ++ o3 ++ rest)) HA.
  unfold reserve. rewrite !Hok. cbn [bind].
  destruct (R1 (o2 ++ o3 ++ rest) _ fuel ltac:(sp) HA) as (j1 & F1 & A1); [rewrite !app_length; lia|lia|]. rewrite F1. cbn [bind].
  destruct (R2 (o3 ++ rest) _ fuel ltac:(sp) A1) as (j2 & F2 & A2); [rewrite !app_length; lia|lia|]. rewrite F2. cbn [bind].
  destruct (R3 rest _ fuel ltac:(sp) A2) as (j3 & F3 & A3); [lia|]. rewrite F3. cbn [bind].
  exists j3. split; [|exact A3]. destruct d as [c [] sz vs ax]. cbn in H0. subst c. reflexivity.
Qed.

Lemma position_le : forall tab d, position tab d <= lenN tab.
Proof. induction tab as [|e tab IH]; intro d; cbn [position]; [apply N.le_refl|]. rewrite lenN_cons. destruct (data_eqb e d); [lia|]. specialize (IH d). lia. Qed.
Lemma position_found : forall tab d, position tab d <> lenN tab -> exists e, nthN tab (position tab d) = Some e /\ In e tab /\ data_eqb e d = true.
Proof.
  induction tab as [|e tab IH]; intros d H; cbn [position] in *; [exfalso; apply H; reflexivity|]. rewrite lenN_cons in H. destruct (data_eqb e d) eqn:E.
  - exists e. split; [reflexivity|]. split; [left; reflexivity|exact E].
  - destruct (IH d) as (x & A & B & C); [lia|]. exists x. split; [|split; [right; exact B|exact C]]. cbn [nthN]. destruct (N.eqb_spec (1 + position tab d) 0); [lia|].
    replace (N.pred (1 + position tab d)) with (position tab d) by lia. exact A.
Qed.
Lemma position_new : forall tab d, data_eqb d d = true -> position tab d = lenN tab -> ~ In d tab.
Proof.
  induction tab as [|e tab IH]; intros d HR H; [intros []|]. cbn [position] in H. rewrite lenN_cons in H. destruct (data_eqb e d) eqn:E; [lia|].
  intros [-> |X]; [congruence|]. apply (IH d HR); [lia|exact X].
Qed.

Lemma data_eqb_refl : forall d : pdata, Forall var_in_range (p_vars d) -> data_eqb d d = true.
Proof.
  intros d H. destruct (data_equiv unit) as (R & _). apply R. eapply Forall_impl; [|exact H]. intros v (_ & _ & _ & _ & _ & HV). unfold has_value.
  destruct (v_val v) as [u|bs|]; [|destruct HV as [-> _]; eauto|contradiction]. destruct HV as [HF _]. destruct (v_fmt v); eauto; exfalso; apply HF; reflexivity.
Qed.

Lemma fly_rt : forall d, data_in_range d -> In d Dl -> rt put_fly (load_fly ok fuel) d.
Proof.
  intros d HD HIn st out st' E HI. unfold put_fly in E. destruct (put_class CFly st) as [o st1] eqn:EC.
  destruct (put_class_ok _ _ _ _ EC HI) as (S0 & C0 & I1 & _ & R).
  assert (HT : lenN (a_tab st1) <= lenN Dl). { destruct I1 as [X Y]. unfold lenN. apply NoDup_incl_length in Y; [lia|exact X]. }
  pose proof (position_le (a_tab st1) d) as HP.
  assert (HS0 : forall x, starts (o ++ put_N (position (a_tab st1) d) ++ x)).
  { intro x. destruct S0 as [S0| ->]; [apply starts_app; exact S0|]. cbn [app]. apply starts_app, starts_N. }
  destruct (N.eqb_spec (position (a_tab st1) d) (lenN (a_tab st1))) as [EP|EP].
  - destruct (put_data d st1) as [o1 st2] eqn:E1. apply pair_equal_spec in E; destruct E as [<- <-].
    pose proof (put_data_tab _ _ _ _ E1) as HT2. destruct (data_rt d HD _ _ _ E1 I1) as (S1 & C1 & I2 & R1).
    split; [apply HS0|]. split; [repeat apply clean_app; first [assumption|apply clean_N]|]. split.
    { split; cbn [a_tab]; rewrite HT2.
      - destruct I1 as [X _]. apply NoDup_snoc; [exact X|]. apply position_new; [apply data_eqb_refl, HD|exact EP].
      - intros e He. apply in_app_or in He. destruct He as [He|[<-|[]]]; [apply I1; exact He|exact HIn]. }
    intros rest i HS HA HL. repeat rewrite <- app_assoc in HA. repeat rewrite app_length in HL. unfold load_fly.
    num0 (R (put_N (position (a_tab st1) d) ++ o1 ++ rest) i) HA.
    num (load_N_ok 64 (position (a_tab st1) d) st1 (o1 ++ rest)) HA; [lia|]. cbn [l_st l_in].
    destruct (N.ltb_spec (lenN (a_tab st1)) (position (a_tab st1) d)); [lia|]. rewrite EP, N.eqb_refl.
    destruct (R1 rest _ HS HA) as (j & F & A); [rewrite app_length; lia|]. rewrite F. cbn [bind l_in l_st]. exists j. split; [reflexivity|exact A].
  - apply pair_equal_spec in E; destruct E as [<- <-]. split; [rewrite <- (app_nil_r (put_N _)); apply HS0|]. split; [repeat apply clean_app; first [assumption|apply clean_N]|]. split; [exact I1|].
    intros rest i HS HA HL. repeat rewrite <- app_assoc in HA. unfold load_fly.
    num0 (R (put_N (position (a_tab st1) d) ++ rest) i) HA.
    num (load_N_ok 64 (position (a_tab st1) d) st1 rest) HA; [lia|]. cbn [l_st l_in].
    destruct (N.ltb_spec (lenN (a_tab st1)) (position (a_tab st1) d)); [lia|]. destruct (N.eqb_spec (position (a_tab st1) d) (lenN (a_tab st1))); [contradiction|].
    destruct (position_found _ _ EP) as (e & X1 & X2 & X3). rewrite X1. assert (e = d) by (apply Hcan; [apply I1; exact X2|exact HIn|exact X3]). subst e.
    eexists. split; [reflexivity|exact HA].
Qed.

Lemma point_rt : forall p, point_in_range p -> In (data_of p) Dl -> rt put_point (load_point ok fuel) p.
Proof.
  intros p (H1 & H2 & H3) HIn st out st' E HI. unfold put_point in E. destruct (put_class CPoint st) as [o st1] eqn:EC.
  destruct (put_fly (data_of p) st1) as [o1 st2] eqn:E1. apply pair_equal_spec in E; destruct E as [<- <-].
  destruct (put_class_ok _ _ _ _ EC HI) as (S0 & C0 & I1 & _ & R).
  destruct (fly_rt (data_of p)) with (3 := E1) (4 := I1) as (S1 & C1 & I2 & R1); [split; [reflexivity|exact H3]|exact HIn|].
  split. { destruct S0 as [S0| ->]; [apply starts_app; exact S0|]. cbn [app]. apply starts_app, starts_N. }
  split; [repeat apply clean_app; first [assumption|apply clean_N]|]. split; [exact I2|].
  intros rest i HS HA HL. repeat rewrite <- app_assoc in HA. repeat rewrite app_length in HL. unfold load_point.
  num0 (R (put_N (p_counter p) ++ put_N (p_stmt p) ++ o1 ++ rest) i) HA.
  num (load_N_ok 64 (p_counter p) st1 (put_N (p_stmt p) ++ o1 ++ rest)) HA.
  num (load_N_ok 64 (p_stmt p) st1 (o1 ++ rest)) HA.
  destruct (R1 rest _ HS HA) as (j & F & A); [rewrite app_length; lia|]. rewrite F. cbn [bind]. exists j. split; [destruct p; reflexivity|exact A].
Qed.

Lemma name_rt : forall n, nul_free n -> lenN n < 2 ^ 64 -> rt put_name (load_string ok) n.
Proof.
  intros n HN HL st out st' E HI. unfold put_name in E. apply pair_equal_spec in E; destruct E as [<- <-].
  split; [apply starts_app, starts_N|]. split. { apply clean_app; [apply clean_N|]. constructor; [exact space_clean|]. apply Forall_forall. intros b Hb ->. exact (HN Hb). }
  split; [exact HI|]. intros rest i HS HA _. apply load_string_ok; assumption.
Qed.

Lemma trace_rt : forall t, trace_in_range t -> (forall p, In p (tr_points t) -> In (data_of p) Dl) -> rt put_trace (load_trace ok fuel) t.
Proof.
  intros t (H1 & H2 & H3 & H4 & H5 & H6) HIn st out st' E HI. unfold put_trace in E. destruct (put_class CTrace st) as [o st1] eqn:EC.
  destruct (put_all put_point (tr_points t) st1) as [o1 st2] eqn:E1. destruct (put_all put_name (tr_names t) st2) as [o2 st3] eqn:E2.
  destruct (put_all put_type (tr_types t) st3) as [o3 st4] eqn:E3. apply pair_equal_spec in E; destruct E as [<- <-].
  destruct (put_class_ok _ _ _ _ EC HI) as (S0 & C0 & I1 & _ & R).
  destruct (put_all_ok _ put_point (load_point ok fuel) (tr_points t)) with (2 := E1) (3 := I1) as (S1 & C1 & I2 & L1 & R1).
  { apply Forall_forall. intros p Hp. rewrite Forall_forall in H6. apply point_rt; auto. }
  unfold name in *.
  destruct (put_all_ok (list byte) put_name (load_string ok) (tr_names t)) with (2 := E2) (3 := I2) as (S2 & C2 & I3 & L2 & R2).
  { eapply Forall_impl; [|exact H4]. intros n [A B]. apply name_rt; assumption. }
  destruct (put_all_ok _ put_type load_type (tr_types t)) with (2 := E3) (3 := I3) as (S3 & C3 & I4 & L3 & R3).
  { eapply Forall_impl; [|exact H5]. apply type_rt. }
  split. { destruct S0 as [S0| ->]; [apply starts_app; exact S0|]. cbn [app]. apply starts_app, starts_N. }
  split; [repeat apply clean_app; first [assumption|apply clean_N]|]. split; [exact I4|].
  intros rest i HS HA HL. repeat rewrite <- app_assoc in HA. repeat rewrite app_length in HL. unfold load_trace.
  change two32 with (2 ^ 32) in HA. rewrite !N.mod_small in HA by assumption.
  num0 (R (put_N (lenN (tr_points t)) ++ put_N (lenN (tr_names t)) ++ put_N (lenN (tr_types t)) ++ o1 ++ o2 ++ o3 ++ rest) i) HA.
  num (load_N_ok 64 (lenN (tr_points t)) st1 (put_N (lenN (tr_names t)) ++ put_N (lenN (tr_types t)) ++ o1 ++ o2 ++ o3 ++ rest)) HA.
  num (load_N_ok 32 (lenN (tr_names t)) st1 (put_N (lenN (tr_types t)) ++ o1 ++ o2 ++ o3 ++ rest)) HA.
  num (load_N_ok 32 (lenN (tr_types t)) st1 (o1 ++ o2 ++ o3 ++ rest)) HA.
  unfold reserve. rewrite !Hok. cbn [bind].
  destruct (R1 (o2 ++ o3 ++ rest) _ fuel ltac:(sp) HA) as (j1 & F1 & A1); [rewrite !app_length; lia|lia|]. rewrite F1. cbn [bind].
  destruct (R2 (o3 ++ rest) _ fuel ltac:(sp) A1) as (j2 & F2 & A2); [rewrite !app_length; lia|lia|]. unfold name in *. rewrite F2. cbn [bind].
  destruct (R3 rest _ fuel ltac:(sp) A2) as (j3 & F3 & A3); [rewrite !app_length; lia|lia|]. rewrite F3. cbn [bind].
  exists j3. split; [destruct t; reflexivity|exact A3].
Qed.

Lemma db_rt : forall ts, lenN ts < 2 ^ 64 -> Forall trace_in_range ts -> (forall t p, In t ts -> In p (tr_points t) -> In (data_of p) Dl) ->
  rt put_db (load_db ok fuel) ts.
Proof.
  intros ts H1 H2 HIn st out st' E HI. unfold put_db in E. destruct (put_class CDb st) as [o st1] eqn:EC.
  destruct (put_all put_trace ts st1) as [o1 st2] eqn:E1. apply pair_equal_spec in E; destruct E as [<- <-].
  destruct (put_class_ok _ _ _ _ EC HI) as (S0 & C0 & I1 & _ & R).
  destruct (put_all_ok _ put_trace (load_trace ok fuel) ts) with (2 := E1) (3 := I1) as (S1 & C1 & I2 & L1 & R1).
  { apply Forall_forall. intros t Ht. rewrite Forall_forall in H2. apply trace_rt; eauto. }
  split. { destruct S0 as [S0| ->]; [apply starts_app; exact S0|]. cbn [app]. apply starts_app, starts_N. }
  split; [repeat apply clean_app; first [assumption|apply clean_N]|]. split; [exact I2|].
  intros rest i HS HA HL. repeat rewrite <- app_assoc in HA. repeat rewrite app_length in HL. unfold load_db.
  num0 (R (put_N (lenN ts) ++ o1 ++ rest) i) HA.
  num (load_N_ok 64 (lenN ts) st1 (o1 ++ rest)) HA.
  unfold reserve. rewrite !Hok. cbn [bind].
  destruct (R1 rest _ fuel HS HA) as (j1 & F1 & A1); [rewrite app_length; lia|lia|]. exists j1. split; [exact F1|exact A1].
Qed.
End RoundTrip.

(** ** The whole archive *)
Lemma signature_len : lenN signature = 22.
Proof. reflexivity. Qed.
Lemma signature_clean : clean signature.
Proof. unfold clean. vm_compute. repeat (constructor; [discriminate|]). constructor. Qed.

Lemma header_clean : forall ver, clean (header ver).
Proof. intro ver. unfold header. apply clean_app; [apply show_clean|]. constructor; [exact space_clean|]. apply clean_app; [exact signature_clean|apply clean_N]. Qed.

Lemma load_header_ok : forall ok ver rest st, (forall n, ok n = true) -> ver < 2 ^ 16 -> sep rest ->
  exists i, load_header ok ver (mkL (mkI (header ver ++ rest) false false) st) = Ok (mkL i st) /\ at_ rest i.
Proof.
  intros ok ver rest st Hok HV HS. unfold load_header, load_string. cbn [l_in l_st].
  assert (HA : at_ (header ver ++ rest) (mkI (header ver ++ rest) false false)) by (split; [reflexivity|split; reflexivity]).
  unfold header in HA at 1. rewrite <- app_assoc in HA. cbn [app] in HA. rewrite <- app_assoc in HA.
  destruct (get_number_N0 (lenN signature) (space :: signature ++ put_N ver ++ rest) _ [] (or_introl eq_refl) eq_refl HA) as (i1 & E1 & A1).
  unfold get_N. rewrite E1. destruct (N.ltb_spec (lenN signature) (2 ^ 64)) as [_|H]; [|exfalso; apply N.le_ngt in H; apply H; rewrite signature_len; reflexivity].
  cbn [bind]. unfold reserve. rewrite Hok. cbn [bind]. destruct (N.eqb_spec (lenN signature) 0) as [X|_]; [rewrite signature_len in X; discriminate|]. apply skip_char_ok in A1.
  destruct (read_chars_ok signature (put_N ver ++ rest) _ ltac:(discriminate) A1) as (i2 & E2 & A2). rewrite E2. cbn [bind].
  replace (bytes_eqb signature signature) with true by reflexivity.
  destruct (load_N_ok 16 ver st rest i2 HS HV A2) as (i3 & E3 & A3). rewrite E3. cbn [bind]. rewrite N.ltb_irrefl. exists i3. split; [reflexivity|exact A3].
Qed.

Lemma c_string_clean : forall l, clean l -> c_string l = l.
Proof.
  intros l H. induction H as [|b l Hb _ IH]; [reflexivity|]. cbn [c_string]. destruct (N.eqb_spec (N_of_byte b) 0) as [E|E]; [|rewrite IH; reflexivity].
  exfalso. apply Hb. apply N_of_byte_inj. rewrite E. reflexivity.
Qed.

Lemma storable_data : forall ts, storable ts -> exists Dl, lenN Dl < 2 ^ 64 /\ (forall a b, In a Dl -> In b Dl -> data_eqb a b = true -> a = b) /\
  (forall t p, In t ts -> In p (tr_points t) -> In (data_of p) Dl).
Proof.
  intros ts (_ & HL & _ & HC). exists (map data_of (concat (map tr_points ts))). split; [|split].
  - unfold lenN in *. rewrite map_length. exact HL.
  - intros a b Ha Hb E. apply in_map_iff in Ha, Hb. destruct Ha as (p & <- & Hp), Hb as (q & <- & Hq).
    apply in_concat in Hp, Hq. destruct Hp as (l & Hl & Hp), Hq as (m & Hm & Hq). apply in_map_iff in Hl, Hm.
    destruct Hl as (t & <- & Ht), Hm as (u & <- & Hu). destruct (HC t u p q Ht Hu Hp Hq) as (X & Y & Z); [exact E|]. unfold data_of. congruence.
  - intros t p Ht Hp. apply in_map. apply in_concat. exists (tr_points t). split; [apply in_map; exact Ht|exact Hp].
Qed.

Lemma arch0_inv : forall Dl, inv Dl arch0.
Proof. intro Dl. split; [constructor|intros x []]. Qed.

Lemma round_trip : forall ok ver d, (forall n, ok n = true) -> ver < 2 ^ 16 -> storable (traces d) ->
  clean (serialize_trace_db ver d) /\
  deserialize_trace_db ok ver (serialize_trace_db ver d) = Ok (mkDB (map (fun t => (t, [])) (traces d)) (lenN (traces d)) 0).
Proof.
  intros ok ver d Hok HV HS. destruct (storable_data _ HS) as (Dl & D1 & D2 & D3). pose proof HS as (HN & _ & HF & _).
  unfold traces in *. unfold serialize_trace_db. destruct (put_db (map fst (db_traces d)) arch0) as [out st'] eqn:E. cbn [fst].
  set (fuel := S (length (header ver ++ out))).
  destruct (db_rt ok Hok fuel Dl D1 D2 _ HN HF D3 _ _ _ E (arch0_inv Dl)) as (S1 & C1 & _ & R1).
  assert (HC : clean (header ver ++ out)) by (apply clean_app; [apply header_clean|exact C1]). split; [exact HC|].
  unfold deserialize_trace_db. rewrite (c_string_clean _ HC). cbv zeta. fold fuel.
  destruct (load_header_ok ok ver out arch0 Hok HV) as (i & E1 & A1); [destruct S1 as [o ->]; reflexivity|]. rewrite E1. cbn [bind].
  rewrite <- (app_nil_r out) in A1. destruct (R1 [] i I A1) as (i2 & E2 & _); [unfold fuel; rewrite app_nil_r, app_length; lia|]. rewrite E2. reflexivity.
Qed.
