(** Proofs about the reader (over the abstract map) and the format specification. *)
From Verif Require Import BaseProofs Types Stream SkipList AMap MemMapSpec MemMapProofs MemMapMore Reader FormatSpec FormatUB.

(** ** Streams *)

Definition dead (t : tail_kind) : istream :=
  mkS [] t (match t with TailEof => true | TailError => false end) true.
Definition tail_err (t : tail_kind) : err := match t with TailEof => EEof | TailError => EBadState end.

Lemma good_open : forall bs t, good (open_stream bs t) = true. Proof. reflexivity. Qed.
Lemma good_dead : forall t, good (dead t) = false. Proof. destruct t; reflexivity. Qed.

Lemma binary_read_dead : forall n t, binary_read n (dead t) = Throw (tail_err t).
Proof. intros n []; reflexivity. Qed.

Lemma binary_read_enough : forall n bs t, n <= lenN bs ->
  binary_read n (open_stream bs t) = Ok (takeN n bs, open_stream (dropN n bs) t).
Proof.
  intros n bs t H. unfold binary_read. rewrite good_open. cbn [negb]. unfold s_read, open_stream.
  cbn [s_rest s_tail s_eof s_fail]. rewrite lenN_takeN.
  destruct (N.ltb_spec (N.min n (lenN bs)) n); [lia|reflexivity].
Qed.

Lemma binary_read_short : forall n bs t, lenN bs < n ->
  binary_read n (open_stream bs t) = Ok (bs, dead t).
Proof.
  intros n bs t H. unfold binary_read. rewrite good_open. cbn [negb]. unfold s_read, open_stream.
  cbn [s_rest s_tail s_eof s_fail]. rewrite takeN_all by lia.
  destruct (N.ltb_spec (lenN bs) n); [|lia]. destruct t; reflexivity.
Qed.

Lemma binary_read_app : forall d r t, binary_read (lenN d) (open_stream (d ++ r) t) = Ok (d, open_stream r t).
Proof.
  intros. rewrite binary_read_enough by (rewrite lenN_app; lia).
  rewrite takeN_app, dropN_app by reflexivity. reflexivity.
Qed.

Lemma binary_read_app' : forall n d r t, n = lenN d ->
  binary_read n (open_stream (d ++ r) t) = Ok (d, open_stream r t).
Proof. intros. subst. apply binary_read_app. Qed.

Lemma lenN_le_bytes : forall n x, lenN (le_bytes n x) = N.of_nat n.
Proof. intros. unfold lenN. rewrite le_bytes_length. reflexivity. Qed.

Lemma dropN_ge : forall A n (l : list A), lenN l <= n -> dropN n l = [].
Proof. intros. rewrite dropN_skipn. apply skipn_all2. unfold lenN in *. lia. Qed.

Lemma read_word_dead : forall n old t, read_word n old (dead t) = Throw (tail_err t).
Proof. intros. unfold read_word, binary_read_into. rewrite binary_read_dead. reflexivity. Qed.

Lemma read_word_app : forall n old x r t, x < two8 ^ N.of_nat n ->
  read_word n old (open_stream (le_bytes n x ++ r) t) = Ok (x, open_stream r t).
Proof.
  intros. unfold read_word, binary_read_into. rewrite lenN_le_bytes.
  rewrite binary_read_app' by (rewrite lenN_le_bytes; reflexivity). cbn [bind].
  rewrite dropN_ge by (rewrite !lenN_le_bytes; lia). rewrite app_nil_r, le_val_le_bytes_small by assumption.
  reflexivity.
Qed.

Lemma read_word_short : forall n old bs t, lenN bs < N.of_nat n ->
  read_word n old (open_stream bs t) = Ok (le_val (bs ++ dropN (lenN bs) (le_bytes n old)), dead t).
Proof.
  intros. unfold read_word, binary_read_into. rewrite lenN_le_bytes.
  rewrite binary_read_short by assumption. reflexivity.
Qed.

(** Every sufficiently long byte string starts with a word. *)
Lemma split_word : forall n bs, N.of_nat n <= lenN bs ->
  exists x r, bs = le_bytes n x ++ r /\ x < two8 ^ N.of_nat n.
Proof.
  intros n bs H. exists (le_val (takeN (N.of_nat n) bs)), (dropN (N.of_nat n) bs).
  assert (L : lenN (takeN (N.of_nat n) bs) = N.of_nat n) by (rewrite lenN_takeN; lia).
  split.
  - replace n with (length (takeN (N.of_nat n) bs)) at 1 by (unfold lenN in L; lia).
    rewrite le_bytes_le_val, takeN_dropN. reflexivity.
  - rewrite <- L at 2. apply le_val_bound.
Qed.

Lemma word_cases : forall n bs, (exists x r, bs = le_bytes n x ++ r /\ x < two8 ^ N.of_nat n) \/ lenN bs < N.of_nat n.
Proof. intros. destruct (N.lt_ge_cases (lenN bs) (N.of_nat n)); [auto|left; apply split_word; assumption]. Qed.

Lemma split_data : forall n (bs : list byte), (exists d r, bs = d ++ r /\ lenN d = n) \/ lenN bs < n.
Proof.
  intros n bs. destruct (N.lt_ge_cases (lenN bs) n); [auto|]. left.
  exists (takeN n bs), (dropN n bs). rewrite takeN_dropN, lenN_takeN. split; [reflexivity|lia].
Qed.

Lemma two8_pow4 : two8 ^ N.of_nat 4 = 2 ^ 32. Proof. reflexivity. Qed.
Lemma two8_pow8 : two8 ^ N.of_nat 8 = 2 ^ 64. Proof. reflexivity. Qed.

(** ** Signed values *)

Lemma sign_extend_spec : forall d, lenN d <= 8 -> 1 <= lenN d ->
  sign_extend (lenN d) (le_val d) < 2 ^ 64 /\ s64 (sign_extend (lenN d) (le_val d)) = signed_val d.
Proof.
  intros d H8 H1. pose proof (le_val_bound d) as HB. unfold sign_extend, signed_val, s64.
  set (n := lenN d) in *. set (u := le_val d) in *. clearbody n u.
  replace (two8 ^ n) with (2 ^ (8 * n)) in HB by (rewrite N.pow_mul_r; reflexivity).
  assert (Hc : n = 1 \/ n = 2 \/ n = 3 \/ n = 4 \/ n = 5 \/ n = 6 \/ n = 7 \/ n = 8) by lia.
  repeat destruct Hc as [Hc|Hc]; subst n;
    match goal with |- context [N.ltb u ?e] => let e' := eval vm_compute in e in change e with e' end;
    match goal with |- context [Z.ltb ?x ?e] => let e' := eval vm_compute in e in change e with e' end;
    match type of HB with context [N.lt _ ?e] => let e' := eval vm_compute in e in change e with e' in HB end;
    match goal with |- context [Z.sub (Z.of_N u) ?e] => let e' := eval vm_compute in e in change e with e' end;
    match goal with |- context [N.sub ?a ?b] => let e' := eval vm_compute in (N.sub a b) in change (N.sub a b) with e' end;
    change (2 ^ 64) with 18446744073709551616; unfold two63, two64;
    match goal with |- context [N.ltb u ?e] => destruct (N.ltb_spec u e) end;
    match goal with |- context [Z.ltb ?x ?e] => destruct (Z.ltb_spec x e) end; try lia;
    (split; [lia|]);
    match goal with |- context [N.ltb ?a ?b] => destruct (N.ltb_spec a b) end; lia.
Qed.

(** ** Names *)

Lemma N_of_byte_0 : forall b, N_of_byte b = 0 <-> b = x00.
Proof. intro b. split; [|intros ->; reflexivity]. intro H. apply N_of_byte_inj. exact H. Qed.

Lemma scan_names_one : forall n cur r, nul_free n ->
  scan_names (n ++ x00 :: r) cur = (rest <- scan_names r [] ;; Ok ((rev cur ++ n) :: rest)).
Proof.
  induction n as [|b n IH]; intros cur r Hn.
  - cbn [app scan_names]. change (N_of_byte x00 =? 0) with true. cbv iota. rewrite app_nil_r. reflexivity.
  - cbn [app scan_names]. destruct (N.eqb_spec (N_of_byte b) 0) as [Hb|Hb].
    + apply N_of_byte_0 in Hb. subst b. exfalso. apply Hn. left. reflexivity.
    + rewrite IH by (intro X; apply Hn; right; exact X). cbn [rev]. rewrite <- app_assoc. reflexivity.
Qed.

Lemma scan_names_enc : forall names, Forall nul_free names -> scan_names (name_chars names) [] = Ok names.
Proof.
  induction 1 as [|n names Hn _ IH]; [reflexivity|].
  unfold name_chars. cbn [map concat]. rewrite <- app_assoc. cbn [app].
  rewrite scan_names_one by assumption. fold (name_chars names). rewrite IH. reflexivity.
Qed.

Lemma scan_names_inv : forall l cur, nul_free cur ->
  (exists names, scan_names l cur = Ok names /\ rev cur ++ l = name_chars names /\ Forall nul_free names) \/
  (scan_names l cur = UB UOob /\ exists p b, rev cur ++ l = p ++ [b] /\ b <> x00).
Proof.
  induction l as [|b l IH]; intros cur Hc; cbn [scan_names].
  - destruct cur as [|c cur].
    + left. exists []. repeat split; constructor.
    + right. split; [reflexivity|]. exists (rev cur), c. rewrite app_nil_r. cbn [rev]. split; [reflexivity|].
      intros ->. apply Hc. left. reflexivity.
  - destruct (N.eqb_spec (N_of_byte b) 0) as [Hb|Hb].
    + apply N_of_byte_0 in Hb. subst b.
      destruct (IH [] (fun x => x)) as [(names & H1 & H2 & H3)|(H1 & p & b & H2 & H3)]; rewrite H1; cbn [bind].
      * left. exists (rev cur :: names). split; [reflexivity|]. split.
        -- unfold name_chars. cbn [map concat]. rewrite <- app_assoc. cbn [app]. do 2 f_equal. exact H2.
        -- constructor; [|exact H3]. intro X. apply Hc. apply in_rev. exact X.
      * right. split; [reflexivity|]. cbn [rev app] in H2. exists (rev cur ++ x00 :: p), b.
        split; [rewrite H2, <- app_assoc; reflexivity|exact H3].
    + destruct (IH (b :: cur)) as [(names & H1 & H2 & H3)|(H1 & p & b' & H2 & H3)].
      * intros [X|X]; [subst b; apply Hb; reflexivity|apply Hc; exact X].
      * left. exists names. split; [exact H1|]. cbn [rev] in H2. rewrite <- app_assoc in H2. split; assumption.
      * right. split; [exact H1|]. cbn [rev] in H2. rewrite <- app_assoc in H2. eauto.
Qed.

Lemma name_chars_nil : forall names, name_chars names = [] <-> names = [].
Proof.
  intros [|n names]; [tauto|]. split; [|discriminate]. unfold name_chars. cbn [map concat]. intro H.
  destruct n; discriminate.
Qed.

Lemma lenN_0 : forall A (l : list A), lenN l = 0 <-> l = [].
Proof. intros A [|x l]; unfold lenN; simpl; split; try reflexivity; try discriminate. Qed.

Lemma read_names_enc : forall ok names r t, names_wf ok names ->
  read_names ok (open_stream (enc_names names ++ r) t) = Ok (names, open_stream r t).
Proof.
  intros ok names r t (Hf & Hl & Ha). unfold read_names, enc_names. rewrite <- app_assoc.
  rewrite read_word_app by (rewrite two8_pow8; exact Hl). cbn [bind].
  destruct (N.ltb_spec 0 (lenN (name_chars names))) as [Hp|Hz].
  - rewrite Ha by (intros ->; vm_compute in Hp; discriminate).
    rewrite binary_read_app. cbn [bind]. rewrite N.ltb_irrefl. rewrite scan_names_enc by assumption. reflexivity.
  - assert (Hz' : lenN (name_chars names) = 0) by lia. apply lenN_0 in Hz'. pose proof Hz' as Hn.
    apply name_chars_nil in Hn. subst names. reflexivity.
Qed.

Lemma read_names_cases : forall ok bs t,
  (exists names r, bs = enc_names names ++ r /\ names_wf ok names /\
     read_names ok (open_stream bs t) = Ok (names, open_stream r t)) \/
  (read_names ok (open_stream bs t) = Ok ([], dead t)) \/
  (exists e, read_names ok (open_stream bs t) = Throw e) \/
  (exists k, read_names ok (open_stream bs t) = UB k /\ ub_names ok bs k).
Proof.
  intros ok bs t. destruct (word_cases 8 bs) as [(n & r & -> & Hn)|Hs].
  - rewrite two8_pow8 in Hn. unfold read_names. rewrite read_word_app by (rewrite two8_pow8; exact Hn). cbn [bind].
    destruct (N.ltb_spec 0 n) as [Hp|Hz].
    + destruct (ok n) eqn:Ho; [|right; right; left; eexists; reflexivity].
      destruct (split_data n r) as [(d & q & -> & Hd)|Hd].
      * rewrite binary_read_app' by auto. cbn [bind].
        destruct (N.ltb_spec (lenN d) n); [lia|].
        destruct (scan_names_inv d [] (fun x => x)) as [(names & H1 & H2 & H3)|(H1 & p & b & H2 & H3)]; rewrite H1; cbn [bind].
        -- left. cbn [rev app] in H2. subst d. exists names, q. split; [|split; [|reflexivity]].
           ++ unfold enc_names. rewrite Hd, <- app_assoc. reflexivity.
           ++ repeat split; [assumption|rewrite Hd; exact Hn|intros _; rewrite Hd; exact Ho].
        -- right; right; right. exists UOob. split; [reflexivity|]. cbn [rev app] in H2. exists n, (d ++ q).
           conj_split; auto. right. exists p, b, q. rewrite H2, <- app_assoc, <- H2. auto.
      * rewrite binary_read_short by exact Hd. cbn [bind]. destruct (N.ltb_spec (lenN r) n); [|lia].
        right; right; right. exists UUninit. split; [reflexivity|]. exists n, r. conj_split; auto.
    + left. assert (n = 0) by lia. subst n. exists [], r. split; [reflexivity|]. split; [|reflexivity].
      split; [constructor|]. split; [vm_compute; reflexivity|]. intro X. congruence.
  - unfold read_names. rewrite read_word_short by exact Hs. cbn [bind].
    set (n := le_val _). destruct (0 <? n); [|auto].
    destruct (ok n); [rewrite binary_read_dead; right; right; left; eexists; reflexivity|right; right; left; eexists; reflexivity].
Qed.

(** ** Types *)

Lemma fmt_code_of : forall n, n < 5 -> fmt_code (fmt_of_code n) = n /\ fmt_of_code n <> INVALID_FORMAT.
Proof.
  intros n H. assert (n = 0 \/ n = 1 \/ n = 2 \/ n = 3 \/ n = 4) as Hc by lia.
  repeat destruct Hc as [->|Hc]; try (subst n); split; try reflexivity; discriminate.
Qed.
Lemma fmt_of_code_code : forall f, fmt_of_code (fmt_code f) = f. Proof. destruct f; reflexivity. Qed.
Lemma fmt_code_lt : forall f, f <> INVALID_FORMAT -> fmt_code f < 5. Proof. intros [] H; try reflexivity. congruence. Qed.

Lemma read_type_enc : forall ty r t, type_wf ty ->
  read_type (open_stream (enc_type ty ++ r) t) = Ok (ty, open_stream r t).
Proof.
  intros [nm f sz] r t (H1 & H2 & H3). unfold read_type, enc_type. cbn [t_name t_fmt t_size] in *.
  rewrite <- !app_assoc. rewrite read_word_app by exact H1. cbn [bind].
  pose proof (fmt_code_lt f H3).
  rewrite read_word_app by (rewrite two8_pow4; change (2 ^ 32) with 4294967296; lia). cbn [bind].
  rewrite read_word_app by exact H2. cbn [bind].
  destruct (N.leb_spec (fmt_code INVALID_FORMAT) (fmt_code f)) as [X|X]; [simpl in X; lia|].
  rewrite fmt_of_code_code. reflexivity.
Qed.

Lemma le_val_zeros : forall l n, le_val (l ++ repeat x00 n) = le_val l.
Proof.
  intros l n. rewrite le_val_app. replace (le_val (repeat x00 n)) with 0; [lia|].
  induction n; [reflexivity|]. cbn [repeat le_val]. rewrite <- IHn. reflexivity.
Qed.

Lemma le_bytes_0 : forall n, le_bytes n 0 = repeat x00 n.
Proof. induction n; [reflexivity|]. cbn [le_bytes repeat]. f_equal. exact IHn. Qed.

Lemma dropN_repeat : forall A (x : A) n m, dropN m (repeat x n) = repeat x (n - N.to_nat m).
Proof.
  intros. rewrite dropN_skipn. revert n. induction (N.to_nat m) as [|k IH]; intro n.
  - simpl. f_equal. lia.
  - destruct n; simpl; [reflexivity|apply IH].
Qed.

Lemma read_word_short0 : forall n bs t, lenN bs < N.of_nat n ->
  read_word n 0 (open_stream bs t) = Ok (le_val bs, dead t).
Proof. intros. rewrite read_word_short by assumption. rewrite le_bytes_0, dropN_repeat, le_val_zeros. reflexivity. Qed.

Lemma read_type_dead : forall t, read_type (dead t) = Throw (tail_err t).
Proof. intro t. unfold read_type. rewrite read_word_dead. reflexivity. Qed.

Lemma read_type_cases : forall bs t,
  (exists ty r, bs = enc_type ty ++ r /\ type_wf ty /\ read_type (open_stream bs t) = Ok (ty, open_stream r t)) \/
  (exists nm f part, bs = le_bytes 4 nm ++ le_bytes 4 (fmt_code f) ++ part /\ nm < 2 ^ 32 /\ f <> INVALID_FORMAT /\
     lenN part < 4 /\ read_type (open_stream bs t) = Ok (mkT nm f (le_val part), dead t)) \/
  (exists e, read_type (open_stream bs t) = Throw e).
Proof.
  intros bs t. unfold read_type. destruct (word_cases 4 bs) as [(nm & r1 & -> & Hn)|Hs].
  2:{ rewrite read_word_short0 by exact Hs. cbn [bind]. rewrite read_word_dead. cbn [bind]. eauto. }
  rewrite read_word_app by exact Hn. cbn [bind].
  destruct (word_cases 4 r1) as [(f & r2 & -> & Hf)|Hs].
  2:{ rewrite read_word_short by exact Hs. cbn [bind]. rewrite read_word_dead. cbn [bind]. eauto. }
  rewrite read_word_app by exact Hf. cbn [bind].
  destruct (word_cases 4 r2) as [(z & r3 & -> & Hz)|Hs].
  - rewrite read_word_app by exact Hz. cbn [bind].
    destruct (N.leb_spec (fmt_code INVALID_FORMAT) f) as [X|X]; [eauto|]. change (fmt_code INVALID_FORMAT) with 5 in X.
    destruct (fmt_code_of f X) as [E1 E2].
    left. exists (mkT nm (fmt_of_code f) z), r3. split; [|split; [|reflexivity]].
    + unfold enc_type. cbn [t_name t_fmt t_size]. rewrite E1, <- !app_assoc. reflexivity.
    + split; [exact Hn|]. split; [exact Hz|exact E2].
  - rewrite read_word_short0 by exact Hs. cbn [bind].
    destruct (N.leb_spec (fmt_code INVALID_FORMAT) f) as [X|X]; [eauto|]. change (fmt_code INVALID_FORMAT) with 5 in X.
    destruct (fmt_code_of f X) as [E1 E2].
    right. left. exists nm, (fmt_of_code f), r2. rewrite E1. conj_split; auto.
Qed.

Lemma lenN_enc_type : forall ty, lenN (enc_type ty) = 12.
Proof. intro. unfold enc_type. rewrite !lenN_app, !lenN_le_bytes. reflexivity. Qed.

Lemma read_types_fuel_enc : forall types fuel r t, Forall type_wf types ->
  (length (concat (map enc_type types) ++ r) < fuel)%nat ->
  read_types_fuel fuel (lenN types) (open_stream (concat (map enc_type types) ++ r) t) = Ok (types, open_stream r t).
Proof.
  induction types as [|ty types IH]; intros fuel r t HW HF.
  - destruct fuel; reflexivity.
  - destruct fuel; [lia|]. cbn [map concat read_types_fuel]. rewrite lenN_cons.
    destruct (N.eqb_spec (N.succ (lenN types)) 0); [lia|]. inversion HW; subst.
    rewrite <- app_assoc. rewrite read_type_enc by assumption. cbn [bind]. rewrite N.pred_succ.
    rewrite IH; [reflexivity|assumption|]. cbn [map concat] in HF. rewrite <- app_assoc, app_length in HF.
    pose proof (lenN_enc_type ty). unfold lenN in *. lia.
Qed.

Lemma read_types_fuel_cases : forall fuel n bs t, (length bs < fuel)%nat ->
  (exists types r, bs = concat (map enc_type types) ++ r /\ Forall type_wf types /\ lenN types = n /\
     read_types_fuel fuel n (open_stream bs t) = Ok (types, open_stream r t)) \/
  (exists types nm f part, bs = concat (map enc_type types) ++ le_bytes 4 nm ++ le_bytes 4 (fmt_code f) ++ part /\
     Forall type_wf types /\ nm < 2 ^ 32 /\ f <> INVALID_FORMAT /\ lenN part < 4 /\ lenN types + 1 = n /\
     read_types_fuel fuel n (open_stream bs t) = Ok (types ++ [mkT nm f (le_val part)], dead t)) \/
  (exists e, read_types_fuel fuel n (open_stream bs t) = Throw e).
Proof.
  induction fuel as [|fuel IH]; intros n bs t HF; [lia|]. cbn [read_types_fuel].
  destruct (N.eqb_spec n 0) as [Hz|Hz].
  - subst n. left. exists [], bs. repeat split; constructor.
  - destruct (read_type_cases bs t) as [(ty & r & -> & Hw & ->)|[(nm & f & part & -> & Hn & Hf & Hp & ->)|(e & ->)]]; cbn [bind]; [| |eauto].
    + rewrite app_length in HF. pose proof (lenN_enc_type ty) as HL. unfold lenN in HL.
      destruct (IH (N.pred n) r t ltac:(lia)) as [(types & q & -> & Hws & Hl & ->)|[(types & nm & f & part & -> & Hws & Hn & Hf & Hp & Hl & ->)|(e & ->)]]; cbn [bind]; [| |eauto].
      * left. exists (ty :: types), q. cbn [map concat]. rewrite <- app_assoc. conj_split; auto. rewrite lenN_cons. lia.
      * right. left. exists (ty :: types), nm, f, part. cbn [map concat]. rewrite <- app_assoc. conj_split; auto. rewrite lenN_cons. lia.
    + destruct fuel as [|fuel]; [exfalso|].
      { rewrite !app_length, !le_bytes_length in HF. lia. }
      cbn [read_types_fuel]. destruct (N.eqb_spec (N.pred n) 0).
      * cbn [bind]. right. left. exists [], nm, f, part. conj_split; auto. rewrite lenN_nil. lia.
      * rewrite read_type_dead. cbn [bind]. eauto.
Qed.

Lemma lenN_cons_ne : forall A (l : list A), l <> [] -> lenN l <> 0.
Proof. intros A l H E. apply lenN_0 in E. auto. Qed.

Lemma read_types_enc : forall ok types r t, types_wf ok types ->
  read_types ok (open_stream (enc_types types ++ r) t) = Ok (types, open_stream r t).
Proof.
  intros ok types r t (Hw & Hl & Ho). unfold read_types, enc_types. rewrite <- app_assoc.
  rewrite read_word_app by exact Hl. cbn [bind].
  replace ((lenN types =? 0) || ok (12 * lenN types)) with true.
  2:{ destruct (N.eqb_spec (lenN types) 0) as [E|E]; [reflexivity|]. rewrite Ho; [reflexivity|]. intros ->. apply E. reflexivity. }
  apply read_types_fuel_enc; auto.
Qed.

Lemma read_types_cases : forall ok bs t,
  (exists types r, bs = enc_types types ++ r /\ types_wf ok types /\
     read_types ok (open_stream bs t) = Ok (types, open_stream r t)) \/
  (exists k, (k < 4)%nat /\ bs = repeat x00 k /\ read_types ok (open_stream bs t) = Ok ([], dead t)) \/
  (exists types ty part missing, types_wf ok (types ++ [ty]) /\
     part ++ missing = le_bytes 4 (t_size ty) /\ missing <> [] /\ bs ++ missing = enc_types (types ++ [ty]) /\
     read_types ok (open_stream bs t) = Ok (types ++ [mkT (t_name ty) (t_fmt ty) (le_val part)], dead t)) \/
  (exists e, read_types ok (open_stream bs t) = Throw e).
Proof.
  intros ok bs t. unfold read_types. destruct (word_cases 4 bs) as [(n & r & -> & Hn)|Hs].
  - rewrite read_word_app by exact Hn. cbn [bind].
    destruct ((n =? 0) || ok (12 * n)) eqn:Eo; [|eauto 6]. cbn [s_rest open_stream].
    fold (open_stream r t).
    assert (Ho : forall A (l : list A), lenN l = n -> l <> [] -> ok (12 * lenN l) = true).
    { intros A l E Hne. apply lenN_cons_ne in Hne. destruct (N.eqb_spec n 0); [lia|]. rewrite E. exact Eo. }
    destruct (read_types_fuel_cases (S (S (length r))) n r t ltac:(lia))
      as [(types & q & -> & Hws & Hl & ->)|[(types & nm & f & part & -> & Hws & Hnm & Hf & Hp & Hl & ->)|(e & ->)]]; [| |eauto 6].
    + left. exists types, q. split; [|split; [|reflexivity]].
      * unfold enc_types. rewrite Hl, <- app_assoc. reflexivity.
      * split; [exact Hws|]. split; [rewrite Hl; exact Hn|]. intro H. apply Ho; auto.
    + right. right. left. set (missing := repeat x00 (4 - length part)).
      assert (Hlen : length (part ++ missing) = 4%nat).
      { unfold missing. rewrite app_length, repeat_length. unfold lenN in Hp. lia. }
      assert (E4 : le_bytes 4 (le_val part) = part ++ missing).
      { rewrite <- (le_val_zeros part (4 - length part)). fold missing. rewrite <- Hlen. apply le_bytes_le_val. }
      exists types, (mkT nm f (le_val part)), part, missing. cbn [t_size t_name t_fmt].
      assert (HL1 : lenN (types ++ [mkT nm f (le_val part)]) = n) by (rewrite lenN_app, lenN_cons, lenN_nil; lia).
      conj_split; auto.
      * split; [|split].
        -- apply Forall_app. split; [exact Hws|]. constructor; [|constructor]. split; [exact Hnm|]. split; [|exact Hf].
           cbn [t_size]. rewrite <- (le_val_zeros part (4 - length part)). fold missing.
           pose proof (le_val_bound (part ++ missing)) as HB. unfold lenN in HB. rewrite Hlen in HB. exact HB.
        -- rewrite HL1. exact Hn.
        -- intro H. apply Ho; auto.
      * intro X. apply (f_equal (@length byte)) in X. unfold missing in X. rewrite repeat_length in X. unfold lenN in Hp. cbn [length] in X. lia.
      * unfold enc_types. rewrite HL1, map_app, concat_app. cbn [map concat]. unfold enc_type at 3. cbn [t_name t_fmt t_size].
        rewrite E4, app_nil_r. rewrite <- !app_assoc. reflexivity.
  - rewrite read_word_short0 by exact Hs. cbn [bind].
    destruct ((le_val bs =? 0) || ok (12 * le_val bs)); [|eauto 6]. cbn [s_rest dead]. cbn [read_types_fuel length].
    destruct (N.eqb_spec (le_val bs) 0) as [E|E].
    + right. left. exists (length bs). split; [unfold lenN in Hs; lia|]. split; [|reflexivity].
      rewrite <- le_bytes_0, <- E. symmetry. apply le_bytes_le_val.
    + fold (dead t). rewrite read_type_dead. cbn [bind]. eauto 6.
Qed.

Lemma read_types_dead : forall ok t, read_types ok (dead t) = Throw (tail_err t).
Proof. intros. unfold read_types. rewrite read_word_dead. reflexivity. Qed.
