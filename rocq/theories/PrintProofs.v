(** Proofs about printing predicates. *)
From Coq Require Import Strings.String.
From Verif Require Import BaseProofs Types Predicate PredProofs OrderProofs Dec DecProofs PrintPred PrintSpec.

Definition starts_delim (l : list byte) : Prop := match l with [] => True | b :: _ => plain b = false end.

Lemma lex_word : forall a w r, Forall (fun b => plain b = true) a -> lex w (a ++ r) = lex (w ++ a) r.
Proof.
  induction a as [|b a IH]; intros w r H; cbn; [rewrite app_nil_r; reflexivity|]. inversion H as [|x l Hb Ha]; subst.
  unfold plain in Hb. apply andb_true_iff in Hb. destruct Hb as [Hb H3]. apply andb_true_iff in Hb. destruct Hb as [H1 H2].
  apply negb_true_iff in H1, H2, H3. rewrite H1, H2, H3, IH by exact Ha. rewrite <- app_assoc. reflexivity.
Qed.
Lemma lex_delim : forall w r, starts_delim r -> lex w r = word_end w ++ lex [] r.
Proof.
  intros w [|b r] H; cbn; [rewrite app_nil_r; reflexivity|]. cbn in H. unfold plain in H.
  destruct (is_open b); [reflexivity|]. destruct (is_close b); [reflexivity|]. destruct (is_blank b); [reflexivity|]. discriminate.
Qed.
Lemma lex_full_word : forall a r, is_word a -> starts_delim r -> lex [] (a ++ r) = TWord a :: lex [] r.
Proof.
  intros a r [Ha Hp] Hr. rewrite lex_word by exact Hp. cbn [app]. rewrite lex_delim by exact Hr. destruct a; [contradiction|]. reflexivity.
Qed.
Lemma lex_blanks : forall n r, lex [] (repeat (byte_of_N 32) n ++ r) = lex [] r.
Proof. induction n as [|n IH]; intro r; [reflexivity|]. cbn [repeat app lex]. change (is_open (byte_of_N 32)) with false. change (is_close (byte_of_N 32)) with false. change (is_blank (byte_of_N 32)) with true. cbn. apply IH. Qed.

Lemma show_plain : forall n, Forall (fun b => plain b = true) (show_N n).
Proof.
  intro n. eapply Forall_impl; [|apply show_digit]. intros b [H1 H2]. unfold plain, is_open, is_close, is_blank, code.
  repeat match goal with |- context [?a =? ?b] => destruct (N.eqb_spec a b); [lia|] end. reflexivity.
Qed.
Lemma show_N_word : forall n, is_word (show_N n).
Proof. intro n. split; [apply show_nonempty|apply show_plain]. Qed.
Lemma show_Z_word : forall z, is_word (show_Z z).
Proof.
  intro z. unfold show_Z. destruct (z <? 0)%Z; [|apply show_N_word]. split; [discriminate|]. constructor; [reflexivity|apply show_plain].
Qed.
Lemma ref_word : forall d, is_word (text "<v" ++ show_N d ++ text ">").
Proof.
  intro d. split; [discriminate|]. apply Forall_app. split; [repeat constructor|]. apply Forall_app. split; [apply show_plain|repeat constructor].
Qed.

Lemma op_name_operator : forall k, op_name k = operator k.
Proof. destruct k; reflexivity. Qed.
Lemma operator_word : forall k n, operator k = Some n -> is_word n.
Proof. destruct k; cbn; intros n H; inversion H; subst; (split; [discriminate|repeat constructor]). Qed.

Section P.
Variable sf : N -> list byte.
Hypothesis HF : forall d, is_word (sf d).

Definition kids (indent : N) := fix loop (l : list pred) (do_indent : bool) : outcome (list byte) :=
  match l with
  | [] => Ok []
  | c :: r =>
      a <- write_predicate sf c indent do_indent ;;
      b <- loop r true ;;
      Ok (a ++ (match r with [] => text ")" | _ => [byte_of_N 10] end) ++ b)
  end.

Lemma write_op : forall k d cs indent di n, operator k = Some n ->
  write_predicate sf (Pred k d cs) indent di =
  (let ind := (indent + lenN (text "(" ++ n ++ text " ")) mod two32 in
   rest <- kids ind cs false ;;
   if two32 <=? lenN cs then Diverge
   else Ok ((if di && (0 <? indent) then repeat (byte_of_N 32) (N.to_nat indent) else []) ++ (text "(" ++ n ++ text " " ++ rest) ++ (if ind =? 0 then [byte_of_N 10] else []))).
Proof.
  intros k d cs indent di n H. assert (H' := H). rewrite <- op_name_operator in H'. destruct k; try discriminate H; cbn [write_predicate]; rewrite H'; fold (kids ((indent + lenN (text "(" ++ n ++ text " ")) mod two32)); cbv zeta;
    clear H H'; (destruct (kids _ cs false) as [rest| | | |]; cbn [bind]; try reflexivity; destruct (two32 <=? lenN cs); cbn [bind]; try reflexivity; rewrite <- !app_assoc; reflexivity).
Qed.

Definition all_supported := fix all l := match l with [] => True | c :: r => supported c /\ all r end.
Lemma all_Forall : forall l, all_supported l <-> Forall supported l.
Proof. induction l as [|c r IH]; cbn; [split; auto|]. rewrite IH. split; [intros []; constructor; auto|intro H; inversion H; auto]. Qed.
Definition all_operands := fix all l := match l with [] => True | c :: r => has_operands c /\ all r end.
Lemma all_operands_Forall : forall l, all_operands l <-> Forall has_operands l.
Proof. induction l as [|c r IH]; cbn; [split; auto|]. rewrite IH. split; [intros []; constructor; auto|intro H; inversion H; auto]. Qed.
Definition all_nonnull := fix all l := match l with [] => True | c :: r => no_null c /\ all r end.
Lemma all_nonnull_Forall : forall l, all_nonnull l <-> Forall no_null l.
Proof. induction l as [|c r IH]; cbn; [split; auto|]. rewrite IH. split; [intros []; constructor; auto|intro H; inversion H; auto]. Qed.

Lemma operator_leaf : forall k n, operator k = Some n -> leaf_kind k = false /\ k <> GREATER_THAN_OR_EQUAL /\ k <> LESS_THAN_OR_EQUAL.
Proof. destruct k; cbn; intros n H; inversion H; repeat split; discriminate. Qed.
Lemma kind_cases : forall k, leaf_kind k = true \/ (exists n, operator k = Some n) \/ k = GREATER_THAN_OR_EQUAL \/ k = LESS_THAN_OR_EQUAL.
Proof. destruct k; cbn; eauto. Qed.

(** Printing succeeds exactly for supported trees. *)
Lemma kids_ok : forall ind l b, (exists t, kids ind l b = Ok t) <-> match l with [] => True | c :: r => (exists t, write_predicate sf c ind b = Ok t) /\ Forall (fun c => exists t, write_predicate sf c ind true = Ok t) r end.
Proof.
  clear HF. intros ind l. induction l as [|c r IH]; intro b; cbn; [split; eauto|].
  destruct (write_predicate sf c ind b) as [a| | | |]; cbn [bind];
    try (split; [intros [t Ht]; discriminate|intros [[t Ht] _]; discriminate]).
  split.
  - intros [t Ht]. destruct (kids ind r true) as [x| | | |] eqn:E; try discriminate. split; [eauto|].
    destruct (IH true) as [I _]. specialize (I (ex_intro _ x E)). destruct r as [|c' r']; [constructor|]. destruct I. constructor; auto.
  - intros [_ HFa]. assert (HX : exists t, kids ind r true = Ok t).
    { apply IH. destruct r as [|c' r']; [exact I|]. inversion HFa; subst. auto. }
    destruct HX as [x E]. rewrite E. cbn [bind]. eauto.
Qed.
Lemma prints_iff : forall p ind b, (exists t, write_predicate sf p ind b = Ok t) <-> supported p.
Proof.
  clear HF. induction p as [k d cs IH] using pred_ind2. intros ind b. destruct (kind_cases k) as [HL|[[n HO]|HU]].
  - split; [intros _; cbn; left; exact HL|]. intros _. destruct k; try discriminate; cbn; eauto.
  - rewrite (write_op _ _ _ _ _ _ HO). cbv zeta. destruct (operator_leaf _ _ HO) as (HL & H1 & H2).
    set (i2 := (ind + _) mod two32). assert (HK := kids_ok i2 cs false).
    assert (HS : supported (Pred k d cs) <-> lenN cs < 2 ^ 32 /\ Forall supported cs).
    { cbn. fold all_supported. rewrite all_Forall. rewrite HL. split; [intros [X|X]; [discriminate|tauto]|intros []; right; auto]. }
    rewrite HS. split.
    + intros [t Ht]. destruct (kids i2 cs false) as [x| | | |]; try discriminate. cbn [bind] in Ht. destruct (N.leb_spec two32 (lenN cs)) as [|HLt]; [discriminate|].
      split; [exact HLt|]. destruct HK as [HK _]. specialize (HK (ex_intro _ x eq_refl)). destruct cs as [|c r]; [constructor|]. destruct HK as [K1 K2].
      inversion IH as [|? ? I1 I2]; subst. constructor; [eapply I1; exact K1|]. clear - I2 K2. induction I2 as [|c' r' J _ IHr]; [constructor|]. inversion K2; subst. constructor; [eapply J; eassumption|auto].
    + intros [HLt HFa]. assert (HX : exists t, kids i2 cs false = Ok t).
      { apply HK. destruct cs as [|c r]; [exact I|]. inversion IH as [|? ? I1 I2]; subst. inversion HFa as [|? ? F1 F2]; subst. split; [apply I1; exact F1|].
        clear - I2 F2. induction I2 as [|c' r' J _ IHr]; [constructor|]. inversion F2; subst. constructor; [apply J; assumption|auto]. }
      destruct HX as [x E]. rewrite E. cbn [bind]. destruct (N.leb_spec two32 (lenN cs)) as [X|_]; [unfold two32 in X; lia|]. eauto.
  - split.
    + intros [t Ht]. destruct HU; subst k; cbn in Ht; discriminate.
    + intros HS. exfalso. cbn in HS. destruct HU; subst k; cbn in HS; intuition congruence.
Qed.

(** What is printed. *)
Lemma close_starts : forall l, starts_delim (text ")" ++ l).
Proof. intro. reflexivity. Qed.
Lemma lex_newline : forall r, lex [] (byte_of_N 10 :: r) = lex [] r.
Proof. reflexivity. Qed.
Lemma lex_open : forall r, lex [] (text "(" ++ r) = TOpen :: lex [] r.
Proof. reflexivity. Qed.
Lemma lex_space : forall r, lex [] (text " " ++ r) = lex [] r.
Proof. reflexivity. Qed.
Lemma lex_opt_newline : forall (b : bool) r, lex [] ((if b then [byte_of_N 10] else []) ++ r) = lex [] r.
Proof. intros [] r; reflexivity. Qed.
Lemma starts_opt_newline : forall (b : bool) r, starts_delim r -> starts_delim ((if b then [byte_of_N 10] else []) ++ r).
Proof. intros [] r H; [reflexivity|exact H]. Qed.
Lemma lex_spaces : forall (b : bool) n r, lex [] ((if b then repeat (byte_of_N 32) n else []) ++ r) = lex [] r.
Proof. intros [] n r; [apply lex_blanks|reflexivity]. Qed.
Lemma write_null : forall k d cs ind b, k = NULL_PREDICATE -> write_predicate sf (Pred k d cs) ind b = Ok [].
Proof. intros; subst; reflexivity. Qed.

Lemma write_leaf : forall k d cs ind b t, leaf_kind k = true -> k <> NULL_PREDICATE -> write_predicate sf (Pred k d cs) ind b = Ok t ->
  exists w, form sf (Pred k d cs) = [Word w] /\ is_word w /\
    t = (if b && (0 <? ind) then repeat (byte_of_N 32) (N.to_nat ind) else []) ++ w ++ (if ind =? 0 then [byte_of_N 10] else []).
Proof.
  intros k d cs ind b t HL HN H. destruct k; try discriminate HL; try (exfalso; apply HN; reflexivity); cbn [write_predicate bind] in H; assert (Et := f_equal (fun o => match o with Ok x => x | _ => [] end) H); cbv beta iota in Et; subst t; clear H; eexists; (split; [reflexivity|]); (split; [|reflexivity]);
    auto using ref_word, show_N_word, show_Z_word.
Qed.

Lemma lex_write : forall p ind b t r, write_predicate sf p ind b = Ok t -> has_operands p -> starts_delim r ->
  lex [] (t ++ r) = flat_map flat (form sf p) ++ lex [] r.
Proof.
  induction p as [k d cs IH] using pred_ind2. intros ind b t r H HO HR. destruct (kind_cases k) as [HL|[[n HN]|HU]].
  - assert (HK : k = NULL_PREDICATE \/ k <> NULL_PREDICATE) by (destruct k; (left; reflexivity) || (right; discriminate)). destruct HK as [HK|HK].
    { subst k. rewrite (write_null _ _ _ _ _ eq_refl) in H. inversion H. reflexivity. }
    apply write_leaf in H; [|exact HL|exact HK]. destruct H as (w & EF & HW & ->). rewrite EF. rewrite <- !app_assoc, lex_spaces.
    rewrite lex_full_word; [rewrite lex_opt_newline; reflexivity|exact HW|apply starts_opt_newline; exact HR].
  - rewrite (write_op _ _ _ _ _ _ HN) in H. cbv zeta in H. set (i2 := (ind + _) mod two32) in *.
    destruct (operator_leaf _ _ HN) as (HL & _). cbn [has_operands] in HO. fold all_operands in HO. rewrite HL in HO. destruct HO as [X|[HNE HO]]; [discriminate|]. apply all_operands_Forall in HO.
    apply bind_ok in H. destruct H as (rest & HK & H). destruct (two32 <=? lenN cs); [discriminate|]. assert (Et := f_equal (fun o => match o with Ok x => x | _ => [] end) H). cbv beta iota in Et. clear H. subst t.
    assert (EF : form sf (Pred k d cs) = [Group (Word n :: flat_map (form sf) cs)]) by (destruct k; try discriminate; cbn in *; inversion HN; reflexivity).
    assert (EF2 : flat_map flat (form sf (Pred k d cs)) = TOpen :: TWord n :: flat_map flat (flat_map (form sf) cs) ++ [TClose]) by (rewrite EF; cbn; rewrite app_nil_r; reflexivity).
    rewrite EF2. clear EF EF2. rewrite <- !app_assoc. rewrite lex_spaces.
    rewrite lex_open. rewrite lex_full_word; [|eapply operator_word; exact HN|reflexivity]. rewrite lex_space.
    rewrite <- !app_comm_cons. f_equal. f_equal. rewrite <- app_assoc.
    set (tail := (if i2 =? 0 then [byte_of_N 10] else []) ++ r).
    assert (ET : lex [] tail = lex [] r) by apply lex_opt_newline.
    assert (G : forall b, kids i2 cs b = Ok rest -> lex [] (rest ++ tail) = flat_map flat (flat_map (form sf) cs) ++ TClose :: lex [] r).
    { clear HK. revert rest HNE. clear - IH HO ET. induction IH as [|c l IHc _ IHl]; intros rest HNE b HK; [contradiction|].
      inversion HO as [|? ? O1 O2]; subst. cbn [kids] in HK. fold (kids i2) in HK. apply bind_ok in HK. destruct HK as (a & Ea & HK). apply bind_ok in HK. destruct HK as (x & Ex & HK).
      inversion HK; subst rest. clear HK. destruct l as [|c' l'].
      - cbn in Ex. inversion Ex; subst x. rewrite app_nil_r. rewrite <- app_assoc. rewrite (IHc _ _ _ _ Ea O1 (close_starts _)). cbn [flat_map]. rewrite app_nil_r. f_equal.
        change (lex [] (text ")" ++ tail)) with (TClose :: lex [] tail). rewrite ET. reflexivity.
      - rewrite <- !app_assoc. rewrite (IHc _ _ _ _ Ea O1) by reflexivity. change ([byte_of_N 10] ++ x ++ tail) with (byte_of_N 10 :: x ++ tail). rewrite lex_newline.
        change (flat_map (form sf) (c :: c' :: l')) with (form sf c ++ flat_map (form sf) (c' :: l')). rewrite flat_map_app, <- app_assoc. f_equal. apply (IHl O2 x) with (b := true); [discriminate|exact Ex]. }
    rewrite (G false HK). reflexivity.
  - exfalso. destruct HU; subst k; discriminate.
Qed.

(** Balance. *)
Fixpoint depth_t (d : N) (l : list token) : option N :=
  match l with
  | [] => Some d
  | TOpen :: r => depth_t (d + 1) r
  | TClose :: r => if d =? 0 then None else depth_t (d - 1) r
  | TWord _ :: r => depth_t d r
  end.
Lemma depth_word_end : forall w d l, depth_t d (word_end w ++ l) = depth_t d l.
Proof. intros w d l; destruct w; reflexivity. Qed.
Lemma depth_lex : forall l w d, depth d l = depth_t d (lex w l).
Proof.
  induction l as [|b r IH]; intros w d; cbn; [destruct w; reflexivity|].
  destruct (is_open b); [rewrite depth_word_end; cbn; apply IH|]. destruct (is_close b); [rewrite depth_word_end; cbn; destruct (d =? 0); [reflexivity|apply IH]|].
  destruct (is_blank b); [rewrite depth_word_end; apply IH|apply IH].
Qed.
End P.

Section SxInd.
Variable P : sx -> Prop.
Hypothesis HW : forall w, P (Word w).
Hypothesis HG : forall l, Forall P l -> P (Group l).
Fixpoint sx_ind2 (t : sx) : P t.
Proof.
  destruct t as [w|l]; [apply HW|]. apply HG.
  exact ((fix go (l : list sx) : Forall P l := match l with [] => Forall_nil P | c :: r => Forall_cons c (sx_ind2 c) (go r) end) l).
Qed.
End SxInd.

Lemma depth_flat : forall t d r, depth_t d (flat t ++ r) = depth_t d r.
Proof.
  induction t as [w|l IH] using sx_ind2; intros d r; [reflexivity|]. cbn [flat app depth_t]. rewrite <- app_assoc. cbn [app].
  assert (G : forall d r, depth_t d (flat_map flat l ++ r) = depth_t d r).
  { clear - IH. induction IH as [|t l H _ IHl]; intros d r; [reflexivity|]. cbn [flat_map]. rewrite <- app_assoc, H. apply IHl. }
  rewrite G. cbn [depth_t]. destruct (N.eqb_spec (d + 1) 0); [lia|]. f_equal. lia.
Qed.
Lemma depth_flats : forall l d r, depth_t d (flat_map flat l ++ r) = depth_t d r.
Proof. induction l as [|t l IHl]; intros d r; [reflexivity|]. cbn [flat_map]. rewrite <- app_assoc, depth_flat. apply IHl. Qed.

(** Unique reading. *)
Lemma flats_inj : forall l r l' r', flat_map flat l ++ TClose :: r = flat_map flat l' ++ TClose :: r' -> l = l' /\ r = r'.
Proof.
  assert (G : forall t u r r', flat t ++ r = flat u ++ r' -> t = u /\ r = r').
  { induction t as [w|l IH] using sx_ind2; intros [w'|l'] r r' H; cbn in H; try discriminate.
    - inversion H. auto.
    - injection H as H. rewrite <- !app_assoc in H. cbn [app] in H.
      assert (K : forall l' , flat_map flat l ++ TClose :: r = flat_map flat l' ++ TClose :: r' -> l = l' /\ r = r').
      { clear H l'. induction IH as [|t l Ht _ IHl]; intros [|u l'] H; cbn [flat_map app] in H.
        - inversion H. auto.
        - exfalso. destruct u; discriminate.
        - exfalso. destruct t; discriminate.
        - rewrite <- !app_assoc in H. apply Ht in H. destruct H as [-> H]. apply IHl in H. destruct H as [-> ->]. auto. }
      apply K in H. destruct H as [-> ->]. auto. }
  induction l as [|t l IH]; intros r [|u l'] r' H; cbn [flat_map app] in H.
  - inversion H. auto.
  - exfalso. destruct u; discriminate.
  - exfalso. destruct t; discriminate.
  - rewrite <- !app_assoc in H. apply G in H. destruct H as [-> H]. apply IH in H. destruct H as [-> ->]. auto.
Qed.
Lemma flat_inj : forall t u, flat t = flat u -> t = u.
Proof.
  intros t u H. assert (K : flat_map flat [t] ++ TClose :: [] = flat_map flat [u] ++ TClose :: []) by (cbn [flat_map]; rewrite H; reflexivity).
  apply flats_inj in K. destruct K as [K _]. inversion K. reflexivity.
Qed.

Lemma operator_inj : forall k k' n, operator k = Some n -> operator k' = Some n -> k = k'.
Proof. destruct k, k'; cbn; intros n H H'; inversion H; subst; try reflexivity; inversion H'. Qed.

Lemma show_N_head : forall n, hd_error (show_N n) <> Some (byte_of_N 60).
Proof. intros n H. assert (D := show_digit n). destruct (show_N n) as [|b l]; [discriminate|]. inversion H; subst. inversion D; subst. destruct H2 as [_ X]. vm_compute in X. apply X. reflexivity. Qed.
Lemma show_Z_head : forall z, hd_error (show_Z z) <> Some (byte_of_N 60).
Proof. intros z. unfold show_Z. destruct (z <? 0)%Z; [discriminate|apply show_N_head]. Qed.

Lemma form_inj : forall sf, good_floats sf -> forall p q, no_null p -> no_null q -> supported p -> supported q -> form sf p = form sf q -> alike sf p q.
Proof.
  intros sf HF. induction p as [k d cs IH] using pred_ind2. intros [k' d' cs'] HN HN' HS HS' H.
  assert (HC : forall p, no_null p -> supported p -> (exists d cs, p = Pred VAR_REFERENCE d cs) \/ (exists w, const_text sf p w /\ form sf p = [Word w] /\ hd_error w <> Some (byte_of_N 60)) \/
                 (exists k d cs n, p = Pred k d cs /\ operator k = Some n /\ leaf_kind k = false /\ form sf p = [Group (Word n :: flat_map (form sf) cs)])).
  { clear - HF. intros [k d cs] HN HS. destruct HN as [HN _]. destruct k; try contradiction; try (left; eauto; fail).
    all: try (right; right; eexists _, _, _, _; conj_split; reflexivity).
    all: try (right; left; eexists; split; [constructor|]; split; [reflexivity|]; auto using show_Z_head, show_N_head; apply HF).
    all: exfalso; cbn in HS; intuition congruence. }
  destruct (HC _ HN HS) as [(d1 & c1 & E1)|[(w & CT & F & HH)|(k1 & d1 & c1 & n1 & E1 & O1 & L1 & F1)]];
  destruct (HC _ HN' HS') as [(d2 & c2 & E2)|[(w2 & CT2 & F2 & HH2)|(k2 & d2 & c2 & n2 & E2 & O2 & L2 & F2)]].
  - inversion E1; inversion E2; subst. cbn in H. inversion H as [H1]. apply app_inj_tail in H1. destruct H1 as [H1 _]. apply show_N_inj in H1. subst. constructor.
  - exfalso. rewrite F2 in H. inversion E1; subst. cbn in H. inversion H as [H1]. subst w2. apply HH2. reflexivity.
  - exfalso. rewrite F2 in H. inversion E1; subst. discriminate.
  - exfalso. rewrite F in H. inversion E2; subst. cbn in H. inversion H as [H1]. subst w. apply HH. reflexivity.
  - rewrite F, F2 in H. inversion H; subst. eapply al_const; eassumption.
  - exfalso. rewrite F, F2 in H. discriminate.
  - exfalso. rewrite F1 in H. inversion E2; subst. discriminate.
  - exfalso. rewrite F1, F2 in H. discriminate.
  - inversion E1; inversion E2; subst. rewrite F1, F2 in H. inversion H as [[H1 H2]]. subst n2. assert (k2 = k1) by (eapply operator_inj; eassumption). subst k2. apply al_op; [exact L1|].
    cbn [no_null] in HN, HN'. fold all_nonnull in HN, HN'. rewrite L1 in HN, HN'. destruct HN as [_ [X|HN]]; [discriminate|]. destruct HN' as [_ [X|HN']]; [discriminate|].
    apply all_nonnull_Forall in HN. apply all_nonnull_Forall in HN'.
    cbn [supported] in HS, HS'. fold all_supported in HS, HS'. rewrite L1 in HS, HS'. destruct HS as [X|(_ & _ & _ & HS)]; [discriminate|]. destruct HS' as [X|(_ & _ & _ & HS')]; [discriminate|].
    apply all_Forall in HS. apply all_Forall in HS'.
    assert (ONE : forall p, no_null p -> supported p -> exists t, form sf p = [t]).
    { intros p Hn Hs. destruct (HC p Hn Hs) as [(x & y & ->)|[(w & _ & E & _)|(a & b & c & e & _ & _ & _ & E)]]; eauto. cbn; eauto. }
    clear - IH HN HN' HS HS' H2 ONE. revert c2 HN' HS' H2. induction IH as [|c l Hc _ IHl]; intros [|c' l'] HN' HS' H2; cbn [flat_map] in H2.
    + constructor.
    + exfalso. inversion HN'; inversion HS'; subst. destruct (ONE c') as [t Et]; auto. rewrite Et in H2. discriminate.
    + exfalso. inversion HN; inversion HS; subst. destruct (ONE c) as [t Et]; auto. rewrite Et in H2. discriminate.
    + inversion HN; inversion HS; inversion HN'; inversion HS'; subst. destruct (ONE c) as [t Et]; auto. destruct (ONE c') as [t' Et']; auto.
      assert (form sf c = form sf c') by (rewrite Et, Et' in *; inversion H2; reflexivity).
      constructor; [apply Hc; auto|]. apply IHl; auto. rewrite Et, Et' in H2. inversion H2. reflexivity.
Qed.
