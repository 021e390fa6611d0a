(** Databases built through the C API can be stored. *)
From Verif Require Import BaseProofs Types Stream Reader SkipList FormatSpec AMap ReaderProps Compare Order OrderSpec OrderProofs Predicate PredSpec PredProofs Query QueryProofs2 CApi CApiSpec CApiProofs3 CApiProofs4 Archive ArchiveSpec ArchiveProofs.

Lemma le_val_lt : forall bs, le_val bs < 2 ^ (8 * lenN bs).
Proof. intro bs. pose proof (le_val_bound bs) as H. rewrite pow_two8 in H. exact H. Qed.

(** What holds of the members of a trace, whatever its length. *)
Definition sound (t : trace N) : Prop :=
  Forall nul_free (tr_names t) /\ Forall type_in_range (tr_types t) /\
  (lenN (tr_types t) < 2 ^ 32 -> Forall (fun p => p_counter p < lenN (tr_points t) /\ p_stmt p < 2 ^ 64 /\ Forall bufsz_in_range (p_sizes p) /\
    Forall (fun v => var_in_range v /\ var_ok v) (p_vars p) /\ Forall (fun u => u < 2 ^ 64) (p_aux p)) (tr_points t)).

Lemma counters : forall types i h pts ps, points_of types i h pts ps -> Forall (fun p => p_counter p < i + lenN ps) ps.
Proof.
  intros types i h pts ps H. induction H as [|i h es p pts ps (HC & _) _ IH]; [constructor|]. rewrite lenN_cons. constructor; [lia|].
  eapply Forall_impl; [|exact IH]. cbn beta. intros q Hq. lia.
Qed.

Lemma records_range : forall ok names types es, Forall (entry_wf ok names types) es ->
  Forall bufsz_in_range (map (fun r => mkB (fst r) (snd r)) (records es)).
Proof.
  intros ok names types es H. induction H as [|e es HE _ IH]; [constructor|]. destruct e; cbn [records]; try exact IH. cbn [map]. constructor; [|exact IH].
  exact HE.
Qed.
Lemma aux_range : forall ok names types es, Forall (entry_wf ok names types) es -> Forall (fun u => u < 2 ^ 64) (aux_of es).
Proof. intros ok names types es H. induction H as [|e es HE _ IH]; [constructor|]. destruct e; cbn [aux_of]; try exact IH. constructor; [exact HE|exact IH]. Qed.
Lemma stmt_range : forall ok names types es u, Forall (entry_wf ok names types) es -> stmt_of es = Some u -> u < 2 ^ 64.
Proof.
  intros ok names types es u H. induction H as [|e es HE _ IH]; [discriminate|]. cbn [stmt_of]. destruct (stmt_of es); [exact IH|]. destruct e; try discriminate.
  intro X. inversion X; subst. exact HE.
Qed.

Lemma var_range : forall ok names types h nm ty data v, Forall type_wf types -> entry_wf ok names types (EVar nm ty data) ->
  var_of types h nm ty data v -> var_in_range v.
Proof.
  intros ok names types h nm ty data v HT (W1 & W2 & _ & t & W3 & W4) (V1 & V2 & V3 & t' & V4 & V5 & V6 & V7 & V8).
  rewrite W3 in V4. inversion V4; subst t'. clear V4. assert (HW : type_wf t) by (rewrite Forall_forall in HT; apply HT; eapply nthN_In; exact W3).
  destruct HW as (T1 & T2 & T3).
  assert (HB : v_bsz v < 2 ^ 64 /\ v_has v < 2 ^ 8).
  { destruct (t_fmt t) eqn:EF; try (destruct V8 as [-> ->]; [discriminate|]; split; reflexivity). specialize (V7 eq_refl).
    inversion V7; subst; split; try reflexivity; try lia. }
  assert (HL : lenN data < 2 ^ 32 /\ match v_val v with VBits u => v_fmt v <> BLOB /\ u < 2 ^ 64 | VBlob bs => v_fmt v = BLOB /\ lenN bs = v_size v | VIndet => False end).
  { rewrite V5, V3. unfold data_wf in W4. unfold value_of in V6. destruct (t_fmt t).
    - destruct W4 as [W0 W4]. split; [rewrite W0; exact T2|]. rewrite V6. split; [discriminate|]. eapply N.lt_le_trans; [apply le_val_lt|]. apply N.pow_le_mono_r; [discriminate|]. lia.
    - destruct W4 as [W0 W4]. split; [rewrite W0; exact T2|]. destruct V6 as (u & -> & Hu & _). split; [discriminate|exact Hu].
    - destruct W4 as [W0 W4]. split; [rewrite W0; exact T2|]. rewrite V6. split; [discriminate|]. eapply N.lt_le_trans; [apply le_val_lt|]. apply N.pow_le_mono_r; [discriminate|]. lia.
    - destruct W4 as [W0 W4]. split; [rewrite W0; exact T2|]. rewrite V6. split; [discriminate|]. eapply N.lt_le_trans; [apply le_val_lt|]. apply N.pow_le_mono_r; [discriminate|]. lia.
    - rewrite V6. split; [|split; reflexivity]. destruct W4 as [[[_ W4]|[_ ->]] _]; [exact W4|exact T2].
    - destruct V6. }
  destruct HL as [HL HV]. unfold var_in_range. rewrite V1, V2, V3. rewrite V3 in HV. conj_split; try assumption; apply HB.
Qed.

Lemma accepted_sound : forall ok max bs tr garbage, (forall i, garbage i < 2 ^ 64) -> accepted ok max bs tr -> sound (settle garbage tr).
Proof.
  intros ok max bs tr garbage HG HA. split; [apply (accepted_names ok max bs); exact HA|]. split.
  - cbn [settle tr_types]. assert (HW : forall types, Forall type_wf types -> Forall type_in_range types) by (intros ty HW; eapply Forall_impl; [|exact HW]; intros t (A & B & _); split; assumption).
    destruct HA as [F es HF _ _ _ _ HD|F rest HF _ _ _ HD|names k HN _ _ ->|names types t part missing HN HT HP _ _ ->].
    + destruct HD as (_ & -> & _). apply HW. apply HF.
    + destruct HD as (_ & -> & _). apply HW. apply HF.
    + constructor.
    + cbn [tr_types]. destruct HT as (HT & _). apply Forall_app in HT. destruct HT as [H1 H2]. apply Forall_app. split; [apply HW; exact H1|].
      inversion H2 as [|? ? (A & B & _) _]; subst. constructor; [|constructor]. split; [exact A|]. cbn [t_size].
      eapply N.lt_le_trans; [apply le_val_lt|]. apply N.pow_le_mono_r; [discriminate|]. apply (f_equal (@length byte)) in HP. rewrite app_length, le_bytes_length in HP. unfold lenN. lia.
  - intros _. destruct (accepted_denotes _ _ _ _ HA) as [(F & HF & HD)|HE]; [|cbn [settle tr_points]; rewrite HE; constructor].
    apply Forall_forall. intros q Hq. cbn [settle tr_points] in *. rewrite lenN_map. apply in_map_iff in Hq. destruct Hq as (p & <- & Hp).
    destruct HD as (_ & _ & HD). destruct HF as (_ & (HT & _) & HW & _).
    pose proof (counters _ _ _ _ _ HD) as HC. rewrite Forall_forall in HC. specialize (HC p Hp). cbn beta in HC.
    destruct (points_of_in _ _ _ _ _ _ HD Hp) as (j & h & es & Hes & (P1 & P2 & P3 & P4 & P5)).
    rewrite Forall_forall in HW. specialize (HW es Hes). unfold map_stmt. cbn [p_counter p_stmt p_sizes p_vars p_aux].
    conj_split.
    + lia.
    + rewrite P2. destruct (stmt_of es) as [u|] eqn:ES; [|apply HG]. eapply stmt_range; [exact HW|exact ES].
    + rewrite P3. eapply records_range. exact HW.
    + apply Forall_forall. intros v Hv. destruct (vars_of_in _ _ _ _ _ P4 Hv) as (h' & nm & ty & data & X & Y). rewrite Forall_forall in HW. specialize (HW _ X).
      split; [eapply var_range; [exact HT|exact HW|exact Y]|]. eapply var_of_ok; [|exact Y]. exact HW.
    + rewrite P5. eapply aux_range. exact HW.
Qed.

Lemma imported_sound : forall names ps tr, call_in_range (CAddPoints names ps) -> imports names ps tr -> sound tr.
Proof.
  intros names ps tr HR HI. cbn [call_in_range] in HR.
  assert (HW : words_ok ps). { eapply Forall_impl; [|exact HR]. intros p (_ & _ & H). eapply Forall_impl; [|exact H]. intros v (_ & _ & _ & _ & X). exact X. }
  pose proof (imported_vars_ok _ _ _ HW HI) as HV. destruct HI as (HN & (HD & HT1 & HT2) & HI). split; [|split].
  - rewrite HN. apply Forall_forall. intros n Hn. apply in_map_iff in Hn. destruct Hn as (m & <- & _). clear.
    induction m as [|b m IH]; [intros []|]. cbn [c_string]. destruct (N.eqb_spec (N_of_byte b) 0) as [E|E]; [intros []|]. intros [-> |X]; [apply E; reflexivity|exact (IH X)].
  - apply Forall_forall. intros t Ht. rewrite Forall_forall in HT2. destruct (HT2 t Ht) as (H8 & _). split; [|rewrite H8; reflexivity].
    assert (HX : In (t_name t) (map t_name (tr_types tr))) by (apply in_map; exact Ht). apply HT1 in HX. destruct HX as (p & v & Hp & Hv & <-).
    rewrite Forall_forall in HR. destruct (HR p Hp) as (_ & _ & H). rewrite Forall_forall in H. apply (H v Hv).
  - intro HL. assert (G : forall i ps qs, imported (tr_types tr) i ps qs ->
      Forall (fun p => ip_stmt p < 2 ^ 64 /\ lenN (ip_vars p) < 2 ^ 64 /\
        Forall (fun v => cv_name v < 2 ^ 32 /\ cv_tname v < 2 ^ 32 /\ cv_bsz v < 2 ^ 64 /\ cv_has v < 2 ^ 8 /\ exists u, cv_value v = VBits u /\ u < 2 ^ 64) (ip_vars p)) ps ->
      Forall (fun p => Forall var_ok (p_vars p)) qs ->
      Forall (fun p => p_counter p < i + lenN qs /\ p_stmt p < 2 ^ 64 /\ Forall bufsz_in_range (p_sizes p) /\
        Forall (fun v => var_in_range v /\ var_ok v) (p_vars p) /\ Forall (fun u => u < 2 ^ 64) (p_aux p)) qs).
    { clear HR HW HV HI. intros i ps' qs H. induction H as [|i p q ps' qs C1 C2 C3 C4 C5 _ IH]; intros HR HV; [constructor|].
      inversion HR as [|? ? (R1 & R2 & R3) HR']; subst. inversion HV as [|? ? HV1 HV']; subst. rewrite lenN_cons. constructor.
      - split; [lia|]. split; [rewrite C2; exact R1|]. rewrite C3, C4. split; [constructor|]. split; [|constructor].
        clear - C5 R3 HV1 HL HT2. induction C5 as [|c v cs vs (A1 & A2 & A3 & A4 & A5 & t & A6 & A7 & A8) _ IH]; [constructor|].
        inversion R3 as [|? ? (R1 & R2 & R4 & R5 & u & R6 & R7) R3']; subst. inversion HV1; subst. constructor; [|apply IH; assumption].
        split; [|assumption]. unfold var_in_range. rewrite A1, A2, A3, A4, A5, R6. conj_split; try assumption; try reflexivity.
        + apply nthN_Some_lt in A6. eapply N.lt_trans; [exact A6|exact HL].
        + rewrite A8. apply nthN_In in A6. rewrite Forall_forall in HT2. destruct (HT2 _ A6) as (_ & [(-> & _)|(-> & _)]); discriminate.
      - eapply Forall_impl; [|apply IH; assumption]. cbn beta. intros x (X1 & X2). split; [lia|exact X2]. }
    specialize (G _ _ _ HI HR HV). eapply Forall_impl; [|exact G]. cbn beta. intros x (X1 & X2). split; [lia|exact X2].
Qed.

Lemma effects_sound : forall ok ts cs l ts', effects ok ts cs l ts' -> Forall call_in_range cs -> Forall sound ts -> Forall sound ts'.
Proof.
  intros ok ts cs l ts' H. induction H as [|ts c a new cs l ts' HE _ IH]; intros HR HS; [exact HS|].
  inversion HR as [|? ? HR1 HR2]; subst. apply IH; [exact HR2|]. apply Forall_app. split; [exact HS|].
  destruct c as [file max garbage|names ps|i q|i|]; cbn [effect] in HE.
  - destruct HE as [(_ & bs & t & tr & _ & HA & ->)|(_ & -> & _)]; constructor; [|constructor]. eapply accepted_sound; [exact HR1|exact HA].
  - destruct HE as (_ & tr & -> & HI). constructor; [|constructor]. eapply imported_sound; [exact HR1|]. apply HI.
    eapply Forall_impl; [|exact HR1]. intros p (_ & _ & X). eapply Forall_impl; [|exact X]. intros v (_ & _ & _ & _ & Y). exact Y.
  - destruct HE as (-> & _). constructor.
  - destruct HE as (-> & _). constructor.
  - destruct HE as (-> & _). constructor.
Qed.

Lemma lenN_concat_In : forall A (l : list (list A)) x, In x l -> lenN x <= lenN (concat l).
Proof.
  intros A l x. induction l as [|y l IH]; intros []; cbn [concat]; rewrite lenN_app; [subst; lia|]. specialize (IH H). lia.
Qed.

Lemma sound_storable : forall ts, Forall sound ts -> not_huge ts -> storable ts.
Proof.
  intros ts HS (H1 & H2 & H3). split; [exact H1|]. split; [exact H2|].
  rewrite Forall_forall in HS, H3. split.
  - apply Forall_forall. intros t Ht. destruct (HS t Ht) as (A1 & A2 & A3). destruct (H3 t Ht) as (B1 & B2 & B3 & B4). specialize (A3 B2).
    assert (HL : lenN (tr_points t) < 2 ^ 64). { eapply N.le_lt_trans; [|exact H2]. apply lenN_concat_In. apply in_map. exact Ht. }
    unfold trace_in_range. conj_split; try assumption.
    + apply Forall_forall. intros n Hn. rewrite Forall_forall in A1, B3. split; [exact (A1 n Hn)|exact (B3 n Hn)].
    + apply Forall_forall. intros p Hp. rewrite Forall_forall in A3, B4. destruct (A3 p Hp) as (X1 & X2 & X3 & X4 & X5). destruct (B4 p Hp) as (Y1 & Y2 & Y3).
      unfold point_in_range. conj_split; try assumption; [lia|]. eapply Forall_impl; [|exact X4]. intros v [Z _]. exact Z.
  - intros t u p q Ht Hu Hp Hq E. destruct (HS t Ht) as (_ & _ & A). destruct (HS u Hu) as (_ & _ & B).
    specialize (A (proj1 (proj2 (H3 t Ht)))). specialize (B (proj1 (proj2 (H3 u Hu)))). rewrite Forall_forall in A, B.
    destruct (A p Hp) as (_ & _ & _ & A1 & _). destruct (B q Hq) as (_ & _ & _ & B1 & _).
    unfold data_eqb in E. apply andb_prop in E. destruct E as [E E3]. apply andb_prop in E. destruct E as [E1 E2].
    apply (list_eqb_iff _ _ bufsz_eqb_iff) in E1. apply (list_eqb_iff _ _ N.eqb_eq) in E3. split; [exact E1|]. split; [|exact E3].
    apply (list_eqb_dist _ _ _ var_dist); [| |exact E2]; (eapply Forall_impl; [|eassumption]); intros v [_ Z]; exact Z.
Qed.

Lemma history_storable : forall St sat ok coins pos grow pick hash cs st l d st',
  do_calls St sat ok (skip_map coins pos) grow pick hash create_db st cs = Ok (l, d, st') ->
  Forall call_in_range cs -> not_huge (traces d) -> storable (traces d).
Proof.
  intros St sat ok coins pos grow pick hash cs st l d st' H HR HN. apply do_calls_effects in H. apply sound_storable; [|exact HN].
  eapply effects_sound; [exact H|exact HR|constructor].
Qed.
