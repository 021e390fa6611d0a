(** Proofs about predicate values that own memory. *)
From Verif Require Import BaseProofs Types Compare Predicate PredProofs Owned OwnedSpec.

Section P.
Variable O : fops.
Variable elide : nat -> bool.
Notation heap := (heap O).
Notation num := (num O).
Notation own := (own O).

Definition hwf (h : heap) : Prop := Forall (fun e => fst e < h_next O h) (h_live O h) /\ NoDup (map fst (h_live O h)).

Definition owns (o : obj) (x : pval O) (b : list (N * num)) : Prop :=
  match x with
  | PInvalid => o = new_invalid /\ b = []
  | PInt z => exists a, o = mkO true true (Some a) /\ b = [(a, NInt O z)]
  | PFloat y => exists a, o = mkO true false (Some a) /\ b = [(a, NFloat O y)]
  end.
Definition plain {X} (a x : X) (b : list (N * num)) : Prop := a = x /\ b = [].

Definition sim {A X} (Q : A -> X -> list (N * num) -> Prop) (L : list (N * num)) (r : outcome (A * heap)) (o : outcome X) (bad : Prop) : Prop :=
  (r = UB UNull /\ bad) \/
  match o with
  | Ok x => exists a h b, r = Ok (a, h) /\ Q a x b /\ h_live O h = b ++ L /\ hwf h
  | Throw e => r = Throw e
  | UB k => r = UB k
  | Abort => r = Abort
  | Diverge => r = Diverge
  end.

Lemma sim_bind {A X B Y} (Q : A -> X -> list (N * num) -> Prop) (Q' : B -> Y -> list (N * num) -> Prop) L L' (m : own A) (f : A -> own B) o g bad h :
  sim Q L (m h) o bad ->
  (forall a x h' b, o = Ok x -> Q a x b -> h_live O h' = b ++ L -> hwf h' -> sim Q' L' (f a h') (g x) bad) ->
  sim Q' L' (obind O m f h) (bind o g) bad.
Proof.
  intros [[E B']|S] K; unfold obind.
  - left. rewrite E. auto.
  - destruct o as [x|e|k| |].
    + destruct S as (a & h' & b & -> & HQ & HL & W). cbn [bind]. exact (K a x h' b eq_refl HQ HL W).
    + rewrite S. right. reflexivity.
    + rewrite S. right. reflexivity.
    + rewrite S. right. reflexivity.
    + rewrite S. right. reflexivity.
Qed.
Lemma sim_then {A X B Y} (Q : A -> X -> list (N * num) -> Prop) (Q' : B -> Y -> list (N * num) -> Prop) L L' (m : own A) (f : A -> own B) x o' bad h :
  sim Q L (m h) (Ok x) bad ->
  (forall a h' b, Q a x b -> h_live O h' = b ++ L -> hwf h' -> sim Q' L' (f a h') o' bad) ->
  sim Q' L' (obind O m f h) o' bad.
Proof.
  intros S K. apply (sim_bind Q Q' L L' m f (Ok x) (fun _ => o') bad h S).
  intros a y h' b E. injection E as <-. apply K.
Qed.
Lemma sim_ret {A X} (Q : A -> X -> list (N * num) -> Prop) L a x bad h b : Q a x b -> h_live O h = b ++ L -> hwf h -> sim Q L (oret O a h) (Ok x) bad.
Proof. intros HQ HL W. right. exists a, h, b. repeat split; auto; apply W. Qed.

Lemma filter_ne a (A : list (N * num)) : ~ In a (map fst A) -> filter (fun e => negb (fst e =? a)) A = A.
Proof.
  induction A as [|x A IH]; intros H; [reflexivity|]. cbn [map In filter] in *. destruct (N.eqb_spec (fst x) a) as [E|E]; [tauto|].
  cbn [negb]. rewrite IH by tauto. reflexivity.
Qed.
Lemma delete_at h A a n B : hwf h -> h_live O h = A ++ (a, n) :: B ->
  exists h', delete_num O (Some a) h = Ok (tt, h') /\ h_live O h' = A ++ B /\ hwf h'.
Proof.
  intros [W ND] HL. unfold delete_num. rewrite HL, existsb_app. cbn [existsb fst]. rewrite N.eqb_refl. cbn [orb]. rewrite orb_true_r.
  rewrite HL in W, ND. rewrite map_app in ND. cbn [map fst] in ND. pose proof (NoDup_remove _ _ _ ND) as [ND' NI].
  rewrite filter_app. cbn [filter fst]. rewrite N.eqb_refl. cbn [negb]. rewrite in_app_iff in NI.
  rewrite !filter_ne by tauto. eexists. split; [reflexivity|]. split; [reflexivity|]. split; cbn [h_live h_next].
  - apply Forall_app in W. destruct W as [W1 W2]. inversion W2; subst. apply Forall_app. auto.
  - rewrite map_app. exact ND'.
Qed.
Lemma deref_at h A a n B : hwf h -> h_live O h = A ++ (a, n) :: B -> deref O (Some a) h = Ok (n, h).
Proof.
  intros [_ ND] HL. unfold deref. rewrite HL in *. rewrite map_app in ND. cbn [map fst] in ND. apply NoDup_remove_2 in ND. rewrite in_app_iff in ND.
  assert (~ In a (map fst A)) as NI by tauto. clear - NI.
  induction A as [|x A IH]; cbn [app find fst].
  - rewrite N.eqb_refl. reflexivity.
  - cbn [map In] in NI. destruct (N.eqb_spec (fst x) a); [tauto|]. apply IH. tauto.
Qed.
Lemma alloc_spec h n : hwf h -> exists h', alloc_num O n h = Ok (h_next O h, h') /\ h_live O h' = (h_next O h, n) :: h_live O h /\ hwf h'.
Proof.
  intros [W ND]. eexists. split; [reflexivity|]. split; [reflexivity|]. split; cbn [h_live h_next].
  - constructor; [cbn; lia|]. eapply Forall_impl; [|exact W]. cbn. intros; lia.
  - cbn [map fst]. constructor; [|exact ND]. intros I. apply in_map_iff in I. destruct I as (e & E & I). rewrite Forall_forall in W. specialize (W _ I). lia.
Qed.
Lemma new_int_sim h L z bad : hwf h -> h_live O h = L -> sim owns L (new_int O z h) (Ok (PInt z)) bad.
Proof.
  intros W HL. right. destruct (alloc_spec h (NInt O z) W) as (h' & E & HL' & W'). unfold new_int, obind. rewrite E.
  eexists _, h', _. split; [reflexivity|]. split; [eexists; split; reflexivity|]. split; [rewrite HL', HL; reflexivity|exact W'].
Qed.
Lemma new_float_sim h L z bad : hwf h -> h_live O h = L -> sim owns L (new_float O z h) (Ok (PFloat z)) bad.
Proof.
  intros W HL. right. destruct (alloc_spec h (NFloat O z) W) as (h' & E & HL' & W'). unfold new_float, obind. rewrite E.
  eexists _, h', _. split; [reflexivity|]. split; [eexists; split; reflexivity|]. split; [rewrite HL', HL; reflexivity|exact W'].
Qed.

Definition some_copy : Prop := exists n, elide n = false.
Lemma pass_sim o x b L h (bad : Prop) : owns o x b -> h_live O h = b ++ L -> hwf h -> (x = PInvalid -> some_copy -> bad) ->
  sim owns L (pass O elide o h) (Ok x) bad.
Proof.
  intros HO HL W HB. unfold pass. set (h' := mkH O _ _ _).
  assert (W' : hwf h') by exact W. assert (HL' : h_live O h' = b ++ L) by exact HL. clearbody h'.
  destruct (elide (h_copies O h)) eqn:EE.
  - right. exists o, h', b. auto.
  - destruct x as [|z|y].
    + destruct HO as [-> ->]. left. split; [reflexivity|]. apply HB; [reflexivity|]. exists (h_copies O h). exact EE.
    + destruct HO as (a & -> & ->). right. unfold copy, obind. cbn [o_int o_ptr o_valid]. unfold deref_int, obind.
      rewrite (deref_at h' [] a _ L W' HL'). unfold oret. destruct (alloc_spec h' (NInt O z) W') as (h1 & -> & HL1 & W1). rewrite HL' in HL1.
      unfold destroy. cbn [o_ptr]. destruct (delete_at h1 [(h_next O h', NInt O z)] a (NInt O z) L W1) as (h2 & -> & HL2 & W2); [exact HL1|].
      eexists _, h2, _. split; [reflexivity|]. split; [eexists; split; reflexivity|]. split; [exact HL2|exact W2].
    + destruct HO as (a & -> & ->). right. unfold copy, obind. cbn [o_int o_ptr o_valid]. unfold deref_float, obind.
      rewrite (deref_at h' [] a _ L W' HL'). unfold oret. destruct (alloc_spec h' (NFloat O y) W') as (h1 & -> & HL1 & W1). rewrite HL' in HL1.
      unfold destroy. cbn [o_ptr]. destruct (delete_at h1 [(h_next O h', NFloat O y)] a (NFloat O y) L W1) as (h2 & -> & HL2 & W2); [exact HL1|].
      eexists _, h2, _. split; [reflexivity|]. split; [eexists; split; reflexivity|]. split; [exact HL2|exact W2].
Qed.
Lemma destroy_spec o x b A L h : owns o x b -> hwf h -> h_live O h = A ++ b ++ L ->
  exists h', destroy O o h = Ok (tt, h') /\ h_live O h' = A ++ L /\ hwf h'.
Proof.
  intros HO W HL. unfold destroy. destruct x as [|z|y].
  - destruct HO as [-> ->]. exists h. auto.
  - destruct HO as (a & -> & ->). exact (delete_at h A a _ L W HL).
  - destruct HO as (a & -> & ->). exact (delete_at h A a _ L W HL).
Qed.

(** ** Operations on two live objects *)
Definition held (h : heap) (o : obj) (x : pval O) : Prop := exists A b B, owns o x b /\ h_live O h = A ++ b ++ B.
Lemma deref_int_held h o z : hwf h -> held h o (PInt z) -> deref_int O (o_ptr o) h = Ok (z, h).
Proof.
  intros W (A & b & B & (a & -> & ->) & HL). unfold deref_int, obind. cbn [o_ptr]. rewrite (deref_at h A a _ B W HL). reflexivity.
Qed.
Lemma deref_float_held h o z : hwf h -> held h o (PFloat z) -> deref_float O (o_ptr o) h = Ok (z, h).
Proof.
  intros W (A & b & B & (a & -> & ->) & HL). unfold deref_float, obind. cbn [o_ptr]. rewrite (deref_at h A a _ B W HL). reflexivity.
Qed.
Definition fl (x : pval O) : F O -> Prop := fun y => match x with PInvalid => False | PInt z => y = f_of_Z O z | PFloat x => y = x end.
Lemma as_float_held h o x y : hwf h -> held h o x -> fl x y -> as_float O o h = Ok (y, h).
Proof.
  intros W H E. destruct x as [|z|x]; cbn [fl] in E; [tauto| |].
  - subst y. pose proof (deref_int_held h o z W H) as D. destruct H as (A & b & B & (a & -> & ->) & HL). unfold as_float. cbn [o_int]. unfold obind. rewrite D. reflexivity.
  - subst y. pose proof (deref_float_held h o x W H) as D. destruct H as (A & b & B & (a & -> & ->) & HL). unfold as_float. cbn [o_int]. exact D.
Qed.
Lemma held_valid h o x : held h o x -> o_valid o = match x with PInvalid => false | _ => true end.
Proof. intros (A & b & B & HO & _). destruct x; destruct HO as [? ?]; [subst; reflexivity| |]; intuition subst; reflexivity. Qed.
Lemma held_int h o x : held h o x -> o_int o = match x with PFloat _ => false | _ => true end.
Proof. intros (A & b & B & HO & _). destruct x; destruct HO as [? ?]; [subst; reflexivity| |]; intuition subst; reflexivity. Qed.

Lemma invalid_sim h L (bad : Prop) : hwf h -> h_live O h = L -> (some_copy -> bad) -> sim owns L (pass O elide new_invalid h) (Ok PInvalid) bad.
Proof. intros W HL HB. apply (pass_sim new_invalid PInvalid []); auto. split; reflexivity. Qed.

Definition op_sim (op : obj -> obj -> own obj) (f : pval O -> pval O -> pval O) : Prop :=
  forall h L a b x y (bad : Prop), hwf h -> h_live O h = L -> held h a x -> held h b y -> (f x y = PInvalid -> some_copy -> bad) ->
    sim owns L (op a b h) (Ok (f x y)) bad.

Lemma new_pass2 (m : own obj) x L h (bad : Prop) : sim owns L (m h) (Ok x) bad -> (x = PInvalid -> some_copy -> bad) ->
  sim owns L (obind O m (pass O elide) h) (Ok x) bad.
Proof. intros S HB. apply (sim_then owns owns L L m _ x _ bad h S). intros o h' b HO HL W. apply (pass_sim o x b); auto. Qed.

Lemma arith_sim iop fop : op_sim (o_arith O elide iop fop) (arith O iop fop).
Proof.
  intros h L a b x y bad W HL Ha Hb HB. unfold o_arith. apply new_pass2; [|exact HB]. unfold operation.
  rewrite (held_valid _ _ _ Ha), (held_valid _ _ _ Hb), (held_int _ _ _ Ha), (held_int _ _ _ Hb).
  assert (FL : forall u v r, fl x u -> fl y v -> r = arith O iop fop x y -> r = PFloat (fop u v) ->
     sim owns L ((obind O (as_float O a) (fun u => obind O (as_float O b) (fun v => obind O (new_float O (fop u v)) (fun r => obind O (pass O elide r) (pass O elide))))) h) (Ok r) bad).
  { intros u v r Hu Hv Hr Hr'. unfold obind at 1. rewrite (as_float_held _ _ _ _ W Ha Hu). unfold obind at 1. rewrite (as_float_held _ _ _ _ W Hb Hv).
    rewrite Hr'. apply (sim_then owns owns L L _ _ _ _ bad h (new_float_sim h L (fop u v) bad W HL)).
    intros o h' b' HO HL' W'. apply new_pass2; [|discriminate]. apply (pass_sim o _ b'); auto; discriminate. }
  destruct x as [|x|x], y as [|y|y]; cbn [negb andb arith]; try (apply invalid_sim; auto; apply HB; reflexivity).
  - unfold obind at 1. rewrite (deref_int_held _ _ _ W Ha). unfold obind at 1. rewrite (deref_int_held _ _ _ W Hb).
    apply (sim_then owns owns L L _ _ _ _ bad h (new_int_sim h L (iop x y) bad W HL)).
    intros o h' b' HO HL' W'. apply new_pass2; [|discriminate]. apply (pass_sim o _ b'); auto; discriminate.
  - apply (FL (f_of_Z O x) y); reflexivity.
  - apply (FL x (f_of_Z O y)); reflexivity.
  - apply (FL x y); reflexivity.
Qed.

Lemma div_sim : op_sim (o_div O elide) (p_div O).
Proof.
  intros h L a b x y bad W HL Ha Hb HB. unfold o_div.
  rewrite (held_valid _ _ _ Ha), (held_valid _ _ _ Hb), (held_int _ _ _ Hb).
  assert (FL : forall u v, fl x u -> fl y v -> 
     sim owns L ((obind O (as_float O a) (fun u => obind O (as_float O b) (fun v => obind O (new_float O (f_div O u v)) (pass O elide)))) h) (Ok (PFloat (f_div O u v))) bad).
  { intros u v Hu Hv. unfold obind at 1. rewrite (as_float_held _ _ _ _ W Ha Hu). unfold obind at 1. rewrite (as_float_held _ _ _ _ W Hb Hv).
    apply (sim_then owns owns L L _ _ _ _ bad h (new_float_sim h L (f_div O u v) bad W HL)).
    intros o h' b' HO HL' W'. apply (pass_sim o _ b'); auto; discriminate. }
  destruct x as [|x|x], y as [|y|y]; cbn [negb andb p_div]; try (apply invalid_sim; auto; apply HB; reflexivity).
  - unfold obind at 1. unfold obind at 1. rewrite (deref_int_held _ _ _ W Hb). cbn [oret].
    destruct (Z.eqb_spec y 0) as [->|E].
    + apply invalid_sim; auto.
    + destruct y; [congruence|exact (FL (f_of_Z O x) _ eq_refl eq_refl)|exact (FL (f_of_Z O x) _ eq_refl eq_refl)].
  - unfold obind at 1. unfold obind at 1. rewrite (deref_float_held _ _ _ W Hb). cbn [oret].
    cbn [p_div] in HB. destruct (f_is_zero O y); [apply invalid_sim; auto|]. exact (FL (f_of_Z O x) y eq_refl eq_refl).
  - unfold obind at 1. unfold obind at 1. rewrite (deref_int_held _ _ _ W Hb). cbn [oret].
    destruct (Z.eqb_spec y 0) as [->|E].
    + apply invalid_sim; auto.
    + destruct y; [congruence|exact (FL x _ eq_refl eq_refl)|exact (FL x _ eq_refl eq_refl)].
  - unfold obind at 1. unfold obind at 1. rewrite (deref_float_held _ _ _ W Hb). cbn [oret].
    cbn [p_div] in HB. destruct (f_is_zero O y); [apply invalid_sim; auto|]. exact (FL x y eq_refl eq_refl).
Qed.

Lemma functor_sim op f : op_sim op f -> op_sim (functor O elide op) f.
Proof.
  intros HS h L a b x y bad W HL Ha Hb HB. unfold functor.
  apply (sim_then owns owns L L _ _ _ _ bad h (HS h L a b x y bad W HL Ha Hb HB)).
  intros o h' b' HO HL' W'. apply new_pass2; [|exact HB]. apply (pass_sim o _ b'); auto.
Qed.

Lemma comparison_sim iop fop h L a b x y bad : hwf h -> h_live O h = L -> held h a x -> held h b y ->
  sim plain L (comparison O iop fop a b h) (Ok (compare O iop fop x y)) bad.
Proof.
  intros W HL Ha Hb. unfold comparison.
  rewrite (held_valid _ _ _ Ha), (held_valid _ _ _ Hb), (held_int _ _ _ Ha), (held_int _ _ _ Hb).
  assert (R : forall c : bool, sim plain L (oret O c h) (Ok c) bad) by (intros c; apply (sim_ret plain L c c bad h []); [split; reflexivity|exact HL|exact W]).
  destruct x as [|x|x], y as [|y|y]; cbn [negb andb compare]; try apply R.
  - unfold obind at 1. rewrite (deref_int_held _ _ _ W Ha). unfold obind at 1. rewrite (deref_int_held _ _ _ W Hb). apply R.
  - unfold obind at 1. rewrite (as_float_held _ _ _ (f_of_Z O x) W Ha eq_refl). unfold obind at 1. rewrite (as_float_held _ _ _ y W Hb eq_refl). apply R.
  - unfold obind at 1. rewrite (as_float_held _ _ _ x W Ha eq_refl). unfold obind at 1. rewrite (as_float_held _ _ _ (f_of_Z O y) W Hb eq_refl). apply R.
  - unfold obind at 1. rewrite (as_float_held _ _ _ x W Ha eq_refl). unfold obind at 1. rewrite (as_float_held _ _ _ y W Hb eq_refl). apply R.
Qed.

Lemma with_operands_sim {A X} (Q : A -> X -> list (N * num) -> Prop) e0 e1 (f : obj -> obj -> own A) o0 o1 (g : pval O -> pval O -> X) L h (bad : Prop) :
  hwf h -> h_live O h = L ->
  (forall h L, hwf h -> h_live O h = L -> sim owns L (e0 h) o0 bad) ->
  (forall h L, hwf h -> h_live O h = L -> sim owns L (e1 h) o1 bad) ->
  (o0 = Ok PInvalid \/ o1 = Ok PInvalid -> some_copy -> bad) ->
  (forall h L a b x y, o0 = Ok x -> o1 = Ok y -> hwf h -> h_live O h = L -> held h a x -> held h b y -> sim Q L (f a b h) (Ok (g x y)) bad) ->
  sim Q L (with_operands O elide e0 e1 f h) (x <- o0 ;; y <- o1 ;; Ok (g x y)) bad.
Proof.
  intros W HL S0 S1 HB HF. unfold with_operands.
  apply (sim_bind owns Q L L e0 _ o0 _ bad h (S0 h L W HL)). intros v0 x h1 b1 E0 O1 L1 W1.
  apply (sim_then owns Q L L _ _ x _ bad h1); [apply (pass_sim v0 x b1); auto; intros ->; auto|]. intros v0' h2 b2 O2 L2 W2.
  apply (sim_bind owns Q (h_live O h2) L e1 _ o1 _ bad h2 (S1 h2 _ W2 eq_refl)). intros v1 y h3 b3 E1 O3 L3 W3.
  apply (sim_then owns Q (h_live O h2) L _ _ y _ bad h3); [apply (pass_sim v1 y b3); auto; intros ->; auto|]. intros v1' h4 b4 O4 L4 W4.
  rewrite L2 in L4.
  apply (sim_then Q Q (b4 ++ b2 ++ L) L _ _ (g x y) _ bad h4).
  - apply (HF h4 (b4 ++ b2 ++ L) v0' v1' x y E0 E1 W4 L4); [exists b4, b2, L|exists [], b4, (b2 ++ L)]; auto.
  - intros r h5 b5 HQ L5 W5.
    destruct (destroy_spec v1' y b4 b5 (b2 ++ L) h5 O4 W5 L5) as (h6 & D6 & L6 & W6).
    destruct (destroy_spec v0' x b2 b5 L h6 O2 W6 L6) as (h7 & D7 & L7 & W7).
    unfold obind at 1. rewrite D6. unfold obind. rewrite D7. apply (sim_ret Q L r (g x y) bad h7 b5); auto.
Qed.

Variable vars : list var.
Notation inv := (some_invalid O vars).

Lemma fail_sim {A X} (Q : A -> X -> list (N * num) -> Prop) L (k : outcome A) (o : outcome X) h bad :
  match k, o with Abort, Abort => True | UB a, UB b => a = b | _, _ => False end -> sim Q L (ofail O k h) o bad.
Proof. intros H. right. unfold ofail. destruct k, o; try contradiction; subst; reflexivity. Qed.
Lemma ofail_sim {X} L (o : outcome X) h bad : hwf h -> h_live O h = L -> sim plain L (ofail O o h) o bad.
Proof. intros W HL. right. unfold ofail. destruct o; try reflexivity. eexists _, h, []. split; [reflexivity|]. split; [split; reflexivity|]. auto. Qed.

Lemma within_invalid k d cs c : has_operands k -> In c cs -> inv c -> inv (Pred k d cs).
Proof. intros K I (s & Ws & E). exists s. split; [exact (within_child s k d cs c K I Ws)|exact E]. Qed.

Definition bad_of (p : pred) : Prop := some_copy /\ inv p.
Lemma sim_weaken {A X} (Q : A -> X -> list (N * num) -> Prop) L r o (bad bad' : Prop) : (bad -> bad') -> sim Q L r o bad -> sim Q L r o bad'.
Proof. intros H [[E B]|S]; [left; auto|right; exact S]. Qed.

Lemma size_sim v h L (bad : Prop) : hwf h -> h_live O h = L -> (size_value O v = PInvalid -> some_copy -> bad) -> sim owns L (o_size O elide v h) (Ok (size_value O v)) bad.
Proof.
  intros W HL HB. unfold o_size, size_value in *.
  assert (S : sim owns L ((if v_has v =? 0 then oret O new_invalid else new_int O (Z.of_N (v_bsz v))) h) (Ok (if v_has v =? 0 then PInvalid else PInt (Z.of_N (v_bsz v)))) bad).
  { destruct (v_has v =? 0); [apply (sim_ret owns L new_invalid PInvalid bad h []); auto; split; reflexivity|apply new_int_sim; auto]. }
  apply (sim_then owns owns L L _ _ _ _ bad h S). intros o h' b HO HL' W'. apply new_pass2; [|exact HB]. apply (pass_sim o _ b); auto.
Qed.
Lemma value_sim v h L (bad : Prop) : hwf h -> h_live O h = L -> (value_value O v = Ok PInvalid -> some_copy -> bad) -> sim owns L (o_value O elide v h) (value_value O v) bad.
Proof.
  intros W HL HB. unfold o_value.
  assert (S : sim owns L (match v_fmt v with
       | UNSIGNED | POINTER => obind O (ofail O (bits_of v)) (fun u => new_int O (Z.of_N u))
       | SIGNED => obind O (ofail O (bits_of v)) (fun u => new_int O (s64 u))
       | FLOAT => obind O (ofail O (bits_of v)) (fun u => new_float O (f_of_float O (u mod two32)))
       | BLOB | INVALID_FORMAT => oret O new_invalid
       end h) (value_value O v) bad).
  { unfold value_value. destruct (v_fmt v);
      try (apply (sim_ret owns L new_invalid PInvalid bad h []); auto; split; reflexivity);
      (apply (sim_bind plain owns L L _ _ _ _ bad h (ofail_sim L _ h bad W HL)); intros u x h' b _ [-> ->] HL' W');
      first [apply new_int_sim|apply new_float_sim]; auto. }
  replace (value_value O v) with (x <- value_value O v ;; Ok x) at 1 by (destruct (value_value O v); reflexivity).
  apply (sim_bind owns owns L L _ _ _ _ bad h S). intros o x h' b E HO HL' W'. apply (pass_sim o x b); auto. intros ->. auto.
Qed.

Lemma evaluate_sim p : forall h L, hwf h -> h_live O h = L -> sim owns L (o_evaluate O elide vars p h) (evaluate O vars p) (bad_of p).
Proof.
  induction p as [k d cs IH] using pred_ind2. intros h L W HL.
  assert (SELF : evaluate O vars (Pred k d cs) = Ok PInvalid -> some_copy -> bad_of (Pred k d cs)).
  { intros E C. split; [exact C|]. exists (Pred k d cs). split; [constructor|exact E]. }
  assert (BIN : forall op f, has_operands k -> op_sim op f ->
    evaluate O vars (Pred k d cs) = match cs with [a; b] => x <- evaluate O vars a ;; y <- evaluate O vars b ;; Ok (f x y) | _ => Abort end ->
    o_evaluate O elide vars (Pred k d cs) = match cs with [a; b] => obind O (with_operands O elide (o_evaluate O elide vars a) (o_evaluate O elide vars b) (functor O elide op)) (pass O elide) | _ => ofail O Abort end ->
    sim owns L (o_evaluate O elide vars (Pred k d cs) h) (evaluate O vars (Pred k d cs)) (bad_of (Pred k d cs))).
  { intros op f HK HS E1 E2. rewrite E2. rewrite E1 in SELF |- *.
    destruct cs as [|a [|b [|c r]]]; try (apply fail_sim; exact I). pose proof (Forall_inv IH) as IHa. pose proof (Forall_inv (Forall_inv_tail IH)) as IHb.
    assert (S : sim owns L (with_operands O elide (o_evaluate O elide vars a) (o_evaluate O elide vars b) (functor O elide op) h)
              (x <- evaluate O vars a ;; y <- evaluate O vars b ;; Ok (f x y)) (bad_of (Pred k d [a; b]))).
    { apply with_operands_sim; try assumption.
      - intros h0 L0 W0 HL0. eapply sim_weaken; [|apply IHa; assumption]. intros [C V]. split; [exact C|]. apply (within_invalid k d [a; b] a HK); [left; reflexivity|exact V].
      - intros h0 L0 W0 HL0. eapply sim_weaken; [|apply IHb; assumption]. intros [C V]. split; [exact C|]. apply (within_invalid k d [a; b] b HK); [right; left; reflexivity|exact V].
      - intros [E|E] C; (split; [exact C|]); [apply (within_invalid k d [a; b] a HK); [left; reflexivity|]|apply (within_invalid k d [a; b] b HK); [right; left; reflexivity|]];
          (eexists; split; [constructor|exact E]).
      - intros h0 L0 u v x y Ex Ey W0 HL0 Hu Hv. apply (functor_sim op f HS); try assumption. intros E. apply SELF. rewrite Ex, Ey. cbn [bind]. rewrite E. reflexivity. }
    replace (x <- evaluate O vars a ;; y <- evaluate O vars b ;; Ok (f x y)) with (z <- (x <- evaluate O vars a ;; y <- evaluate O vars b ;; Ok (f x y)) ;; Ok z)
      by (destruct (evaluate O vars a); try reflexivity; cbn [bind]; destruct (evaluate O vars b); reflexivity).
    apply (sim_bind owns owns L L _ _ _ _ _ h S). intros o x h' b' E HO HL' W'. apply (pass_sim o x b'); auto. intros ->. exact (SELF E). }
  destruct k; try (apply fail_sim; exact I).
  - (* VAR_SIZE *)
    cbn [o_evaluate evaluate] in *. destruct cs as [|[[] i cs'] [|c r]]; try (apply fail_sim; exact I).
    apply (sim_bind plain owns L L _ _ _ _ _ h (ofail_sim L _ h _ W HL)). intros v x h' b E [-> ->] HL' W'. apply size_sim; auto.
    intros Z. apply SELF. rewrite E. cbn [bind]. rewrite Z. reflexivity.
  - (* VAR_VALUE *)
    cbn [o_evaluate evaluate] in *. destruct cs as [|[[] i cs'] [|c r]]; try (apply fail_sim; exact I).
    apply (sim_bind plain owns L L _ _ _ _ _ h (ofail_sim L _ h _ W HL)). intros v x h' b E [-> ->] HL' W'. apply value_sim; auto.
    intros Z. apply SELF. rewrite E. cbn [bind]. exact Z.
  - cbn [o_evaluate evaluate]. apply new_pass2; [apply new_int_sim; auto|discriminate].
  - cbn [o_evaluate evaluate]. apply new_pass2; [apply new_int_sim; auto|discriminate].
  - cbn [o_evaluate evaluate]. apply new_pass2; [apply new_float_sim; auto|discriminate].
  - exact (BIN _ _ ltac:(cbn; tauto) (arith_sim Z.add (f_add O)) eq_refl eq_refl).
  - exact (BIN _ _ ltac:(cbn; tauto) (arith_sim Z.sub (f_sub O)) eq_refl eq_refl).
  - exact (BIN _ _ ltac:(cbn; tauto) (arith_sim Z.mul (f_mul O)) eq_refl eq_refl).
  - exact (BIN _ _ ltac:(cbn; tauto) div_sim eq_refl eq_refl).
Qed.

Lemma all_sim L (bad : Prop) l : (forall c, In c l -> forall h, hwf h -> h_live O h = L -> sim plain L (o_satisfied O elide vars c h) (satisfied O vars c) bad) ->
  forall h, hwf h -> h_live O h = L ->
  sim plain L ((fix all l := match l with
                         | [] => oret O true
                         | c :: r => obind O (o_satisfied O elide vars c) (fun b : bool => if b then all r else oret O false)
                         end) l h)
    ((fix all l := match l with
                         | [] => Ok true
                         | c :: r => b <- satisfied O vars c ;; if b : bool then all r else Ok false
                         end) l) bad.
Proof.
  induction l as [|c l IH]; intros H h W HL.
  - apply (sim_ret plain L true true bad h []); [split; reflexivity|exact HL|exact W].
  - apply (sim_bind plain plain L L _ _ _ _ _ h (H c (or_introl eq_refl) h W HL)). intros v x h' b _ [-> ->] HL' W'.
    destruct x; [apply IH; auto; intros c' Ic'; apply H; right; exact Ic'|].
    apply (sim_ret plain L false false bad h' []); [split; reflexivity|exact HL'|exact W'].
Qed.
Lemma any_sim L (bad : Prop) l : (forall c, In c l -> forall h, hwf h -> h_live O h = L -> sim plain L (o_satisfied O elide vars c h) (satisfied O vars c) bad) ->
  forall h, hwf h -> h_live O h = L ->
  sim plain L ((fix any l := match l with
                         | [] => oret O false
                         | c :: r => obind O (o_satisfied O elide vars c) (fun b : bool => if b then oret O true else any r)
                         end) l h)
    ((fix any l := match l with
                         | [] => Ok false
                         | c :: r => b <- satisfied O vars c ;; if b : bool then Ok true else any r
                         end) l) bad.
Proof.
  induction l as [|c l IH]; intros H h W HL.
  - apply (sim_ret plain L false false bad h []); [split; reflexivity|exact HL|exact W].
  - apply (sim_bind plain plain L L _ _ _ _ _ h (H c (or_introl eq_refl) h W HL)). intros v x h' b _ [-> ->] HL' W'.
    destruct x; [|apply IH; auto; intros c' Ic'; apply H; right; exact Ic'].
    apply (sim_ret plain L true true bad h' []); [split; reflexivity|exact HL'|exact W'].
Qed.

Lemma satisfied_sim p : forall h L, hwf h -> h_live O h = L -> sim plain L (o_satisfied O elide vars p h) (satisfied O vars p) (bad_of p).
Proof.
  induction p as [k d cs IH] using pred_ind2. intros h L W HL.
  assert (SUB : has_operands k -> forall c, In c cs -> bad_of c -> bad_of (Pred k d cs)).
  { intros HK c Ic [C V]. split; [exact C|exact (within_invalid k d cs c HK Ic V)]. }
  assert (R : forall (c : bool) h', hwf h' -> h_live O h' = L -> sim plain L (oret O c h') (Ok c) (bad_of (Pred k d cs))).
  { intros c h' W' HL'. apply (sim_ret plain L c c _ h' []); [split; reflexivity|exact HL'|exact W']. }
  assert (CMP : forall iop fop, has_operands k ->
    sim plain L (match cs with [a; b] => with_operands O elide (o_evaluate O elide vars a) (o_evaluate O elide vars b) (comparison O iop fop) | _ => ofail O Abort end h)
      (match cs with [a; b] => x <- evaluate O vars a ;; y <- evaluate O vars b ;; Ok (compare O iop fop x y) | _ => Abort end) (bad_of (Pred k d cs))).
  { intros iop fop HK. specialize (SUB HK). destruct cs as [|a [|b [|c r]]]; try (apply fail_sim; exact I).
    apply with_operands_sim; try assumption.
    - intros h0 L0 W0 HL0. eapply sim_weaken; [apply SUB; left; reflexivity|apply evaluate_sim; assumption].
    - intros h0 L0 W0 HL0. eapply sim_weaken; [apply SUB; right; left; reflexivity|apply evaluate_sim; assumption].
    - intros [E|E] C; [apply (SUB a); [left; reflexivity|]|apply (SUB b); [right; left; reflexivity|]]; (split; [exact C|]; eexists; split; [constructor|exact E]).
    - intros h0 L0 u v x y Ex Ey W0 HL0 Hu Hv. apply comparison_sim; assumption. }
  destruct k; try (apply fail_sim; exact I); try exact (CMP _ _ ltac:(cbn; tauto)); try specialize (SUB ltac:(cbn; tauto)).
  - apply R; assumption.
  - (* DISTINCT_VARS *)
    cbn [o_satisfied satisfied]. destruct cs as [|[[] i cs1] [|[[] j cs2] [|c r]]]; try (apply fail_sim; exact I).
    apply (sim_bind plain plain L L _ _ _ _ _ h (ofail_sim L _ h _ W HL)). intros v x h' b E [-> ->] HL' W'. cbn [app] in HL'.
    apply (sim_bind plain plain L L _ _ _ _ _ h' (ofail_sim L _ h' _ W' HL')). intros w y h2 b2 E2 [-> ->] HL2 W2. apply R; assumption.
  - (* AND *)
    apply all_sim; [|exact W|exact HL]. intros c Ic h0 W0 HL0. rewrite Forall_forall in IH. eapply sim_weaken; [apply SUB; exact Ic|apply IH; assumption].
  - (* OR *)
    apply any_sim; [|exact W|exact HL]. intros c Ic h0 W0 HL0. rewrite Forall_forall in IH. eapply sim_weaken; [apply SUB; exact Ic|apply IH; assumption].
  - (* NOT *)
    cbn [o_satisfied satisfied]. destruct cs as [|c [|c' r]]; try (apply fail_sim; exact I). pose proof (Forall_inv IH) as IHc.
    apply (sim_bind plain plain L L _ _ _ _ _ h (sim_weaken _ _ _ _ _ _ (SUB c (or_introl eq_refl)) (IHc h L W HL))).
    intros v x h' b _ [-> ->] HL' W'. apply R; assumption.
Qed.
End P.
