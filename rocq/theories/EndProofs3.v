(** Proofs about end-to-end queries: every condition can be asked. *)
From Verif Require Import BaseProofs Types Predicate PredSpec PredProofs Query QuerySpec QueryProofs CApi CApiSpec CApiProofs2 Instr InstrRun InstrSpec EndSpec EndProofs.

Lemma s64_onto : forall z, (- 2 ^ 63 <= z < 2 ^ 63)%Z -> exists d, d < 2 ^ 64 /\ s64 d = z.
Proof.
  intros z H. exists (Z.to_N (z mod 2 ^ 64)%Z).
  assert (B : (0 <= z mod 2 ^ 64 < 2 ^ 64)%Z) by (apply Z.mod_pos_bound; reflexivity).
  split; [lia|]. unfold s64. destruct (N.ltb_spec (Z.to_N (z mod 2 ^ 64)) two63) as [L|L]; rewrite Z2N.id by lia;
    change (Z.of_N two64) with (2 ^ 64)%Z; change two63 with (2 ^ 63) in L; Z.to_euclidean_division_equations; lia.
Qed.

Lemma tree_i : forall n e, on_values_i n e -> constants_ok e -> exists p, repr_i e p /\ plain_pred p /\ is_null_pred p = false.
Proof.
  intros n. assert (TWO : forall k p q, ~ In k [VAR_REFERENCE; UNSIGNED_VALUE; SIGNED_VALUE; FLOAT_VALUE] -> plain_pred p -> plain_pred q ->
    is_null_pred p = false -> is_null_pred q = false -> plain_pred (Pred k 2 [p; q])).
  { intros k p q K P Q NP NQ. split; [reflexivity|]. split; [reflexivity|]. destruct p as [[] ? ?], q as [[] ? ?]; try discriminate; auto. }
  induction e as [z|i|i|a IHa b IHb|a IHa b IHb|a IHa b IHb]; cbn [on_values_i constants_ok]; intros ON CO.
  - destruct (Z_lt_le_dec z 0) as [L|L].
    + destruct (s64_onto z) as (d & D1 & <-); [lia|]. exists (Pred SIGNED_VALUE d []). split; [constructor; exact D1|]. split; [|reflexivity].
      cbn. split; [intros X; exfalso; apply X; auto|]. split; [reflexivity|exact Logic.I].
    + exists (Pred UNSIGNED_VALUE (Z.to_N z) []). split; [|split; [|reflexivity]].
      * rewrite <- (Z2N.id z) at 1 by lia. constructor. lia.
      * cbn. split; [intros X; exfalso; apply X; auto|]. split; [reflexivity|exact Logic.I].
  - exists (Pred VAR_VALUE 1 [Pred VAR_REFERENCE i []]). split; [constructor|]. split; [|reflexivity]. cbn. split; [reflexivity|]. split; [reflexivity|].
    split; [|exact Logic.I]. split; [intros X; exfalso; apply X; auto|]. split; [reflexivity|exact Logic.I].
  - destruct ON.
  - destruct ON as [O1 O2], CO as [C1 C2]. destruct (IHa O1 C1) as (p & P1 & P2 & P3), (IHb O2 C2) as (q & Q1 & Q2 & Q3).
    exists (Pred ADD 2 [p; q]). split; [constructor; auto|]. split; [|reflexivity]. apply TWO; auto. cbn. intuition discriminate.
  - destruct ON as [O1 O2], CO as [C1 C2]. destruct (IHa O1 C1) as (p & P1 & P2 & P3), (IHb O2 C2) as (q & Q1 & Q2 & Q3).
    exists (Pred SUBTRACT 2 [p; q]). split; [constructor; auto|]. split; [|reflexivity]. apply TWO; auto. cbn. intuition discriminate.
  - destruct ON as [O1 O2], CO as [C1 C2]. destruct (IHa O1 C1) as (p & P1 & P2 & P3), (IHb O2 C2) as (q & Q1 & Q2 & Q3).
    exists (Pred MULTIPLY 2 [p; q]). split; [constructor; auto|]. split; [|reflexivity]. apply TWO; auto. cbn. intuition discriminate.
Qed.

Definition tree_for (n : N) (e : bexp) : Prop :=
  on_values n e -> expressible e -> exists p, repr_b e p /\ plain_pred p /\ (e <> BTrue -> is_null_pred p = false).

Lemma children : forall n l, Forall (tree_for n) l ->
  (fix all l := match l with [] => True | a :: r => on_values n a /\ all r end) l ->
  (fix all l := match l with [] => True | a :: r => (a <> BTrue /\ expressible a) /\ all r end) l ->
  exists ps, Forall2 repr_b l ps /\
    (fix all l := match l with
                  | [] => True
                  | c :: r => (match c with Pred NULL_PREDICATE _ _ => False | _ => plain_pred c end) /\ all r
                  end) ps.
Proof.
  intros n l H. induction H as [|a l A _ IH]; intros O1 O2.
  - exists []. split; [constructor|exact Logic.I].
  - destruct O1 as [O1 O3], O2 as [[O2 O4] O5]. destruct (A O1 O4) as (p & P1 & P2 & P3), (IH O3 O5) as (ps & Q1 & Q2).
    exists (p :: ps). split; [constructor; auto|]. split; [|exact Q2]. specialize (P3 O2). destruct p as [[] ? ?]; try discriminate; exact P2.
Qed.

Lemma tree_b : forall n e, tree_for n e.
Proof.
  intros n. induction e as [|c a b|i j|a IH|es IH|es IH] using bexp_ind2; unfold tree_for; cbn [on_values expressible]; intros ON EX.
  - exists (Pred NULL_PREDICATE 0 []). split; [constructor|]. split; [|congruence]. cbn. split; [reflexivity|]. split; [reflexivity|exact Logic.I].
  - destruct ON as [O1 O2], EX as [C1 C2]. destruct (tree_i _ _ O1 C1) as (p & P1 & P2 & P3), (tree_i _ _ O2 C2) as (q & Q1 & Q2 & Q3).
    exists (Pred (cmp_kind c) 2 [p; q]). split; [constructor; auto|]. split; [|intros _; destruct c; reflexivity].
    split; [reflexivity|]. split; [reflexivity|]. destruct p as [[] ? ?], q as [[] ? ?]; try discriminate; auto.
  - destruct ON.
  - destruct EX as [E1 E2]. destruct (IH ON E2) as (p & P1 & P2 & P3). specialize (P3 E1).
    exists (Pred NOT 1 [p]). split; [constructor; auto|]. split; [|reflexivity]. split; [reflexivity|]. split; [reflexivity|].
    destruct p as [[] ? ?]; try discriminate; auto.
  - destruct EX as [E1 E2]. destruct (children n es IH ON E2) as (ps & P1 & P2). exists (Pred AND (lenN ps) ps). split; [constructor; auto|].
    split; [|reflexivity]. split; [reflexivity|]. split; [rewrite <- (Forall2_same_len _ _ _ _ _ P1); exact E1|exact P2].
  - destruct EX as [E1 E2]. destruct (children n es IH ON E2) as (ps & P1 & P2). exists (Pred OR (lenN ps) ps). split; [constructor; auto|].
    split; [|reflexivity]. split; [reflexivity|]. split; [rewrite <- (Forall2_same_len _ _ _ _ _ P1); exact E1|exact P2].
Qed.

Lemma name_dec : forall a b : name, {a = b} + {a <> b}.
Proof. apply list_eq_dec. apply Byte.byte_eq_dec. Qed.

Lemma asks_exists : forall names types W, exists fvs, asks names types W fvs.
Proof.
  intros names types W. induction W as [|w W (fvs & IH)]; [exists []; constructor|].
  exists (filter (fun i => match nthN types i with
                           | Some d => match nthN names (t_name d) with Some nm => if in_dec name_dec nm w then true else false | None => false end
                           | None => false end) (map N.of_nat (seq 0 (length types))) :: fvs).
  constructor; [|exact IH]. intros i d nm D NM. rewrite filter_In, D, NM. split.
  - intros (_ & X). destruct (in_dec name_dec nm w); [assumption|discriminate].
  - intros X. split; [|destruct (in_dec name_dec nm w); [reflexivity|contradiction]].
    apply in_map_iff. exists (N.to_nat i). split; [apply N2Nat.id|]. apply in_seq. apply nthN_Some_lt in D. unfold lenN in D. lia.
Qed.

Lemma askable : forall names types W e mask stmt, W <> [] -> on_values (lenN W) e -> expressible e ->
  exists q, question names types W e q /\ cq_mask q = mask /\ cq_stmt q = stmt.
Proof.
  intros names types W e mask stmt HW ON EX. destruct (asks_exists names types W) as (fvs & A). destruct (tree_b _ e ON EX) as (p & P1 & P2 & _).
  exists (mkCQ fvs (Some (client p)) [] 0 1 mask stmt). split; [|split; reflexivity].
  unfold question. cbn [cq_fvs cq_hard cq_soft cq_seed cq_keep]. conj_split; auto; [|discriminate]. exists p. conj_split; auto.
Qed.
