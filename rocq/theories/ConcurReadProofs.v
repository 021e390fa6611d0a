(** Reading with the static variable against reading without it: proofs. *)
From Verif Require Import BaseProofs Types Stream SkipList Reader Concur.

Definition orel {A B} (R : A -> B -> Prop) (x : outcome A) (y : outcome B) : Prop :=
  match x, y with
  | Ok a, Ok b => R a b
  | Throw e, Throw f => e = f
  | UB u, UB v => u = v
  | Abort, Abort => True
  | Diverge, Diverge => True
  | _, _ => False
  end.

Section Leads.
(** [V d v]: after bytes d were stored in the static variable, v can be loaded. *)
Variable V : list byte -> N -> Prop.

Inductive leads {A B} (R : A -> B -> Prop) : rprog A -> outcome B -> Prop :=
| ld_fin : forall o o', orel R o o' -> leads R (Fin o) o'
| ld_put : forall d k o, (forall v, V d v -> leads R (k v) o) -> leads R (Put d (Get k)) o.

Lemma leads_bind : forall A A' B B' (R : A -> A' -> Prop) (S : B -> B' -> Prop) p o f g,
  leads R p o -> (forall a a', R a a' -> leads S (f a) (g a')) -> leads S (rbind p f) (bind o g).
Proof.
  intros A A' B B' R S p o f g H F. induction H.
  - destruct o, o'; cbn in *; try contradiction; auto; constructor; cbn; auto.
  - cbn. apply ld_put. intros v Hv. auto.
Qed.

Lemma orel_refl : forall A (o : outcome A), orel eq o o.
Proof. destruct o; cbn; auto. Qed.

Variable RX : list N -> list N -> Prop.
Hypothesis RX_nil : RX [] [].
Hypothesis RX_snoc : forall l l' d v, RX l l' -> lenN d = 8 -> V d v -> RX (l ++ [v]) (l' ++ [le_val d]).

Definition racc (a b : pacc) : Prop :=
  a_stmt a = a_stmt b /\ a_sizes a = a_sizes b /\ a_vars a = a_vars b /\ RX (a_aux a) (a_aux b).

Variable ok : alloc.
Variable M : map_ops.

(** Results of an iteration: related, or the stream has failed in an AUXILIARY entry. *)
Definition rentry (x y : bool * pacc * mo_state M * istream) : Prop :=
  let '(g, acc, m, s) := x in
  let '(g', acc', m', s') := y in
  g = g' /\ m = m' /\ s = s' /\ (racc acc acc' \/ (g = true /\ good s = false)).

Lemma read_entry_racc : forall names types m acc acc' s, racc acc acc' ->
  (forall s1 r, binary_read_into [x05] s = Ok (x04 :: r, s1) -> good s1 = false) ->
  orel rentry (read_entry ok M names types m acc s) (read_entry ok M names types m acc' s).
Proof.
  intros names types m acc acc' s (E1 & E2 & E3 & E4) HN. unfold read_entry.
  destruct (binary_read_into [x05] s) as [(d & s1)| | | |] eqn:ED; cbn; auto.
  specialize (fun r => HN s1 r). 
  set (c := schar match d with [] => x05 | b :: _ => b end).
  destruct (negb (good s1) || (c =? 0)%Z) eqn:EG.
  { cbn. repeat split; auto. left. split; auto. }
  destruct (5 <=? c)%Z; [reflexivity|].
  destruct (c =? 1)%Z.
  { destruct (binary_read 8 s1) as [(e & s2)| | | |]; cbn; auto. repeat split; auto. left. repeat split; auto. }
  destruct (c =? 3)%Z.
  { destruct (read_bufsz s1) as [(b & s2)| | | |]; cbn; auto.
    destruct (mo_update M m (b_addr b) (b_size b)); cbn; auto.
    repeat split; auto. left. repeat split; cbn; auto. congruence. }
  destruct (c =? 2)%Z.
  { destruct (read_var ok M names types m s1) as [(v & s2)| | | |]; cbn; auto.
    repeat split; auto. left. repeat split; cbn; auto. congruence. }
  destruct (c =? 4)%Z eqn:E; [|reflexivity].
  exfalso. apply Z.eqb_eq in E.
  assert (D : exists r, d = x04 :: r).
  { destruct d as [|b r]; [discriminate|]. exists r. f_equal. subst c. destruct b; cbn in E; congruence. }
  destruct D as (r & ->). rewrite (HN r eq_refl) in EG. discriminate.
Qed.

Lemma entry_leads : forall names types m acc acc' s, racc acc acc' ->
  leads rentry (read_entry_s ok M names types m acc s) (read_entry ok M names types m acc' s).
Proof.
  intros names types m acc acc' s HR. unfold read_entry_s.
  assert (GEN : (forall s1 r, binary_read_into [x05] s = Ok (x04 :: r, s1) -> good s1 = false) ->
    leads rentry (Fin (read_entry ok M names types m acc s)) (read_entry ok M names types m acc' s)).
  { intro HN. constructor. apply read_entry_racc; auto. }
  destruct (binary_read_into [x05] s) as [(d & s1)| | | |] eqn:ED;
    try (apply GEN; intros; discriminate).
  destruct d as [|b r]; [apply GEN; intros; discriminate|].
  destruct (Byte.byte_eq_dec b x04) as [->|NB].
  2:{ assert (X : leads rentry (Fin (read_entry ok M names types m acc s)) (read_entry ok M names types m acc' s))
        by (apply GEN; intros; congruence).
      destruct b; try exact X. congruence. }
  destruct (good s1) eqn:EG.
  2:{ apply GEN. intros. congruence. }
  unfold read_entry. rewrite ED. cbn [bind]. rewrite EG. change (schar x04) with 4%Z.
  cbn [negb orb Z.eqb Z.leb Z.compare Pos.compare Pos.compare_cont].
  unfold read_word, binary_read_into. change (lenN (le_bytes 8 0)) with 8.
  cbn [Pos.eqb].
  destruct (binary_read 8 s1) as [(e & s2)| | | |] eqn:EB; cbn [rbind bind];
    try (constructor; reflexivity).
  apply ld_put. intros v HV. constructor. cbn. split; [auto|split; [auto|split; [auto|]]].
  unfold binary_read in EB. rewrite EG in EB. cbn [negb] in EB. injection EB as EB.
  unfold s_read in EB. destruct (lenN (takeN 8 (s_rest s1)) <? 8) eqn:EL.
  - injection EB as E1 E2. subst s2. right. split; auto. unfold good. cbn. apply Bool.andb_false_r.
  - injection EB as E1 E2. left. destruct HR as (X1 & X2 & X3 & X4).
    assert (L : lenN e = 8).
    { apply N.ltb_ge in EL. rewrite E1 in EL. assert (lenN e <= 8); [|lia]. subst e.
      rewrite lenN_takeN. lia. }
    split; [|split; [|split]]; cbn; auto.
    rewrite L. replace (dropN 8 (x00 :: x00 :: x00 :: x00 :: x00 :: x00 :: x00 :: x00 :: [])) with (@nil byte) by reflexivity.
    rewrite app_nil_r. apply RX_snoc; auto.
Qed.

Lemma read_entry_bad : forall names types m acc acc' s, good s = false ->
  exists e, read_entry ok M names types m acc s = Throw e /\ read_entry ok M names types m acc' s = Throw e /\
    read_entry_s ok M names types m acc s = Fin (Throw e).
Proof.
  intros names types m acc acc' s E. unfold read_entry_s, read_entry, binary_read_into, binary_read. rewrite E. cbn.
  destruct (s_eof s); eexists; cbn; auto.
Qed.

Definition rres (x y : pacc * mo_state M * istream) : Prop :=
  let '(acc, m, s) := x in
  let '(acc', m', s') := y in
  m = m' /\ s = s' /\ racc acc acc'.

Lemma entries_leads : forall fuel names types m acc acc' s, racc acc acc' ->
  leads rres (read_entries_s fuel ok M names types m acc s) (read_entries fuel ok M names types m acc' s).
Proof.
  induction fuel; intros names types m acc acc' s HR; [constructor; reflexivity|].
  cbn [read_entries_s read_entries]. eapply leads_bind; [apply entry_leads; exact HR|].
  intros (((g & a1) & m1) & s1) (((g' & a2) & m2) & s2) (-> & -> & -> & [H|(-> & H)]).
  - destruct g'; auto. constructor. cbn. auto.
  - destruct fuel as [|fuel]; [constructor; reflexivity|]. cbn [read_entries_s read_entries].
    destruct (read_entry_bad names types m2 a1 a2 s2 H) as (e & E1 & E2 & E3). rewrite E3, E2. constructor. reflexivity.
Qed.

Definition rpoint (p q : point (option N)) : Prop :=
  p_counter p = p_counter q /\ p_stmt p = p_stmt q /\ p_sizes p = p_sizes q /\ p_vars p = p_vars q /\ RX (p_aux p) (p_aux q).

Lemma point_leads : forall i names types m s,
  leads (fun x y => let '(p, m1, s1) := x in let '(q, m2, s2) := y in rpoint p q /\ m1 = m2 /\ s1 = s2)
    (read_point_s ok M i names types m s) (read_point ok M i names types m s).
Proof.
  intros. unfold read_point_s, read_point. eapply leads_bind.
  { apply entries_leads. split; [|split; [|split]]; auto. }
  intros ((a1 & m1) & s1) ((a2 & m2) & s2) (-> & -> & E1 & E2 & E3 & E4). constructor. cbn.
  split; [|split; auto]. split; [|split; [|split; [|split]]]; cbn; auto.
Qed.

Lemma points_leads : forall fuel max i names types m s,
  leads (fun x y => Forall2 rpoint (fst x) (fst y) /\ snd x = snd y)
    (read_points_s fuel ok M max i names types m s) (read_points fuel ok M max i names types m s).
Proof.
  induction fuel; intros max i names types m s; cbn [read_points_s read_points];
    (destruct (good s && ((i <? max) || (max =? 0))); [|constructor; cbn; auto]).
  { constructor. reflexivity. }
  eapply leads_bind; [apply point_leads|].
  intros ((p & m1) & s1) ((q & m2) & s2) (HP & -> & ->).
  eapply leads_bind; [apply IHfuel|].
  intros (ps & s3) (qs & s4) (H1 & H2). cbn in H1, H2. subst s4.
  destruct (good s2); constructor; cbn; auto.
Qed.

Definition rtrace (x y : tr) : Prop :=
  tr_names x = tr_names y /\ tr_types x = tr_types y /\ Forall2 rpoint (tr_points x) (tr_points y).

Lemma trace_leads : forall max s, leads rtrace (read_trace_s ok M max s) (read_trace ok M max s).
Proof.
  intros max s. unfold read_trace_s, read_trace.
  eapply leads_bind; [constructor; apply orel_refl|].
  intros (n1 & s1) (n2 & s2) E. injection E as -> ->.
  eapply leads_bind; [constructor; apply orel_refl|].
  intros (t1 & s3) (t2 & s4) E. injection E as -> ->.
  eapply leads_bind; [apply points_leads|].
  intros (p1 & s5) (p2 & s6) (H & _). constructor. split; [|split]; cbn; auto.
Qed.
End Leads.
