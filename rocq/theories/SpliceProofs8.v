(** Proofs about Splice.v, part 8: the log names the executed statements. *)
From Coq Require Import List Bool Arith NArith Lia Permutation.
From Verif Require Import Base Types Instr Splice SpliceSpec SpliceTrace SpliceProofs1 SpliceProofs2 SpliceProofs3 SpliceProofs4.
Import ListNotations.
Open Scope nat_scope.
#[local] Arguments Nat.ltb : simpl never.

Section Executed.
Variable State : Type.
Notation HState := (State * list N)%type.
Variable act : N -> State -> comp State jump.
Variable test : N -> State -> comp State bool.
Variable init step : N -> State -> comp State unit.
Variable select : N -> list N -> State -> comp State (option nat).
Variable bef aft : path -> list istmt.
Variable tx : path -> option N.
Variable read : istmt -> list N.
Hypothesis read_bef : forall p, flat_map read (bef p) = match tx p with Some a => [a] | None => [] end.
Hypothesis read_aft : forall p, flat_map read (aft p) = [].

Definition texts (l : log HState) : list N := flat_map (fun e => read (fst e)) l.
Lemma texts_app a b : texts (a ++ b) = texts a ++ texts b.
Proof. apply flat_map_app. Qed.
Lemma texts_note l s : texts (note HState l s) = flat_map read l.
Proof. unfold texts, note. induction l as [|i l IH]; cbn; [reflexivity|]. rewrite IH. reflexivity. Qed.

(** [pre]: what was logged just before. *)
Definition good {A} (pre h : list N) (r : A * HState * log HState) : Prop :=
  snd (snd (fst r)) = h ++ pre ++ texts (snd r).

Section Calls.
Variable call : N -> HState -> bool * HState * log HState.
Hypothesis calls : forall f sh, good [] (snd sh) (call f sh).

Lemma run_good {A} (c : comp State A) : forall h, good [] h (run HState call (remember h c)).
Proof.
  induction c as [a s|f s k IH]; intros h; cbn [remember run].
  - unfold good. cbn. rewrite app_nil_r. reflexivity.
  - specialize (calls f (s, h)). destruct (call f (s, h)) as [[b [s1 h1]] l1]. unfold good in calls. cbn in calls. subst h1.
    destruct b; [|unfold good; cbn; reflexivity]. cbn [fst snd].
    specialize (IH s1 (h ++ texts l1)). destruct (run HState call _) as [[a [s2 h2]] l2].
    unfold good in *. cbn in *. rewrite IH, texts_app, app_assoc. reflexivity.
Qed.
Lemma good_logged {A} pre h l (r : A * HState * log HState) :
  good [] (h ++ pre ++ texts l) r -> good pre h (let '(o, s, l') := r in (o, s, l ++ l')).
Proof.
  destruct r as [[o [s h']] l']. unfold good. cbn. intros ->. rewrite texts_app, !app_assoc. reflexivity.
Qed.
Lemma logged_good pre h l (r : result HState) : good [] (h ++ pre ++ texts l) r -> good pre h (logged HState l r).
Proof. intros G. apply (good_logged pre h l r) in G. destruct r as [[o s] l']. exact G. Qed.
Lemma bind_good {A} pre h (c : comp State A) k :
  (forall a sh, good [] (snd sh) (k a sh)) -> good pre h (bind HState call (remember (h ++ pre) c) k).
Proof.
  intros K. unfold bind. pose proof (run_good c (h ++ pre)) as G. unfold good in G.
  destruct (run HState call (remember (h ++ pre) c)) as [[[a|] [s h']] l]; cbn in G; subst h'.
  - apply logged_good. specialize (K a (s, (h ++ pre) ++ texts l)). cbn [snd] in K. rewrite app_assoc. exact K.
  - unfold good. cbn. rewrite app_assoc. reflexivity.
Qed.
Lemma bind_good0 {A} h (c : comp State A) k :
  (forall a sh, good [] (snd sh) (k a sh)) -> good [] h (bind HState call (remember h c) k).
Proof. intros K. pose proof (bind_good [] h c k K) as G. rewrite app_nil_r in G. exact G. Qed.
Lemma next_good pre h (r : result HState) k :
  good pre h r -> (forall sh, good [] (snd sh) (k sh)) -> good pre h (next HState r k).
Proof.
  intros G K. destruct r as [[[] [s h']] l]; try exact G. cbn [next]. apply logged_good.
  unfold good in G. cbn in G. subst h'. exact (K (s, h ++ pre ++ texts l)).
Qed.
Lemma after_round_good h (r : result HState) k :
  good [] h r -> (forall sh, good [] (snd sh) (k sh)) -> good [] h (after_round HState r k).
Proof.
  intros G K. destruct r as [[[] [s h']] l]; try exact G; cbn [after_round]; apply (logged_good []);
  unfold good in G; cbn in G; subst h'; exact (K (s, h ++ texts l)).
Qed.
Lemma rounds_good n c b ag : (forall sh, good [] (snd sh) (b sh)) -> (forall sh, good [] (snd sh) (ag sh)) ->
  forall sh, good [] (snd sh) (rounds HState (h_do test) call n c b ag sh).
Proof.
  intros B A. induction n as [|n IH]; intros sh; cbn [rounds].
  - unfold good. cbn. rewrite app_nil_r. reflexivity.
  - apply bind_good0. intros [] sh1; [|unfold good; cbn; rewrite app_nil_r; reflexivity].
    pose proof (after_round_good _ (b sh1) (fun s => next HState (ag s) (rounds HState (h_do test) call n c b ag)) (B sh1)) as G.
    assert (G' := G (fun sh2 => next_good _ _ _ _ (A sh2) IH)). clear G.
    destruct (b sh1) as [[[] s'] l']; exact G'.
Qed.
Lemma stop_good (o : out) (sh : HState) : good [] (snd sh) (o, sh, @nil (istmt * HState)).
Proof. unfold good. cbn. rewrite app_nil_r. reflexivity. Qed.

Definition before_text (m : option (option N)) : list N := match m with Some (Some a) => [a] | _ => [] end.
Notation exec := (exec HState (h_act act) (h_do test) (h_do init) (h_do step) (h_select select) bef aft call).

Lemma stepping_good h sh : good [] (snd sh) (stepping HState (h_do step) call h sh).
Proof. apply bind_good0. intros _ sh1. apply stop_good. Qed.

(** Entering a statement after the entry of its mark was logged. *)
Lemma exec_good n x : forall e m sh, covered tx e x = true -> inside m x = true ->
  good (before_text e) (snd sh) (exec n m x sh).
Proof.
  induction x as [st|p x IH|l IH|c x IH|c x y IHx IHy|c x IH|x c IH|c x IH|v x IH|l x IH] using cstmt_rect';
    intros e m sh C I; cbn [covered] in C.
  - destruct st as [a| |i]; [|destruct e as [[]|]; try discriminate; apply stop_good|discriminate].
    destruct e as [[b|]|]; try discriminate. apply N.eqb_eq in C. subst b. cbn [SpliceSpec.exec before_text].
    apply bind_good. intros j sh1. apply stop_good.
  - apply andb_prop in C. destruct C as [M C]. replace (before_text e) with (@nil N) by (destruct e as [[]|]; try discriminate; reflexivity).
    cbn [SpliceSpec.exec]. apply next_good.
    2: { intros sh1. unfold good. cbn. rewrite texts_note, read_aft, app_nil_r. reflexivity. }
    destruct m.
    + pose proof (IH _ Start sh C eq_refl) as G.
      destruct (exec n Start x sh) as [[o [s' h']] l']. unfold good. cbn [logged fst snd] in *.
      rewrite texts_app, texts_note, read_bef. exact G.
    + assert (B : before_text (Some (tx p)) = []).
      { destruct x as [st| | | | | | | | |]; try (cbn [covered] in C; destruct (tx p); [discriminate|reflexivity]). }
      pose proof (IH _ (AtCase n0) sh C I) as G. rewrite B in G. exact G.
    + assert (B : before_text (Some (tx p)) = []).
      { destruct x as [st| | | | | | | | |]; try (cbn [covered] in C; destruct (tx p); [discriminate|reflexivity]). }
      pose proof (IH _ (AtLabel l) sh C I) as G. rewrite B in G. exact G.
  - apply andb_prop in C. destruct C as [M C]. replace (before_text e) with (@nil N) by (destruct e as [[]|]; try discriminate; reflexivity).
    rewrite exec_block. clear I. revert m sh.
    induction IH as [|y r Hy _ IHr]; intros m sh; cbn [seqx]; [apply stop_good|].
    cbn [forallb] in C. apply andb_prop in C. destruct C as [C1 C2].
    destruct (inside m y) eqn:Iy; [|apply (IHr C2)].
    apply next_good; [exact (Hy None m sh C1 Iy)|]. intros sh1. apply (IHr C2).
  - destruct e as [[|]|]; try discriminate. cbn [before_text SpliceSpec.exec].
    destruct m; try (apply (IH None); [exact C|exact I]).
    apply bind_good0. intros [] sh1; [exact (IH None Start sh1 C eq_refl)|apply stop_good].
  - destruct e as [[|]|]; try discriminate. apply andb_prop in C. destruct C as [C1 C2].
    cbn [before_text SpliceSpec.exec]. destruct m.
    + apply bind_good0. intros [] sh1; [exact (IHx None Start sh1 C1 eq_refl)|exact (IHy None Start sh1 C2 eq_refl)].
    + destruct (inside (AtCase n0) x) eqn:Ix; [exact (IHx None _ sh C1 Ix)|]. apply (IHy None _ sh C2).
      cbn in *. rewrite app_length in I. apply Nat.ltb_lt. apply Nat.ltb_lt in I. apply Nat.ltb_ge in Ix. lia.
    + destruct (inside (AtLabel l) x) eqn:Ix; [exact (IHx None _ sh C1 Ix)|]. apply (IHy None _ sh C2).
      cbn in *. rewrite Ix in I. exact I.
  - destruct e as [[|]|]; try discriminate. cbn [before_text SpliceSpec.exec].
    assert (R : forall sh, good [] (snd sh) (rounds HState (h_do test) call n c (exec n Start x) (stepping HState (h_do step) call c) sh)).
    { apply rounds_good; [intros sh1; exact (IH None Start sh1 C eq_refl)|apply stepping_good]. }
    destruct m.
    + apply bind_good0. intros _ sh1. apply R.
    + apply after_round_good; [apply (IH None); [exact C|exact I]|]. intros sh1. apply next_good; [apply stepping_good|apply R].
    + apply after_round_good; [apply (IH None); [exact C|exact I]|]. intros sh1. apply next_good; [apply stepping_good|apply R].
  - destruct e as [[|]|]; try discriminate. cbn [before_text SpliceSpec.exec].
    apply after_round_good; [apply (IH None); [exact C|exact I]|].
    apply rounds_good; [intros sh1; exact (IH None Start sh1 C eq_refl)|intros; apply stop_good].
  - destruct e as [[|]|]; try discriminate. cbn [before_text SpliceSpec.exec].
    assert (Q : forall h (r : result HState), good [] h r -> good [] h (after_switch HState r)).
    { intros h [[[] ?] ?]; auto. }
    apply Q. destruct m.
    + apply bind_good0. intros [i|] sh1; [|apply stop_good].
      destruct (inside (AtCase i) x) eqn:Ix; [exact (IH None _ sh1 C Ix)|apply stop_good].
    + discriminate I.
    + apply (IH None); [exact C|exact I].
  - apply andb_prop in C. destruct C as [M C]. replace (before_text e) with (@nil N) by (destruct e as [[]|]; try discriminate; reflexivity).
    cbn [SpliceSpec.exec]. destruct m as [|[|k]|k].
    + apply (IH None); [exact C|exact I].
    + exact (IH None Start sh C eq_refl).
    + apply (IH None (AtCase k) sh C). exact I.
    + apply (IH None); [exact C|exact I].
  - apply andb_prop in C. destruct C as [M C]. replace (before_text e) with (@nil N) by (destruct e as [[]|]; try discriminate; reflexivity).
    cbn [SpliceSpec.exec]. destruct m.
    + apply (IH None); [exact C|exact I].
    + apply (IH None); [exact C|exact I].
    + destruct (l0 =? l)%N eqn:El; [exact (IH None Start sh C eq_refl)|].
      apply (IH None (AtLabel l0) sh C). cbn in *. rewrite El in I. exact I.
Qed.

Lemma body_good n x sh : covered tx None x = true ->
  good [] (snd sh) (body_run HState (h_act act) (h_do test) (h_do init) (h_do step) (h_select select) bef aft call n x sh).
Proof.
  intros C.
  assert (E : forall m sh, inside m x = true -> good [] (snd sh) (exec n m x sh)).
  { intros m sh1 I. exact (exec_good n x None m sh1 C I). }
  assert (G : forall j h r, good [] h r ->
     good [] h (gotos HState (h_act act) (h_do test) (h_do init) (h_do step) (h_select select) bef aft call j n x r)).
  { induction j as [|j IH]; intros h [[[] [s1 h1]] lg] Gr; try exact Gr.
    cbn [gotos]. destruct (has_label l x) eqn:Hl; [|exact Gr].
    apply (logged_good []). apply IH. unfold good in Gr. cbn in Gr. subst h1. exact (E (AtLabel l) (s1, h ++ texts lg) Hl). }
  unfold body_run. specialize (G n _ _ (E Start sh eq_refl)).
  destruct (gotos _ _ _ _ _ _ _ _ _ _ _ _ _) as [[[] s'] lg']; exact G.
Qed.
End Calls.

Theorem call_texts (P : N -> option cstmt) n :
  (forall f x, P f = Some x -> covered tx None x = true) ->
  forall d f s h, let '(_, (_, h'), lg) :=
     call (h_act act) (h_do test) (h_do init) (h_do step) (h_select select) bef aft P d n f (s, h) in
  h' = h ++ texts lg.
Proof.
  intros C d f s h.
  assert (G : forall d f sh, good [] (snd sh)
     (call (h_act act) (h_do test) (h_do init) (h_do step) (h_select select) bef aft P d n f sh)).
  { induction d0 as [|d0 IH]; intros f0 sh; cbn [call]; [unfold good; cbn; rewrite app_nil_r; reflexivity|].
    destruct (P f0) as [x|] eqn:E; [|unfold good; cbn; rewrite app_nil_r; reflexivity].
    apply body_good; [exact IH|exact (C _ _ E)]. }
  specialize (G d f (s, h)). unfold good in G. destruct (call _ _ _ _ _ _ _ _ _ _ _ _) as [[b [s' h']] lg]. exact G.
Qed.
End Executed.

(** ** Runs that differ in what they remember and in what they log *)
Inductive comp_rel {State1 State2 A} (pi : State1 -> State2) : comp State1 A -> comp State2 A -> Prop :=
| cr_done : forall a s, comp_rel pi (Done _ _ a s) (Done _ _ a (pi s))
| cr_call : forall f s k1 k2, (forall s, comp_rel pi (k1 s) (k2 (pi s))) ->
    comp_rel pi (Call _ _ f s k1) (Call _ _ f (pi s) k2).

Section Morph.
Variable State1 State2 : Type.
Variable pi : State1 -> State2.
Variable act1 : N -> State1 -> comp State1 jump.
Variable test1 : N -> State1 -> comp State1 bool.
Variable init1 step1 : N -> State1 -> comp State1 unit.
Variable select1 : N -> list N -> State1 -> comp State1 (option nat).
Variable act2 : N -> State2 -> comp State2 jump.
Variable test2 : N -> State2 -> comp State2 bool.
Variable init2 step2 : N -> State2 -> comp State2 unit.
Variable select2 : N -> list N -> State2 -> comp State2 (option nat).
Hypothesis acts : forall a s, comp_rel pi (act1 a s) (act2 a (pi s)).
Hypothesis tests : forall a s, comp_rel pi (test1 a s) (test2 a (pi s)).
Hypothesis inits : forall a s, comp_rel pi (init1 a s) (init2 a (pi s)).
Hypothesis steps : forall a s, comp_rel pi (step1 a s) (step2 a (pi s)).
Hypothesis selects : forall a l s, comp_rel pi (select1 a l s) (select2 a l (pi s)).
Variable bef1 aft1 bef2 aft2 : path -> list istmt.
Variable phi : istmt * State1 -> log State2.
Hypothesis phi_bef : forall p s, flat_map phi (note State1 (bef1 p) s) = note State2 (bef2 p) (pi s).
Hypothesis phi_aft : forall p s, flat_map phi (note State1 (aft1 p) s) = note State2 (aft2 p) (pi s).

Definition morph {A} (r : A * State1 * log State1) : A * State2 * log State2 :=
  let '(o, s, l) := r in (o, pi s, flat_map phi l).
Lemma morph_logged l (r : result State1) : morph (logged State1 l r) = logged State2 (flat_map phi l) (morph r).
Proof. destruct r as [[o s] l']. cbn. rewrite flat_map_app. reflexivity. Qed.

Section Calls.
Variable call1 : N -> State1 -> bool * State1 * log State1.
Variable call2 : N -> State2 -> bool * State2 * log State2.
Hypothesis calls : forall f s, morph (call1 f s) = call2 f (pi s).
Lemma run_morph {A} (c1 : comp State1 A) c2 : comp_rel pi c1 c2 -> morph (run State1 call1 c1) = run State2 call2 c2.
Proof.
  induction 1 as [a s|f s k1 k2 _ IH]; cbn [run]; [reflexivity|].
  specialize (calls f s). rewrite <- calls. destruct (call1 f s) as [[b s1] l1]. cbn [morph].
  destruct b; [|reflexivity]. rewrite <- (IH s1). destruct (run State1 call1 (k1 s1)) as [[a s2] l2]. cbn. rewrite flat_map_app. reflexivity.
Qed.
Lemma bind_morph {A} (c1 : comp State1 A) c2 k1 k2 : comp_rel pi c1 c2 -> (forall a s, morph (k1 a s) = k2 a (pi s)) ->
  morph (bind State1 call1 c1 k1) = bind State2 call2 c2 k2.
Proof.
  intros C K. unfold bind. rewrite <- (run_morph _ _ C). destruct (run State1 call1 c1) as [[[a|] s] l]; cbn [morph]; [|reflexivity].
  rewrite morph_logged, K. reflexivity.
Qed.
Lemma next_morph (r : result State1) k1 k2 : (forall s, morph (k1 s) = k2 (pi s)) ->
  morph (next State1 r k1) = next State2 (morph r) k2.
Proof. intros K. destruct r as [[[] s] l]; try reflexivity. cbn [next morph]. rewrite morph_logged, K. reflexivity. Qed.
Lemma after_round_morph (r : result State1) k1 k2 : (forall s, morph (k1 s) = k2 (pi s)) ->
  morph (after_round State1 r k1) = after_round State2 (morph r) k2.
Proof. intros K. destruct r as [[[] s] l]; try reflexivity; cbn [after_round morph]; rewrite morph_logged, K; reflexivity. Qed.
Lemma rounds_morph n c b1 b2 a1 a2 : (forall s, morph (b1 s) = b2 (pi s)) -> (forall s, morph (a1 s) = a2 (pi s)) ->
  forall s, morph (rounds State1 test1 call1 n c b1 a1 s) = rounds State2 test2 call2 n c b2 a2 (pi s).
Proof.
  intros B A. induction n as [|n IH]; intros s; cbn [rounds]; [reflexivity|].
  apply bind_morph; [apply tests|]. intros [] s1; [|reflexivity].
  assert (G : morph (after_round State1 (b1 s1) (fun s => next State1 (a1 s) (rounds State1 test1 call1 n c b1 a1))) =
          after_round State2 (b2 (pi s1)) (fun s => next State2 (a2 s) (rounds State2 test2 call2 n c b2 a2))).
  { rewrite <- B. apply after_round_morph. intros s2. rewrite <- A. apply next_morph, IH. }
  rewrite <- B in *. destruct (b1 s1) as [[[] s'] l']; exact G.
Qed.
Notation exec1 := (exec State1 act1 test1 init1 step1 select1 bef1 aft1 call1).
Notation exec2 := (exec State2 act2 test2 init2 step2 select2 bef2 aft2 call2).
Lemma stepping_morph c s : morph (stepping State1 step1 call1 c s) = stepping State2 step2 call2 c (pi s).
Proof. apply bind_morph; [apply steps|reflexivity]. Qed.
Lemma exec_morph n x : plain x = true -> forall m s, morph (exec1 n m x s) = exec2 n m x (pi s).
Proof.
  induction x as [st|p x IH|l IH|c x IH|c x y IHx IHy|c x IH|x c IH|c x IH|v x IH|l x IH] using cstmt_rect';
    intros Pl m s; cbn [plain] in Pl.
  - destruct st; [|reflexivity|discriminate]. cbn. apply bind_morph; [apply acts|reflexivity].
  - cbn [exec].
    assert (K : forall s1 : State1, morph (Next, s1, note State1 (aft1 p) s1) = (Next, pi s1, note State2 (aft2 p) (pi s1))).
    { intros s1. cbn. rewrite phi_aft. reflexivity. }
    rewrite (next_morph _ (fun s1 => (Next, s1, note State1 (aft1 p) s1)) (fun s1 => (Next, s1, note State2 (aft2 p) s1)) K). f_equal.
    destruct m; rewrite ?morph_logged, ?phi_bef, (IH Pl); reflexivity.
  - rewrite !exec_block. revert m s.
    induction IH as [|y r Hy _ IHr]; intros m s; cbn [seqx]; [reflexivity|].
    cbn [forallb] in Pl. apply andb_prop in Pl. destruct Pl as [P1 P2].
    destruct (inside m y); [|apply IHr, P2]. rewrite <- (Hy P1). apply next_morph. apply IHr, P2.
  - cbn [exec]. destruct m; try apply IH, Pl. apply bind_morph; [apply tests|]. intros [] s1; [apply IH, Pl|reflexivity].
  - apply andb_prop in Pl. destruct Pl as [P1 P2]. cbn [exec]. destruct m.
    + apply bind_morph; [apply tests|]. intros [] s1; [apply IHx, P1|apply IHy, P2].
    + destruct (inside (AtCase n0) x); [apply IHx, P1|apply IHy, P2].
    + destruct (inside (AtLabel l) x); [apply IHx, P1|apply IHy, P2].
  - cbn [exec].
    assert (R : forall s, morph (rounds State1 test1 call1 n c (exec1 n Start x) (stepping State1 step1 call1 c) s) =
       rounds State2 test2 call2 n c (exec2 n Start x) (stepping State2 step2 call2 c) (pi s)).
    { apply rounds_morph; [apply IH, Pl|apply stepping_morph]. }
    destruct m.
    + apply bind_morph; [apply inits|]. intros _ s1. apply R.
    + rewrite <- (IH Pl). apply after_round_morph. intros s1. rewrite <- stepping_morph. apply next_morph, R.
    + rewrite <- (IH Pl). apply after_round_morph. intros s1. rewrite <- stepping_morph. apply next_morph, R.
  - cbn [exec]. rewrite <- (IH Pl). apply after_round_morph. apply rounds_morph; [apply IH, Pl|reflexivity].
  - cbn [exec].
    assert (Q : forall r : result State1, morph (after_switch State1 r) = after_switch State2 (morph r)).
    { intros [[[] ?] ?]; reflexivity. }
    rewrite Q. f_equal. destruct m; try apply IH, Pl. apply bind_morph; [apply selects|]. intros [i|] s1; [|reflexivity].
    destruct (inside (AtCase i) x); [apply IH, Pl|reflexivity].
  - cbn [exec]. destruct m as [|[|k]|k]; apply IH, Pl.
  - cbn [exec]. destruct m; apply IH, Pl.
Qed.
Lemma body_morph n x s : plain x = true ->
  morph (body_run State1 act1 test1 init1 step1 select1 bef1 aft1 call1 n x s) =
  body_run State2 act2 test2 init2 step2 select2 bef2 aft2 call2 n x (pi s).
Proof.
  intros Pl. unfold body_run. rewrite <- (exec_morph n x Pl).
  assert (G : forall j r,
     morph (gotos State1 act1 test1 init1 step1 select1 bef1 aft1 call1 j n x r) =
     gotos State2 act2 test2 init2 step2 select2 bef2 aft2 call2 j n x (morph r)).
  { induction j as [|j IH]; intros [[[] s1] lg]; try reflexivity.
    cbn [gotos morph]. destruct (has_label l x); [|reflexivity].
    rewrite morph_logged, IH, (exec_morph n x Pl). reflexivity. }
  rewrite <- G. destruct (gotos _ _ _ _ _ _ _ _ _ _ _ _ _) as [[[] s'] lg']; reflexivity.
Qed.
End Calls.

Theorem call_morph (P : N -> option cstmt) n : (forall f x, P f = Some x -> plain x = true) -> forall d f s,
  morph (call act1 test1 init1 step1 select1 bef1 aft1 P d n f s) =
  call act2 test2 init2 step2 select2 bef2 aft2 P d n f (pi s).
Proof.
  intros Pl. induction d as [|d IH]; intros f s; cbn [call]; [reflexivity|].
  destruct (P f) as [x|] eqn:E; [|reflexivity]. apply body_morph; [exact IH|exact (Pl _ _ E)].
Qed.
End Morph.

(** The history does not influence the run. *)
Lemma remember_rel {State A} (c : comp State A) : forall h, comp_rel (@fst State (list N)) (remember h c) c.
Proof.
  induction c as [a s|f s k IH]; intros h; cbn [remember].
  - exact (cr_done (@fst State (list N)) a (s, h)).
  - apply (cr_call (@fst State (list N)) f (s, h)). intros [s1 h1]. apply IH.
Qed.
Definition forget {State A} (r : A * (State * list N) * log (State * list N)) : A * State * log State :=
  let '(o, s, l) := r in (o, fst s, map (fun e => (fst e, fst (snd e))) l).
Theorem call_forget {State} act test init step select bef aft (P : N -> option cstmt) n :
  (forall f x, P f = Some x -> plain x = true) -> forall d f (s : State) h,
  forget (call (h_act act) (h_do test) (h_do init) (h_do step) (h_select select) bef aft P d n f (s, h)) =
  call act test init step select bef aft P d n f s.
Proof.
  intros Pl d f s h.
  pose proof (call_morph (State * list N) State fst (h_act act) (h_do test) (h_do init) (h_do step) (h_select select)
     act test init step select) as M.
  specialize (M (fun a s => remember_rel _ _) (fun a s => remember_rel _ _) (fun a s => remember_rel _ _)
     (fun a s => remember_rel _ _) (fun a l s => remember_rel _ _) bef aft bef aft (fun e => [(fst e, fst (snd e))])).
  assert (Nt : forall (l : list istmt) sh, flat_map (fun e => [(fst e, fst (snd e))]) (note (State * list N) l sh) = note State l (fst sh)).
  { intros l sh. induction l as [|i l IH]; cbn; [reflexivity|]. f_equal. exact IH. }
  specialize (M (fun p sh => Nt _ sh) (fun p sh => Nt _ sh) P n Pl d f (s, h)). cbn [fst] in M. rewrite <- M.
  destruct (call _ _ _ _ _ _ _ _ _ _ _ _) as [[b sh] l]. cbn. f_equal.
Qed.

(** ** The log is a list of passes of marks *)
Fixpoint enc (p : path) : positive :=
  match p with [] => xH | i :: r => Nat.iter i xO (xI (enc r)) end.
Fixpoint dec (i : nat) (q : positive) : path :=
  match q with xH => [] | xO q => dec (S i) q | xI q => i :: dec 0 q end.
Lemma dec_enc p : dec 0 (enc p) = p.
Proof.
  induction p as [|i p IH]; [reflexivity|]. cbn [enc].
  assert (G : forall k j, dec j (Nat.iter k xO (xI (enc p))) = (j + k) :: p).
  { induction k as [|k IHk]; intros j; cbn [Nat.iter nat_rect dec].
    - rewrite IH, Nat.add_0_r. reflexivity.
    - rewrite IHk. f_equal. lia. }
  apply G.
Qed.
Definition pass_id (after : bool) (p : path) : istmt := IId (Npos (if after then xI (enc p) else xO (enc p))).
Definition pass_of (i : istmt) : bool * path :=
  match i with
  | IId (Npos (xI q)) => (true, dec 0 q)
  | IId (Npos (xO q)) => (false, dec 0 q)
  | _ => (false, [])
  end.
Lemma pass_of_id a p : pass_of (pass_id a p) = (a, p).
Proof. destruct a; cbn; rewrite dec_enc; reflexivity. Qed.

Lemma same_rel {State A} (c : comp State A) : comp_rel (fun s => s) c c.
Proof. induction c as [a s|f s k IH]; [exact (cr_done (fun s => s) a s)|exact (cr_call (fun s => s) f s k k IH)]. Qed.

Theorem call_passes {State} act test init step select (P : N -> option cstmt) n :
  (forall f x, P f = Some x -> plain x = true) -> forall d f (s : State),
  exists b s' (l : list (bool * path * State)), forall bef aft,
    call act test init step select bef aft P d n f s = (b, s', flat_map (passed bef aft) l).
Proof.
  intros Pl d f s.
  set (c0 := call act test init step select (fun p => [pass_id false p]) (fun p => [pass_id true p]) P d n f s).
  exists (fst (fst c0)), (snd (fst c0)), (map (fun e => (pass_of (fst e), snd e)) (snd c0)). intros bef aft.
  pose proof (call_morph State State (fun s => s) act test init step select act test init step select
     (fun _ _ => same_rel _) (fun _ _ => same_rel _) (fun _ _ => same_rel _) (fun _ _ => same_rel _) (fun _ _ _ => same_rel _)
     (fun p => [pass_id false p]) (fun p => [pass_id true p]) bef aft
     (fun e => passed bef aft (pass_of (fst e), snd e))) as M.
  assert (N1 : forall p s, flat_map (fun e => passed bef aft (pass_of (fst e), snd e)) (note State [pass_id false p] s) = note State (bef p) s).
  { intros p s0. cbn [note map flat_map fst snd]. rewrite pass_of_id. cbn. apply app_nil_r. }
  assert (N2 : forall p s, flat_map (fun e => passed bef aft (pass_of (fst e), snd e)) (note State [pass_id true p] s) = note State (aft p) s).
  { intros p s0. cbn [note map flat_map fst snd]. rewrite pass_of_id. cbn. apply app_nil_r. }
  specialize (M N1 N2 P n Pl d f s). cbv beta in M. rewrite <- M. fold c0. destruct c0 as [[b s'] l]. cbn [morph fst snd].
  f_equal. clear. induction l as [|e l IH]; cbn [flat_map map]; [reflexivity|]. rewrite IH. reflexivity.
Qed.

(** A listed AST is found at its position. *)
Lemma desc_lookup struct_like t : forall x q, In q (desc struct_like x t) -> lookup t (pl_path q) = Some (pl_ast q).
Proof.
  induction t as [k c a b ks af _ Hks _] using ast_rect'. intros x q H. rewrite desc_eq in H.
  apply in_app_iff in H. destruct H as [H|[<-|[]]]; [|reflexivity]. cbn [n_kids] in H.
  set (t0 := Node k c a b ks af) in *.
  assert (G : forall l i prev, Forall (fun t => forall x q, In q (desc struct_like x t) -> lookup t (pl_path q) = Some (pl_ast q)) l ->
     In q (desc_list struct_like x t0 i prev l) ->
     exists j r y, pl_path q = (i + j) :: r /\ nth_error l j = Some y /\ lookup y r = Some (pl_ast q)).
  { induction l as [|y r IH]; intros i prev F Hq; [destruct Hq|]. cbn in Hq. inversion F as [|? ? Fy Fr]; subst.
    apply in_app_iff in Hq. destruct Hq as [Hq|Hq].
    - destruct (IH _ _ Fr Hq) as (j & rr & z & E1 & E2 & E3). exists (S j), rr, z.
      replace (i + S j) with (S i + j) by lia. auto.
    - apply in_map_iff in Hq. destruct Hq as (q' & <- & Hq'). exists 0, (pl_path q'), y.
      rewrite Nat.add_0_r. cbn. repeat split. exact (Fy _ _ Hq'). }
  destruct (G ks 0 None Hks H) as (j & r & y & E1 & E2 & E3). rewrite E1. cbn. rewrite E2. exact E3.
Qed.
