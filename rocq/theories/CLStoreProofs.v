From Coq Require Import Strings.String.
From Verif Require Import BaseProofs Types Compare CApi CApiSpec Archive ArchiveSpec ArchiveProofs3 Dec PrintPred CLStore CLStoreSpec.
From Verif Require P_Archive.

(** Written codes that come back as they were, for all classes, or all but the view. *)
Definition intact (view : bool) (w : N -> N) : Prop :=
  w c_symbol = c_symbol /\ w c_string = c_string /\ w c_cons = c_cons /\ w c_object = c_object /\
  w c_sexp_view = c_sexp_view /\ w c_db = c_db /\ (view = true -> w c_view = c_view).

Lemma serial_nonempty ver d : exists b s, serialize_trace_db ver d = b :: s.
Proof. unfold serialize_trace_db, header. change (show_N (lenN signature)) with [x32; x32]. eexists _, _. reflexivity. Qed.

Lemma store_len w ver o : (1 <= List.length (store w ver o))%nat.
Proof. destruct o; cbn [store List.length]; lia. Qed.

(** One step. *)
Section Steps.
Variables (ver : N) (ok : N -> bool).
Lemma step_sym f x r : restore_fuel ver ok (S f) (ICode c_symbol :: IText x :: r) = Got (LSym x) r.
Proof. reflexivity. Qed.
Lemma step_text f x r : restore_fuel ver ok (S f) (ICode c_string :: IText x :: r) = Got (LText x) r.
Proof. reflexivity. Qed.
Lemma step_cons f a d r r' r'' : restore_fuel ver ok f r = Got a r' -> restore_fuel ver ok f r' = Got d r'' ->
  restore_fuel ver ok (S f) (ICode c_cons :: r) = Got (LCons a d) r''.
Proof. intros A D. cbn. rewrite A, D. reflexivity. Qed.
Lemma step_db f l r r' : restore_fuel ver ok f r = Got l r' -> restore_fuel ver ok (S f) (ICode c_db :: r) = restore_db ver ok l r'.
Proof. intros A. cbn. rewrite A. reflexivity. Qed.
Lemma error_db r : (forall f, restore_fuel ver ok f r = Error) -> forall f, restore_fuel ver ok f (ICode c_db :: r) = Error.
Proof. intros A [|f]; [reflexivity|]. cbn. rewrite A. reflexivity. Qed.
Lemma error_cons1 r : (forall f, restore_fuel ver ok f r = Error) -> forall f, restore_fuel ver ok f (ICode c_cons :: r) = Error.
Proof. intros A [|f]; [reflexivity|]. cbn. rewrite A. reflexivity. Qed.
Lemma error_cons r a r' : (forall f, restore_fuel ver ok f r = Error \/ restore_fuel ver ok f r = Got a r') -> (forall f, restore_fuel ver ok f r' = Error) ->
  forall f, restore_fuel ver ok f (ICode c_cons :: r) = Error.
Proof. intros A D [|f]; [reflexivity|]. cbn. destruct (A f) as [->| ->]; [reflexivity|]. rewrite D. reflexivity. Qed.
End Steps.

(** More fuel does not change what is read. *)
Lemma fuel_up ver ok : forall f g s o r, restore_fuel ver ok f s = Got o r -> (f <= g)%nat -> restore_fuel ver ok g s = Got o r.
Proof.
  induction f as [|f IH]; intros g s o r H L; [discriminate H|]. destruct g as [|g]; [lia|]. cbn [restore_fuel] in *.
  destruct s as [|[c|x] s]; try discriminate H.
  destruct (c =? c_symbol); [exact H|]. destruct (c =? c_string); [exact H|].
  destruct (c =? c_cons).
  { destruct (restore_fuel ver ok f s) as [a r1|] eqn:E1; [|discriminate H]. rewrite (IH g _ _ _ E1) by lia.
    destruct (restore_fuel ver ok f r1) as [d r2|] eqn:E2; [|discriminate H]. rewrite (IH g _ _ _ E2) by lia. exact H. }
  destruct (c =? c_object).
  { destruct s as [|[c'|x] s]; try discriminate H. destruct (restore_fuel ver ok f s) as [a r1|] eqn:E1; [|discriminate H]. rewrite (IH g _ _ _ E1) by lia. exact H. }
  destruct (c =? c_db).
  { destruct (restore_fuel ver ok f s) as [a r1|] eqn:E1; [|discriminate H]. rewrite (IH g _ _ _ E1) by lia. exact H. }
  destruct ((c =? c_view) || (c =? c_sexp_view)); [|discriminate H]. apply IH with (1 := H). lia.
Qed.

Section S.
Variables (ver : N) (ok : N -> bool) (w : N -> N).
Hypothesis Hok : forall n, ok n = true.
Hypothesis Hver : ver < 2 ^ 16.

Lemma store_restore view o : intact view w -> dbs_storable o -> (view = false -> has_view o = false) ->
  exists o', comes_back o o' /\ forall rest fuel, (List.length (store w ver o) < fuel)%nat -> restore_fuel ver ok fuel (store w ver o ++ rest) = Got o' rest.
Proof.
  intros (W1 & W2 & W3 & W4 & W5 & W6 & W7). induction o as [s|s|a IHa d IHd|c l IHl|d m IHm| |]; intros D V; cbn [store dbs_storable has_view] in *.
  - eexists. split; [constructor|]. intros rest [|f] H; [lia|]. cbn. rewrite W1. reflexivity.
  - eexists. split; [constructor|]. intros rest [|f] H; [lia|]. cbn. rewrite W2. reflexivity.
  - destruct IHa as (a' & Ca & Ra); [tauto|intros E; specialize (V E); apply orb_false_iff in V; tauto|].
    destruct IHd as (d' & Cd & Rd); [tauto|intros E; specialize (V E); apply orb_false_iff in V; tauto|].
    exists (LCons a' d'). split; [constructor; assumption|]. intros rest [|f] H; [lia|]. cbn [List.length] in H. rewrite app_length in H.
    rewrite W3. cbn [app]. rewrite <- app_assoc. cbn [restore_fuel]. change (c_cons =? c_symbol) with false. change (c_cons =? c_string) with false. change (c_cons =? c_cons) with true. cbn iota.
    rewrite Ra by lia. rewrite Rd by lia. reflexivity.
  - destruct IHl as (l' & Cl & Rl); auto. exists (LStd c l'). split; [constructor; assumption|]. intros rest [|f] H; [lia|]. cbn [List.length] in H.
    rewrite W4. cbn. rewrite Rl by lia. reflexivity.
  - destruct IHm as (m' & Cm & Rm); [tauto|auto|]. destruct D as [Ds _].
    destruct (P_Archive.C31_storable ok ver d [] Hok Hver Ds) as (_ & d' & Ed & Td & _).
    exists (LDb d' m'). split; [constructor; assumption|]. intros rest fuel H.
    destruct (serial_nonempty ver d) as (b & s & Es). rewrite Es in *.
    rewrite W1, W2, W3, W6 in *. cbn [app List.length] in *. rewrite app_length in H. cbn [List.length] in H.
    do 5 (destruct fuel as [|fuel]; [lia|]). rewrite <- app_assoc.
    erewrite step_db; [|eapply step_cons; [eapply step_cons; [apply step_sym|apply step_text]|eapply step_cons; [eapply step_cons; [apply step_sym|apply Rm; lia]|apply step_sym]]].
    unfold restore_db.
    change (lassoc (text "TRACE-METADATA") (LCons (LCons (LSym (text "DB")) (LText (b :: s))) (LCons (LCons (LSym (text "TRACE-METADATA")) m') (LSym (text "NIL"))))) with m'.
    change (lassoc (text "DB") (LCons (LCons (LSym (text "DB")) (LText (b :: s))) (LCons (LCons (LSym (text "TRACE-METADATA")) m') (LSym (text "NIL"))))) with (LText (b :: s)).
    cbn iota. rewrite Ed. reflexivity.
  - destruct view; [|discriminate (V eq_refl)]. exists lnil. split; [constructor|]. intros rest [|[|f]] H; cbn in H; try lia. cbn. rewrite W7, W1 by reflexivity. reflexivity.
  - exists lnil. split; [constructor|]. intros rest [|[|f]] H; cbn in H; try lia. cbn. rewrite W5, W1. reflexivity.
Qed.

(** Nothing is read behind a view whose code has no restorer. *)
Lemma store_error o : intact false w -> (forall r f, restore_fuel ver ok f (ICode (w c_view) :: r) = Error) -> dbs_storable o -> has_view o = true ->
  forall rest fuel, restore_fuel ver ok fuel (store w ver o ++ rest) = Error.
Proof.
  intros I E. pose proof I as (W1 & W2 & W3 & W4 & W5 & W6 & W7).
  induction o as [s|s|a IHa d IHd|c l IHl|d m IHm| |]; intros D V rest fuel; cbn [store dbs_storable has_view] in *; try discriminate V.
  - destruct fuel as [|f]; [reflexivity|]. rewrite W3. cbn [app]. rewrite <- app_assoc. cbn [restore_fuel]. change (c_cons =? c_symbol) with false. change (c_cons =? c_string) with false. change (c_cons =? c_cons) with true. cbn iota.
    destruct (has_view a) eqn:Va; [rewrite IHa by tauto; reflexivity|]. cbn in V.
    destruct (store_restore false a I) as (a' & _ & Ra); [tauto|auto|].
    destruct (restore_fuel ver ok f (store w ver a ++ store w ver d ++ rest)) as [x r|] eqn:Ef; [|reflexivity].
    assert (Hx : r = store w ver d ++ rest).
    { specialize (Ra (store w ver d ++ rest) (max f (S (List.length (store w ver a))))). rewrite (fuel_up ver ok _ (max f (S (List.length (store w ver a)))) _ _ _ Ef) in Ra by lia.
      injection (Ra ltac:(lia)); auto. }
    subst r. rewrite IHd by tauto. reflexivity.
  - destruct fuel as [|f]; [reflexivity|]. rewrite W4. cbn. rewrite IHl by auto. reflexivity.
  - rewrite W1, W2, W3, W6 in *. destruct (serial_nonempty ver d) as (b & s & Es). rewrite Es in *. remember (store w ver m) as sm eqn:Esm.
    cbn [app]. rewrite <- app_assoc. apply error_db.
    assert (X : forall f, restore_fuel ver ok f (ICode c_cons :: ICode c_symbol :: IText (text "DB") :: ICode c_string :: IText (b :: s) :: ICode c_cons :: ICode c_cons :: ICode c_symbol :: IText (text "TRACE-METADATA") :: sm ++ [ICode c_symbol; IText (text "NIL")] ++ rest) = Error \/
      restore_fuel ver ok f (ICode c_cons :: ICode c_symbol :: IText (text "DB") :: ICode c_string :: IText (b :: s) :: ICode c_cons :: ICode c_cons :: ICode c_symbol :: IText (text "TRACE-METADATA") :: sm ++ [ICode c_symbol; IText (text "NIL")] ++ rest)
       = Got (LCons (LSym (text "DB")) (LText (b :: s))) (ICode c_cons :: ICode c_cons :: ICode c_symbol :: IText (text "TRACE-METADATA") :: sm ++ [ICode c_symbol; IText (text "NIL")] ++ rest)).
    { intros [|[|f]]; [left; reflexivity|left; reflexivity|]. right. eapply step_cons; [apply step_sym|apply step_text]. }
    intros f. eapply error_cons; [exact X|]. clear X f. intros f. apply error_cons1. clear f. intros f.
    eapply error_cons; [intros [|g]; [left; reflexivity|right; apply step_sym]|]. intros g. apply IHm; tauto.
  - apply E.
Qed.
End S.
