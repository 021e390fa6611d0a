From Verif Require Import Base Types Compare Predicate Query ConcQuery ConcQuerySpec ConcQueryProofs.

Section Bad.
Variable grow : nat -> nat.
Variable points : nat -> list pt.
Variable ok : N -> bool.
Variable pick : N -> N -> N.
Variable O : fops.
Notation exec := (qexec grow points ok pick O).
Notation qp := (qpick grow points ok pick O).

Lemma set_at_self : forall A (l : list A) i x, nth_error l i = Some x -> set_at l i x = l.
Proof. induction l as [|y l IH]; intros [|i] x H; cbn in *; try discriminate; [congruence|rewrite IH by exact H; reflexivity]. Qed.
Lemma set_at_twice : forall A (l : list A) i x y, set_at (set_at l i x) i y = set_at l i y.
Proof. induction l as [|z l IH]; intros [|i] x y; cbn; try reflexivity. rewrite IH. reflexivity. Qed.

Lemma exec_app : forall a b st, exec (a ++ b) st = exec b (exec a st).
Proof. induction a as [|i a IH]; intros b st; cbn; [reflexivity|apply IH]. Qed.

Lemma pick_step : forall i sh ts c s sh' s', nth_error ts i = Some (c, s) -> qstep grow points ok pick O c sh s = Some (sh', s') ->
  qp i (sh, ts) = (sh', set_at ts i (c, s')).
Proof. intros. unfold qpick. rewrite H, H0. reflexivity. Qed.

Lemma fill_run : forall i c r sh ts l, nth_error ts i = Some (c, QFill r) -> good sh -> holds sh (key_of c) l ->
  exists sh', exec (repeat i (length r)) (sh, ts) = (sh', set_at ts i (c, QFill [])) /\ good sh' /\
    holds sh' (key_of c) (l ++ sel c r).
Proof.
  intros i c. induction r as [|p r IH]; intros sh ts l Hi G H.
  - exists sh. cbn. rewrite app_nil_r, set_at_self by exact Hi. auto.
  - cbn [length repeat qexec]. unfold sel. cbn [filter].
    destruct (N.land (p_stmt p) (q_mask (snd c)) =? q_stmt (snd c)) eqn:E.
    + destruct (push_point_good grow sh (key_of c) p l G H) as (sh1 & P & G1 & H1 & _).
      erewrite pick_step; [|exact Hi|cbn [qstep]; rewrite E, P; reflexivity].
      destruct (IH sh1 (set_at ts i (c, QFill r)) (l ++ [p])) as (sh' & X & G' & H'); auto.
      { eapply set_at_same. exact Hi. }
      exists sh'. rewrite X, set_at_twice. split; [reflexivity|]. split; [exact G'|].
      rewrite <- app_assoc in H'. exact H'.
    + erewrite pick_step; [|exact Hi|cbn [qstep]; rewrite E; reflexivity].
      destruct (IH sh (set_at ts i (c, QFill r)) l) as (sh' & X & G' & H'); auto.
      { eapply set_at_same. exact Hi. }
      exists sh'. rewrite X, set_at_twice. auto.
Qed.

Lemma copy_run : forall i c b L sh n ts k, buffer sh b = Some L -> (k + n = length L)%nat ->
  nth_error ts i = Some (c, QCopy b (length L) k (firstn k L)) ->
  exec (repeat i n) (sh, ts) = (sh, set_at ts i (c, QCopy b (length L) (length L) L)).
Proof.
  intros i c b L sh. induction n as [|n IH]; intros ts k HB E Hi.
  - cbn. assert (k = length L) by lia. subst k. rewrite firstn_all in Hi. rewrite set_at_self by exact Hi. reflexivity.
  - cbn [repeat qexec]. destruct (nth_error L k) as [p|] eqn:Hp; [|apply nth_error_None in Hp; lia].
    erewrite pick_step; [|exact Hi|cbn [qstep]; rewrite (proj2 (Nat.ltb_lt k (length L))) by lia; rewrite HB, Hp; reflexivity].
    rewrite (IH _ (S k)); [rewrite set_at_twice; reflexivity|exact HB|lia|].
    erewrite set_at_same by exact Hi. rewrite (firstn_S _ _ _ _ Hp). reflexivity.
Qed.
Lemma read_run : forall i c L sh ts, nth_error ts i = Some (c, QRef) -> holds sh (key_of c) L ->
  exec (repeat i (length L + 3)) (sh, ts) = (sh, set_at ts i (c, QDone (on_points ok pick O (snd c) L))).
Proof.
  intros i c L sh ts Hi (v & F & B & HL). replace (length L + 3)%nat with (1 + (length L + 2))%nat by lia.
  rewrite !repeat_app, !exec_app. cbn [repeat qexec].
  erewrite pick_step; [|exact Hi|cbn [qstep]; rewrite F; reflexivity]. rewrite HL.
  rewrite (copy_run i c (vc_buf v) L sh (length L) _ 0 B); [|lia|eapply set_at_same; exact Hi].
  rewrite set_at_twice.
  erewrite pick_step; [|eapply set_at_same; exact Hi|cbn [qstep]; rewrite Nat.ltb_irrefl; reflexivity].
  rewrite set_at_twice.
  erewrite pick_step; [|eapply set_at_same; exact Hi|cbn [qstep]; reflexivity].
  rewrite set_at_twice. reflexivity.
Qed.

Lemma good_of_cache : forall sh, cache_good points sh -> good sh.
Proof. intros sh H. exact (proj1 (start_inv points ok pick O sh [] H)). Qed.

Lemma lost_lemma : forall sh c d, map_find (cs_map sh) (key_of c) = None -> key_of c = key_of d ->
  exists sh' s, exec [0; 0; 1; 1; 1; 1]%nat (qstart sh [c; d]) = (sh', [(c, s); (d, QDone (Ok []))]).
Proof.
  intros sh c d F E. unfold qstart; cbn [qexec map].
  erewrite (pick_step 0); [|reflexivity|cbn [qstep]; rewrite F; reflexivity]. cbn [set_at].
  erewrite (pick_step 0); [|reflexivity|cbn [qstep]; reflexivity]. cbn [set_at]. rewrite F.
  erewrite (pick_step 1); [|reflexivity|cbn [qstep cs_map]; rewrite <- E, find_set_same; reflexivity]. cbn [set_at].
  erewrite (pick_step 1); [|reflexivity|cbn [qstep cs_map]; rewrite <- E, find_set_same; reflexivity]. cbn [set_at vc_buf vc_len].
  erewrite (pick_step 1); [|reflexivity|cbn [qstep]; reflexivity]. cbn [set_at].
  erewrite (pick_step 1); [|reflexivity|cbn [qstep]; reflexivity]. cbn [set_at].
  eexists _, _. replace (on_points ok pick O (snd d) []) with (@Ok (list pt) []); [reflexivity|].
  unfold on_points. destruct (q_seed (snd d) =? 0); reflexivity.
Qed.

Lemma both_insert : forall sh c d, good sh -> map_find (cs_map sh) (key_of c) = None -> key_of c = key_of d ->
  exists sh', exec [0; 1; 0; 1]%nat (qstart sh [c; d]) = (sh', [(c, QFill (points (fst c))); (d, QFill (points (fst d)))]) /\
    good sh' /\ holds sh' (key_of c) [].
Proof.
  intros sh c d G F E. unfold qstart; cbn [qexec map].
  erewrite (pick_step 0); [|reflexivity|cbn [qstep]; rewrite F; reflexivity]. cbn [set_at].
  erewrite (pick_step 1); [|reflexivity|cbn [qstep]; rewrite <- E, F; reflexivity]. cbn [set_at].
  pose proof (insert_good sh (key_of c) G) as (G1 & H1 & _). 
  erewrite (pick_step 0); [|reflexivity|cbn [qstep]; reflexivity]. cbn [set_at].
  set (sh1 := mkCS _ _) in *.
  pose proof (insert_good sh1 (key_of d) G1) as (G2 & H2 & _).
  erewrite (pick_step 1); [|reflexivity|cbn [qstep]; reflexivity]. cbn [set_at].
  eexists. split; [reflexivity|]. split; [exact G2|]. rewrite E. exact H2.
Qed.

Lemma sel_key : forall c d r, key_of c = key_of d -> sel c r = sel d r.
Proof. intros [t q] [t' q'] r E. unfold key_of in E. cbn in E. injection E as -> E1 E2. unfold sel. cbn. rewrite E1, E2. reflexivity. Qed.

Lemma alone_twice : forall c, alone ok pick O (fun t => points t ++ points t) c =
  on_points ok pick O (snd c) (selected points c ++ selected points c).
Proof. intros c. rewrite alone_selected. unfold selected. rewrite filter_app. reflexivity. Qed.

Lemma key_trace : forall c d, key_of c = key_of d -> fst c = fst d.
Proof. intros [t q] [t' q'] E. unfold key_of in E. cbn in E. injection E. auto. Qed.

Lemma doubled_lemma : forall sh c d, good sh -> map_find (cs_map sh) (key_of c) = None -> key_of c = key_of d ->
  exists sched sh', exec sched (qstart sh [c; d]) =
    (sh', [(c, QDone (alone ok pick O (fun t => points t ++ points t) c));
           (d, QDone (alone ok pick O (fun t => points t ++ points t) d))]) /\
    holds sh' (key_of c) (selected points c ++ selected points c).
Proof.
  intros sh c d G F E. destruct (both_insert sh c d G F E) as (sh1 & X1 & G1 & H1).
  set (n := length (points (fst c))). set (L := selected points c ++ selected points c).
  assert (En : length (points (fst d)) = n) by (unfold n; rewrite (key_trace _ _ E); reflexivity).
  exists ([0; 1; 0; 1] ++ repeat 0 n ++ repeat 1 n ++ [0; 1] ++ repeat 0 (length L + 3) ++ repeat 1 (length L + 3))%nat.
  rewrite !exec_app, X1.
  destruct (fill_run 0 c (points (fst c)) sh1 [(c, QFill (points (fst c))); (d, QFill (points (fst d)))] [] eq_refl G1 H1)
    as (sh2 & X2 & G2 & H2).
  fold n in X2. rewrite X2. cbn [set_at]. rewrite E in H2.
  destruct (fill_run 1 d (points (fst d)) sh2 [(c, QFill []); (d, QFill (points (fst d)))] ([] ++ sel c (points (fst c))) eq_refl G2)
    as (sh3 & X3 & G3 & H3); [exact H2|].
  rewrite En in X3. rewrite X3. cbn [set_at].
  assert (HL : holds sh3 (key_of c) L).
  { rewrite E. unfold L. replace (selected points c ++ selected points c) with (([] ++ sel c (points (fst c))) ++ sel d (points (fst d))); [exact H3|].
    rewrite <- (sel_key c d _ E), <- (key_trace _ _ E). reflexivity. }
  cbn [qexec].
  erewrite (pick_step 0); [|reflexivity|cbn [qstep]; reflexivity]. cbn [set_at].
  erewrite (pick_step 1); [|reflexivity|cbn [qstep]; reflexivity]. cbn [set_at].
  rewrite (read_run 0 c L sh3 [(c, QRef); (d, QRef)] eq_refl HL). cbn [set_at].
  rewrite (read_run 1 d L sh3 [_; (d, QRef)] eq_refl) by (rewrite <- E; exact HL). cbn [set_at].
  exists sh3. split; [|exact HL]. rewrite !alone_twice. unfold L. rewrite <- (selected_key points c d E). reflexivity.
Qed.

(* a later query of the same points *)
Lemma later_lemma : forall sh c L, holds sh (key_of c) L ->
  exec (repeat 0%nat (length L + 4)) (qstart sh [c]) = (sh, [(c, QDone (on_points ok pick O (snd c) L))]).
Proof.
  intros sh c L H. replace (length L + 4)%nat with (1 + (length L + 3))%nat by lia. rewrite repeat_app, exec_app.
  pose proof H as (v & F & _). unfold qstart; cbn [repeat qexec map].
  erewrite (pick_step 0); [|reflexivity|cbn [qstep]; rewrite F; reflexivity]. cbn [set_at].
  rewrite (read_run 0 c L sh [(c, QRef)] eq_refl H). reflexivity.
Qed.

Lemma dangling_lemma : forall sh c d, good sh -> map_find (cs_map sh) (key_of c) = None -> key_of c = key_of d ->
  selected points c <> [] ->
  exists sched sh' s, exec sched (qstart sh [c; d]) = (sh', [(c, QCrash UDangling); (d, s)]).
Proof.
  intros sh c d G F E NE. 
  set (n := length (points (fst c))).
  exists ([0; 1; 0] ++ repeat 0 n ++ [0; 0; 1; 0])%nat. rewrite !exec_app. unfold qstart; cbn [qexec map].
  erewrite (pick_step 0); [|reflexivity|cbn [qstep]; rewrite F; reflexivity]. cbn [set_at].
  erewrite (pick_step 1); [|reflexivity|cbn [qstep]; rewrite <- E, F; reflexivity]. cbn [set_at].
  pose proof (insert_good sh (key_of c) G) as (G1 & H1 & _). 
  erewrite (pick_step 0); [|reflexivity|cbn [qstep]; reflexivity]. cbn [set_at].
  set (sh1 := mkCS _ _) in *.
  destruct (fill_run 0 c (points (fst c)) sh1 [(c, QFill (points (fst c))); (d, QInsert)] [] eq_refl G1 H1)
    as (sh2 & X2 & G2 & H2).
  fold n in X2. rewrite X2. cbn [set_at].
  erewrite (pick_step 0); [|reflexivity|cbn [qstep]; reflexivity]. cbn [set_at].
  destruct H2 as (v & F2 & B2 & L2).
  erewrite (pick_step 0); [|reflexivity|cbn [qstep]; rewrite F2; reflexivity]. cbn [set_at].
  erewrite (pick_step 1); [|reflexivity|cbn [qstep]; rewrite <- E, F2; reflexivity]. cbn [set_at].
  pose proof (buffer_lt _ _ _ B2) as LT.
  assert (HN : nth_error (cs_bufs sh2) (vc_buf v) = Some (Some ([] ++ sel c (points (fst c))))).
  { unfold buffer in B2. destruct (nth_error (cs_bufs sh2) (vc_buf v)) as [[x|]|]; congruence. }
  assert (LZ : Nat.ltb 0 (vc_len v) = true).
  { apply Nat.ltb_lt. rewrite L2. change ([] ++ sel c (points (fst c))) with (selected points c).
    destruct (selected points c); [contradiction|cbn; lia]. }
  erewrite (pick_step 0); [|reflexivity|].
  2:{ cbn [qstep]. rewrite LZ. unfold buffer at 1. cbn [cs_bufs].
      rewrite nth_error_app1 by (rewrite set_at_len; exact LT).
      rewrite (set_at_same _ _ _ _ _ HN). reflexivity. }
  cbn [set_at]. eauto.
Qed.
End Bad.
