From Verif Require Import BaseProofs Types CApi Lisp LispSpec LispProofs LispProofs2 SexpDb SexpDbSpec.

Lemma of_file_spec : forall f t, of_file f t = in_file f t.
Proof.
  intros f t. unfold of_file, in_file. apply filter_ext. intros p. cbn. destruct (lp_f p); [|reflexivity]. apply N.eqb_sym.
Qed.

Lemma nthN_map : forall A B (g : A -> B) l i, nthN (map g l) i = option_map g (nthN l i).
Proof. induction l as [|x l IH]; intros i; cbn; [reflexivity|]. destruct (i =? 0); [reflexivity|apply IH]. Qed.

Section Views.
Variable A : Type.
Notation w_op := (do_sop A).

Lemma replace_same : forall (w : sworld A) i o x, nth_error w i = Some x -> nth_error (replace A w i o) i = Some o.
Proof. induction w as [|y w IH]; intros [|i] o x H; cbn in *; try discriminate; [reflexivity|eapply IH; exact H]. Qed.
Lemma replace_other : forall (w : sworld A) i j o, i <> j -> nth_error (replace A w i o) j = nth_error w j.
Proof. induction w as [|y w IH]; intros [|i] [|j] o H; cbn; try reflexivity; try congruence. apply IH. congruence. Qed.
Lemma replace_len : forall (w : sworld A) i o, length (replace A w i o) = length w.
Proof. induction w as [|y w IH]; intros [|i] o; cbn; try rewrite IH; reflexivity. Qed.

Lemma splice_same : forall (r : rworld A) i x y, nth_error r i = Some y -> nth_error (firstn i r ++ x :: skipn (S i) r) i = Some x.
Proof. induction r as [|z r IH]; intros [|i] x y H; cbn in *; try discriminate; [reflexivity|eapply IH; exact H]. Qed.
Lemma splice_other : forall (r : rworld A) i j x, (i < length r)%nat -> i <> j -> nth_error (firstn i r ++ x :: skipn (S i) r) j = nth_error r j.
Proof.
  induction r as [|z r IH]; intros [|i] [|j] x H N; cbn in *; try lia; try reflexivity. apply IH; lia.
Qed.
Lemma splice_len : forall (r : rworld A) i x, (i < length r)%nat -> length (firstn i r ++ x :: skipn (S i) r) = length r.
Proof. induction r as [|z r IH]; intros [|i] x H; cbn in *; try lia. rewrite IH; lia. Qed.

(* objects agree; [full]: views too *)
Definition agree (full : bool) (r : rworld A) (i : nat) (a : option (sobj A)) (b : option (robj A)) : Prop :=
  match a, b with
  | Some (SBase ts ms), Some (RBase l) => ts = map fst l /\ ms = map snd l
  | Some (SView f p ts _), Some (RView f' p') => f = f' /\ p = p' /\ (p < i)%nat /\
      (full = true -> exists l, shows r p l /\ ts = map (in_file f) (map fst l))
  | None, None => True
  | _, _ => False
  end.
Definition winv (full : bool) (w : sworld A) (r : rworld A) : Prop :=
  forall i, agree full r i (nth_error w i) (nth_error r i).

Lemma winv_len : forall full w r, winv full w r -> length w = length r.
Proof.
  intros full w r H. destruct (Nat.lt_trichotomy (length w) (length r)) as [L|[E|L]]; [|exact E|].
  - exfalso. specialize (H (length w)). rewrite (proj2 (nth_error_None w (length w)) (le_n _)) in H. cbn in H.
    destruct (nth_error r (length w)) eqn:X; [exact H|]. apply nth_error_None in X. lia.
  - exfalso. specialize (H (length r)). rewrite (proj2 (nth_error_None r (length r)) (le_n _)) in H. unfold agree in H.
    destruct (nth_error w (length r)) as [[ts ms|f p ts ms]|] eqn:X; try exact H. apply nth_error_None in X. lia.
Qed.

Lemma shows_app : forall (r : rworld A) x i l, shows r i l -> shows (r ++ x) i l.
Proof.
  intros r x i l H. induction H as [i l H|i f p l H _ IH].
  - apply show_base. rewrite nth_error_app1; [exact H|]. apply nth_error_Some. congruence.
  - eapply show_view; [|exact IH]. rewrite nth_error_app1; [exact H|]. apply nth_error_Some. congruence.
Qed.
Lemma shows_total : forall full w r, winv full w r -> forall i, (i < length r)%nat -> exists l, shows r i l.
Proof.
  intros full w r W i. induction i as [i IH] using (well_founded_induction lt_wf). intros L.
  pose proof (W i) as H. unfold agree in H. destruct (nth_error r i) as [[l|f p]|] eqn:E.
  - exists l. apply show_base. exact E.
  - destruct (nth_error w i) as [[ts ms|f' p' ts ms]|]; try contradiction. destruct H as (-> & -> & Lp & _).
    destruct (IH p Lp) as (l & Hl); [lia|]. eexists. eapply show_view; eauto.
  - apply nth_error_None in E. lia.
Qed.
Lemma shows_fun : forall (r : rworld A) i l, shows r i l -> forall l', shows r i l' -> l = l'.
Proof.
  intros r i l H. induction H as [i l H|i f p l H _ IH]; intros l' H'; inversion H'; subst; rewrite H in H0; inversion H0; subst.
  - reflexivity.
  - rewrite (IH _ H1). reflexivity.
Qed.

Lemma shows_model : forall w r, winv true w r -> forall i l, shows r i l ->
  traces A w i = map fst l /\ forall n, (i < n)%nat -> read_meta A w n i = map snd l.
Proof.
  intros w r W i l H. induction H as [i l H|i f p l H HS IH].
  - pose proof (W i) as G. rewrite H in G. unfold agree in G. unfold traces.
    destruct (nth_error w i) as [[ts ms|f' p' ts ms]|] eqn:E; try contradiction. destruct G as [-> ->].
    split; [reflexivity|]. intros [|n] Hn; [lia|]. cbn. rewrite E. reflexivity.
  - pose proof (W i) as G. rewrite H in G. unfold agree in G. unfold traces.
    destruct (nth_error w i) as [[ts ms|f' p' ts ms]|] eqn:E; try contradiction. destruct G as (-> & -> & Lp & G).
    destruct (G eq_refl) as (l' & HS' & ->). rewrite (shows_fun _ _ _ HS' _ HS). destruct IH as [_ IM].
    split; [cbn; rewrite !map_map; reflexivity|]. intros [|n] Hn; [lia|]. cbn. rewrite E. rewrite IM by lia.
    rewrite map_map. reflexivity.
Qed.
(* bases, whatever happens *)
Lemma base_model : forall full w r i l, winv full w r -> nth_error r i = Some (RBase l) ->
  traces A w i = map fst l /\ (forall n, (i < n)%nat -> read_meta A w n i = map snd l) /\ nth_error w i = Some (SBase (map fst l) (map snd l)).
Proof.
  intros full w r i l W H. pose proof (W i) as G. rewrite H in G. unfold agree in G. unfold traces.
  destruct (nth_error w i) as [[ts ms|f' p' ts ms]|] eqn:E; try contradiction. destruct G as [-> ->].
  split; [reflexivity|]. split; [|reflexivity]. intros [|n] Hn; [lia|]. cbn. rewrite E. reflexivity.
Qed.

Lemma view_model : forall full w r i f p, winv full w r -> nth_error r i = Some (RView f p) ->
  exists ts ms, nth_error w i = Some (SView f p ts ms).
Proof.
  intros full w r i f p W H. pose proof (W i) as G. rewrite H in G. unfold agree in G.
  destruct (nth_error w i) as [[ts ms|f' p' ts ms]|]; try contradiction. destruct G as (-> & -> & _). eauto.
Qed.

(* a view is untouched by changes of other objects *)
Lemma shows_splice : forall (r : rworld A) i x j l, (i < length r)%nat -> shows r j l -> j <> i -> ~ view_of r j i ->
  shows (firstn i r ++ x :: skipn (S i) r) j l.
Proof.
  intros r i x j l L H. induction H as [j l H|j f p l H HS IH]; intros N V.
  - apply show_base. rewrite splice_other by auto. exact H.
  - eapply show_view; [rewrite splice_other by auto; exact H|]. apply IH.
    + intros ->. apply V. eapply vo_direct. exact H.
    + intros V'. apply V. eapply vo_chain; eauto.
Qed.

Lemma winv_step : forall full w r o, winv full w r -> (full = true -> allowed r o) -> winv full (w_op w o) (ref_op r o).
Proof.
  intros full w r o W Q. pose proof (winv_len _ _ _ W) as LE. destruct o as [|i t m|i f]; cbn [do_sop ref_op].
  - intros j. destruct (Nat.lt_trichotomy j (length w)) as [L|[->|L]].
    + rewrite !nth_error_app1 by lia. pose proof (W j) as G. unfold agree in *.
      destruct (nth_error w j) as [[|]|], (nth_error r j) as [[|]|]; auto.
      destruct G as (E1 & E2 & E3 & G). repeat split; auto. intros F. destruct (G F) as (l & HS & E). exists l. split; [apply shows_app; exact HS|exact E].
    + rewrite nth_error_app2 by lia. rewrite Nat.sub_diag. cbn. rewrite LE, nth_error_app2 by lia. rewrite Nat.sub_diag. cbn. auto.
    + rewrite (proj2 (nth_error_None (w ++ [SBase [] []]) j)) by (rewrite app_length; cbn; lia).
      rewrite (proj2 (nth_error_None (r ++ [RBase []]) j)) by (rewrite app_length; cbn; lia). exact I.
  - unfold push_trace. pose proof (W i) as G. unfold agree in G.
    destruct (nth_error w i) as [[ts ms|f' p' ts ms]|] eqn:Ew, (nth_error r i) as [[l|f p]|] eqn:Er; try contradiction.
    + destruct G as [-> ->].
      assert (Li : (i < length r)%nat) by (apply nth_error_Some; congruence).
      intros j. destruct (Nat.eq_dec j i) as [->|N].
      * rewrite (replace_same _ _ _ _ Ew), (splice_same _ _ _ _ Er). unfold agree. cbn. split; [reflexivity|].
        unfold meta. cbn. rewrite Ew. reflexivity.
      * rewrite replace_other by auto. rewrite splice_other by auto. pose proof (W j) as G. unfold agree in *.
        destruct (nth_error w j) as [[|]|], (nth_error r j) as [[|f0 p0]|] eqn:Ej; auto.
        destruct G as (E1 & E2 & E3 & G). repeat split; auto. intros F. destruct (G F) as (l0 & HS & E). exists l0. split; [|exact E].
        subst. destruct (Q eq_refl) as [_ V]. apply shows_splice; [exact Li|exact HS| |apply V].
        intros ->. apply (V j). eapply vo_direct. exact Ej.
    + destruct G as (-> & -> & E3 & G). destruct full.
      { destruct (Q eq_refl) as [(l & X) _]. congruence. }
      intros j. destruct (Nat.eq_dec j i) as [->|N].
      * rewrite (replace_same _ _ _ _ Ew), Er. unfold agree. repeat split; auto. discriminate.
      * rewrite replace_other by auto. apply W.
    + exact W.
  - assert (X : (exists a, nth_error w i = Some a) <-> (exists b, nth_error r i = Some b)).
    { pose proof (W i) as G. unfold agree in G. destruct (nth_error w i) as [[|]|], (nth_error r i) as [[|]|]; split; intros [y Hy]; try discriminate; eauto; contradiction. }
    destruct (nth_error w i) as [a|] eqn:Ew, (nth_error r i) as [b|] eqn:Er.
    + assert (Li : (i < length r)%nat) by (apply nth_error_Some; congruence).
      intros j. destruct (Nat.lt_trichotomy j (length w)) as [L|[->|L]].
      * rewrite !nth_error_app1 by lia. pose proof (W j) as G. unfold agree in *.
        destruct (nth_error w j) as [[|]|], (nth_error r j) as [[|]|]; auto.
        destruct G as (E1 & E2 & E3 & G). repeat split; auto. intros F. destruct (G F) as (l & HS & E). exists l. split; [apply shows_app; exact HS|exact E].
      * rewrite nth_error_app2 by lia. rewrite Nat.sub_diag. cbn. rewrite LE, nth_error_app2 by lia. rewrite Nat.sub_diag. cbn.
        repeat split; [lia|]. intros F. subst full. destruct (shows_total _ _ _ W i Li) as (l & Hl).
        exists l. split; [apply shows_app; exact Hl|]. destruct (shows_model w r W i l Hl) as [-> _].
        apply map_ext. intros t. apply of_file_spec.
      * rewrite (proj2 (nth_error_None (w ++ _) j)) by (rewrite app_length; cbn; lia).
        rewrite (proj2 (nth_error_None (r ++ _) j)) by (rewrite app_length; cbn; lia). exact I.
    + destruct (proj1 X (ex_intro _ a eq_refl)) as [? ?]. discriminate.
    + destruct (proj2 X (ex_intro _ b eq_refl)) as [? ?]. discriminate.
    + exact W.
Qed.

Lemma winv_run : forall full os w r, winv full w r -> (full = true -> quiet r os) -> winv full (fold_left w_op os w) (fold_left ref_op os r).
Proof.
  intros full. induction os as [|o os IH]; intros w r W Q; [exact W|]. cbn [fold_left]. apply IH.
  - apply winv_step; [exact W|]. intros F. apply (Q F).
  - intros F. apply (Q F).
Qed.
Lemma winv_nil : forall full, winv full [] [].
Proof. intros full [|i]; exact I. Qed.
Lemma winv_all : forall os, winv false (run_sops A os) (ref_run os).
Proof. intros os. apply winv_run; [apply winv_nil|discriminate]. Qed.
Lemma winv_quiet : forall os, quiet [] os -> winv true (run_sops A os) (ref_run os).
Proof. intros os Q. apply winv_run; [apply winv_nil|auto]. Qed.

Lemma seen_model : forall (l : list (list lpoint * A)) k,
  (match nthN (map fst l) k with Some t => t | None => [] end, nthN (map snd l) k) = seen l k.
Proof. intros l k. unfold seen. rewrite !nthN_map. destruct (nthN l k) as [[t m]|]; reflexivity. Qed.

(* views gone stale *)
Lemma nth_last : forall X (l : list X) x, nth_error (l ++ [x]) (length l) = Some x.
Proof. intros. rewrite nth_error_app2 by lia. rewrite Nat.sub_diag. reflexivity. Qed.

Lemma stale_lemma : forall os b l f t m, nth_error (ref_run os) b = Some (RBase l) ->
  let v := length (run_sops A os) in
  let w := run_sops A (os ++ [ORestrict b f; OAdd b t m]) in
  traces A w v = map (fun e => in_file f (fst e)) l /\ meta A w v = m :: map snd l.
Proof.
  intros os b l f t m H v w. destruct (base_model _ _ _ _ _ (winv_all os) H) as (T & M & E).
  assert (Lb : (b < v)%nat) by (apply nth_error_Some; congruence).
  unfold w, run_sops. rewrite fold_left_app. fold (run_sops A os). cbn [fold_left do_sop]. rewrite E.
  unfold push_trace. rewrite nth_error_app1 by exact Lb. rewrite E.
  set (w1 := run_sops A os ++ _). assert (E1 : nth_error w1 b = Some (SBase (map fst l) (map snd l))).
  { unfold w1. rewrite nth_error_app1 by exact Lb. exact E. }
  assert (EV : nth_error w1 v = Some (SView f b (map (of_file f) (traces A (run_sops A os) b)) [])) by apply nth_last.
  split.
  - unfold traces at 1. rewrite replace_other by lia. rewrite EV. cbn. rewrite T, map_map. apply map_ext. intros. apply of_file_spec.
  - unfold meta at 1. cbn [read_meta]. rewrite replace_other by lia. rewrite EV.
    destruct v as [|v']; [lia|]. cbn [read_meta]. rewrite (replace_same _ _ _ _ E1).
    unfold meta. cbn [read_meta]. rewrite E1. reflexivity.
Qed.
Lemma through_lemma : forall os b l f t m, nth_error (ref_run os) b = Some (RBase l) ->
  let v := length (run_sops A os) in
  let w := run_sops A (os ++ [ORestrict b f; OAdd v t m]) in
  traces A w v = t :: map (fun e => in_file f (fst e)) l /\ meta A w v = map snd l.
Proof.
  intros os b l f t m H v w. destruct (base_model _ _ _ _ _ (winv_all os) H) as (T & M & E).
  assert (Lb : (b < v)%nat) by (apply nth_error_Some; congruence).
  unfold w, run_sops. rewrite fold_left_app. fold (run_sops A os). cbn [fold_left do_sop]. rewrite E.
  set (w1 := run_sops A os ++ _). assert (E1 : nth_error w1 b = Some (SBase (map fst l) (map snd l))).
  { unfold w1. rewrite nth_error_app1 by exact Lb. exact E. }
  assert (EV : nth_error w1 v = Some (SView f b (map (of_file f) (traces A (run_sops A os) b)) [])) by apply nth_last.
  unfold push_trace. rewrite EV. split.
  - unfold traces at 1. rewrite (replace_same _ _ _ _ EV). cbn. rewrite T, map_map. f_equal. apply map_ext. intros. apply of_file_spec.
  - unfold meta at 1. cbn [read_meta]. rewrite (replace_same _ _ _ _ EV).
    destruct v as [|v']; [lia|]. cbn [read_meta]. rewrite replace_other by lia. rewrite E1. reflexivity.
Qed.
End Views.

Lemma view_of_cases : forall A (r : rworld A) v i, view_of r v i -> exists f p, nth_error r v = Some (RView f p) /\ (p = i \/ view_of r p i).
Proof. intros A r v i H. inversion H; subst; eauto. Qed.

(* ** reading *)
Lemma read_points : forall skip max ps tail c,
  match max with None => True | Some m => c + lenN ps <= m end ->
  read_stream skip max c (map SPoint ps ++ tail) = (l <- read_stream skip max (c + lenN ps) tail ;; Ok (ps ++ l)).
Proof.
  intros skip max. induction ps as [|p ps IH]; intros tail c H.
  - cbn [map app]. change (lenN (@nil lpoint)) with 0. rewrite N.add_0_r. destruct (read_stream skip max c tail); reflexivity.
  - rewrite lenN_cons in *. cbn [map app read_stream].
    replace (match max with None => true | Some m => c <? m end) with true.
    2:{ destruct max as [m|]; [|reflexivity]. symmetry. apply N.ltb_lt. lia. }
    rewrite IH by (destruct max; [lia|exact I]). replace (c + 1 + lenN ps) with (c + N.succ (lenN ps)) by lia.
    destruct (read_stream skip max (c + N.succ (lenN ps)) tail); reflexivity.
Qed.
