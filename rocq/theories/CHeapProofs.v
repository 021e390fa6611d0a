(** Lemmas about the heap of C blocks. *)
From Verif Require Import BaseProofs CHeap.

Section H.
Variable cell : Type.
Implicit Types h : heap cell.

Lemma find_cons : forall h a b x, h_find ((a, b) :: h) x = if a =? x then Some b else h_find h x.
Proof. intros. unfold h_find. cbn [find fst]. destruct (a =? x); reflexivity. Qed.

Lemma find_remove : forall h a x, h_find (h_remove h a) x = if x =? a then None else h_find h x.
Proof.
  induction h as [|[k b] h IH]; intros a x.
  - cbn. destruct (x =? a); reflexivity.
  - unfold h_remove. cbn [filter fst]. fold (h_remove h a). destruct (N.eqb_spec k a) as [->|Hk]; cbn [negb].
    + rewrite IH, find_cons, (N.eqb_sym a x). destruct (x =? a); reflexivity.
    + rewrite !find_cons, IH. destruct (N.eqb_spec k x) as [->|Hx]; [|reflexivity].
      destruct (N.eqb_spec x a); [contradiction|reflexivity].
Qed.

Lemma find_set : forall h a b x, h_find h a <> None -> h_find (h_set h a b) x = if x =? a then Some b else h_find h x.
Proof.
  induction h as [|[k c] h IH]; intros a b x H; [exfalso; apply H; reflexivity|].
  unfold h_set. cbn [map fst]. fold (h_set h a b). rewrite find_cons in *.
  destruct (N.eqb_spec k a) as [->|Hk]; rewrite find_cons.
  - rewrite (N.eqb_sym a x). destruct (N.eqb_spec x a) as [->|Hx]; [reflexivity|].
    destruct (h_find h a) eqn:E.
    + rewrite IH by (rewrite E; discriminate). apply N.eqb_neq in Hx. rewrite Hx. reflexivity.
    + clear - E Hx. induction h as [|[k c] h IH]; [reflexivity|]. cbn [h_set map fst]. fold (h_set h a b).
      rewrite find_cons in E. destruct (N.eqb_spec k a); [discriminate|]. rewrite !find_cons. destruct (k =? x); auto.
  - destruct (N.eqb_spec k x) as [->|Hx].
    + destruct (N.eqb_spec x a); [contradiction|reflexivity].
    + apply IH; assumption.
Qed.

Lemma set_nth_app : forall (pre : list (option cell)) x post c, set_nth (pre ++ x :: post) (lenN pre) c = pre ++ Some c :: post.
Proof.
  induction pre as [|y pre IH]; intros x post c; [reflexivity|]. rewrite lenN_cons. cbn [app set_nth].
  destruct (N.eqb_spec (N.succ (lenN pre)) 0); [lia|]. rewrite N.pred_succ, IH. reflexivity.
Qed.

Lemma store_ok : forall h a pre x post c, a <> 0 -> h_find h a = Some (pre ++ x :: post) ->
  exists h', store h a (lenN pre) c = Ok h' /\ forall y, h_find h' y = if y =? a then Some (pre ++ Some c :: post) else h_find h y.
Proof.
  intros h a pre x post c Ha E. unfold store. apply N.eqb_neq in Ha. rewrite Ha, E.
  destruct (N.ltb_spec (lenN pre) (lenN (pre ++ x :: post))) as [_|H]; [|rewrite lenN_app, lenN_cons in H; lia].
  eexists. split; [reflexivity|]. intro y. rewrite find_set by (rewrite E; discriminate). rewrite set_nth_app. reflexivity.
Qed.

Lemma load_ok : forall h a b i c, a <> 0 -> h_find h a = Some b -> nthN b i = Some (Some c) -> load h a i = Ok c.
Proof. intros h a b i c Ha E Hn. unfold load. apply N.eqb_neq in Ha. rewrite Ha, E, Hn. reflexivity. Qed.

Lemma load_inv : forall h a i c, load h a i = Ok c -> a <> 0 /\ exists b, h_find h a = Some b /\ nthN b i = Some (Some c).
Proof.
  intros h a i c H. unfold load in H. destruct (N.eqb_spec a 0); [discriminate|]. split; [assumption|].
  destruct (h_find h a) as [b|]; [|discriminate]. exists b. split; [reflexivity|]. destruct (nthN b i) as [[x|]|]; try discriminate. inversion H. reflexivity.
Qed.

Lemma free_ok : forall h a, a <> 0 -> h_find h a <> None ->
  exists h', free h a = Ok h' /\ forall y, h_find h' y = if y =? a then None else h_find h y.
Proof.
  intros h a Ha E. unfold free. apply N.eqb_neq in Ha. rewrite Ha. destruct (h_find h a); [|exfalso; apply E; reflexivity].
  eexists. split; [reflexivity|]. intro y. apply find_remove.
Qed.

(** Stores of consecutive elements. *)
Fixpoint store_cells h (a i : N) (cs : list cell) : outcome (heap cell) :=
  match cs with
  | [] => Ok h
  | c :: r => h1 <- store h a i c ;; store_cells h1 a (i + 1) r
  end.

Lemma store_cells_ok : forall cs h a pre i, a <> 0 -> i = lenN pre -> h_find h a = Some (pre ++ repeat None (length cs)) ->
  exists h', store_cells h a i cs = Ok h' /\ forall y, h_find h' y = if y =? a then Some (pre ++ map Some cs) else h_find h y.
Proof.
  induction cs as [|c cs IH]; intros h a pre i Ha -> E.
  - exists h. split; [reflexivity|]. intro y. destruct (N.eqb_spec y a) as [->|]; [exact E|reflexivity].
  - cbn [length repeat] in E. destruct (store_ok h a pre None (repeat None (length cs)) c Ha E) as (h1 & E1 & H1).
    destruct (IH h1 a (pre ++ [Some c]) (lenN pre + 1) Ha) as (h2 & E2 & H2).
    + rewrite lenN_app. reflexivity.
    + rewrite H1, N.eqb_refl, <- app_assoc. reflexivity.
    + exists h2. split; [cbn [store_cells]; rewrite E1; exact E2|]. intro y. rewrite H2, H1. rewrite <- app_assoc. destruct (y =? a); reflexivity.
Qed.

Lemma malloc_ok : forall (al : allocator cell) h bytes esize, allocates al -> al_ok al bytes = true ->
  exists a h', malloc al h bytes esize = (a, h') /\ a <> 0 /\ h_find h a = None /\
    forall y, h_find h' y = if y =? a then Some (repeat None (N.to_nat (bytes / esize))) else h_find h y.
Proof.
  intros al h bytes esize Hal Hok. unfold malloc. rewrite Hok. eexists _, _. split; [reflexivity|].
  destruct (Hal h) as [H1 H2]. conj_split; auto. intro y. rewrite find_cons, N.eqb_sym. reflexivity.
Qed.
End H.
