(** Proofs about the foreign interface: queries written by Lisp and read by the
    library, arguments and results of calls. *)
From Coq Require Import Strings.String.
From Verif Require Import Base BaseProofs Types Compare Predicate Query CApi Lisp Ffi FfiSpec FfiProofs FfiProofs2.
Local Open Scope string_scope.
Local Open Scope N_scope.

(** The fields of a c_predicate as the library reads them. *)
Definition row_vals (m : memory) (a : N) : list Z :=
  [get c_predicate m a "kind"; get c_predicate m a "n_children"; get c_predicate m a "var_index";
   get c_predicate m a "unsigned_value"; get c_predicate m a "signed_value"; get c_predicate m a "float_value";
   get c_predicate m a "children"].

Definition row_of (kc n vi u s f ch : Z) : list (string * Z) :=
  [("kind", kc); ("n-children", n); ("var-index", vi); ("unsigned-value", u); ("signed-value", s);
   ("float-value", f); ("children", ch)].
Definition write_row (row : list (string * Z)) (m : memory) (a : N) : memory :=
  fold_left (fun m fz => set l_predicate (fst fz) (snd fz) m a) row m.

Definition row_ok (row : list (string * Z)) : Prop :=
  exists kc n vi u s f ch, row = row_of kc n vi u s f ch /\
  in_range TI32 kc = true /\ in_range TU32 kc = true /\ in_range TU64 n = true /\ in_range TU64 vi = true /\
  in_range TU64 u = true /\ in_range TI64 s = true /\ in_range TF64 f = true /\ in_range TPtr ch = true.

Lemma write_row_ok : forall row m a, row_ok row ->
  row_vals (write_row row m a) a = map snd row /\
  (forall x, ~ (a <= x < a + 56) -> write_row row m a x = m x).
Proof.
  intros row m a (kc & n & vi & u & s & f & ch & -> & R0 & R1 & R2 & R3 & R4 & R5 & R6 & R7).
  assert (E : write_row (row_of kc n vi u s f ch) m a =
    write TPtr ch (write TF64 f (write TI64 s (write TU64 u (write TU64 vi (write TU64 n (write TI32 kc m (a + 0)) (a + 8)) (a + 16)) (a + 24)) (a + 32)) (a + 40)) (a + 48))
    by reflexivity.
  rewrite E. split.
  - unfold row_vals. cbn [map snd row_of].
    change (get c_predicate ?m a "kind") with (read TU32 m (a + 0)).
    change (get c_predicate ?m a "n_children") with (read TU64 m (a + 8)).
    change (get c_predicate ?m a "var_index") with (read TU64 m (a + 16)).
    change (get c_predicate ?m a "unsigned_value") with (read TU64 m (a + 24)).
    change (get c_predicate ?m a "signed_value") with (read TI64 m (a + 32)).
    change (get c_predicate ?m a "float_value") with (read TF64 m (a + 40)).
    change (get c_predicate ?m a "children") with (read TPtr m (a + 48)).
    f_equal; [fields; assumption|].
    f_equal; [fields; assumption|].
    f_equal; [fields; assumption|].
    f_equal; [fields; assumption|].
    f_equal; [fields; assumption|].
    f_equal; [fields; assumption|].
    f_equal; fields; assumption.
  - intros x Hx. rewrite !write_out by (cbn [size]; lia). reflexivity.
Qed.

Lemma row_vals_ext : forall m m' a, (forall x, a <= x < a + 56 -> m x = m' x) -> row_vals m a = row_vals m' a.
Proof.
  intros m m' a H. unfold row_vals.
  change (get c_predicate ?m a "kind") with (read TU32 m (a + 0)).
  change (get c_predicate ?m a "n_children") with (read TU64 m (a + 8)).
  change (get c_predicate ?m a "var_index") with (read TU64 m (a + 16)).
  change (get c_predicate ?m a "unsigned_value") with (read TU64 m (a + 24)).
  change (get c_predicate ?m a "signed_value") with (read TI64 m (a + 32)).
  change (get c_predicate ?m a "float_value") with (read TF64 m (a + 40)).
  change (get c_predicate ?m a "children") with (read TPtr m (a + 48)).
  same_reads m m' ltac:(fun y Hy => apply H; cbn [size] in Hy; lia). reflexivity.
Qed.

Lemma size_pred : sizeof l_predicate = 56 /\ sizeof c_predicate = 56. Proof. split; reflexivity. Qed.

Definition fill (rows : list (list (string * Z))) (m : memory) (a : N) : memory :=
  fst (fold_left (fun s row =>
    (fold_left (fun m fz => set l_predicate (fst fz) (snd fz) m (snd s)) row (fst s), snd s + sizeof l_predicate))
    rows (m, a)).
Lemma fill_cons : forall row rows m a, fill (row :: rows) m a = fill rows (write_row row m a) (a + 56).
Proof. reflexivity. Qed.

Lemma fill_ok : forall rows m a, Forall row_ok rows ->
  Forall2 (fun b row => row_vals (fill rows m a) b = map snd row) (elements a 56 (length rows)) rows /\
  (forall x, ~ (a <= x < a + 56 * lenN rows) -> fill rows m a x = m x).
Proof.
  induction rows as [|row rows IH]; intros m a H.
  - split; [constructor|reflexivity].
  - assert (H1 := Forall_inv H). assert (H2 := Forall_inv_tail H). rewrite fill_cons, lenN_cons. cbn [length].
    destruct (IH (write_row row m a) (a + 56) H2) as [I1 I2].
    destruct (write_row_ok row m a H1) as [W1 W2]. split.
    + rewrite elements_cons. constructor; [|exact I1]. rewrite <- W1. apply row_vals_ext. intros x Hx. apply I2. lia.
    + intros x Hx. rewrite I2 by lia. apply W2. lia.
Qed.

(** ** Induction over predicates *)
Section CInd.
Variable P : cpred -> Prop.
Hypothesis Hleaf : forall k n vi u s f, P (CPred k n vi u s f None).
Hypothesis Hnode : forall k n vi u s f cs, Forall P cs -> P (CPred k n vi u s f (Some cs)).
Fixpoint cpred_ind2 (c : cpred) : P c :=
  match c with
  | CPred k n vi u s f None => Hleaf k n vi u s f
  | CPred k n vi u s f (Some cs) => Hnode k n vi u s f cs
      ((fix go l : Forall P l := match l with [] => Forall_nil _ | c :: r => Forall_cons _ (cpred_ind2 c) (go r) end) cs)
  end.
End CInd.

Section Put.
Variable room : N -> N.

Definition put_rows : list cpred -> proc -> list (list (string * Z)) * proc :=
  fix go (l : list cpred) (p : proc) : list (list (string * Z)) * proc :=
    match l with
    | [] => ([], p)
    | c :: r => let '(x, p1) := l_put_pred room c p in let '(xs, p2) := go r p1 in (x :: xs, p2)
    end.
Lemma put_pred_none : forall k n vi u s f p, l_put_pred room (CPred k n vi u s f None) p =
  (row_of (code l_predicate_kind (l_kind_keyword k)) (Z.of_N n) (Z.of_N vi) (Z.of_N u) (s64 s) (Z.of_N f) 0, p).
Proof. reflexivity. Qed.
Lemma put_pred_some : forall k n vi u s f cs p, l_put_pred room (CPred k n vi u s f (Some cs)) p =
  let '(rows, p1) := put_rows cs p in
  let '(a, p2) := alloc_block room (sizeof l_predicate * lenN cs) p1 in
  (row_of (code l_predicate_kind (l_kind_keyword k)) (Z.of_N n) (Z.of_N vi) (Z.of_N u) (s64 s) (Z.of_N f) (Z.of_N a),
   on_mem (fun m => fill rows m a) p2).
Proof.
  intros. cbn [l_put_pred]. change ((fix go (l : list cpred) (p0 : proc) {struct l} : list (list (string * Z)) * proc :=
     match l with
     | [] => ([], p0)
     | c :: r => let '(x, p1) := l_put_pred room c p0 in let '(xs, p2) := go r p1 in (x :: xs, p2)
     end)) with put_rows.
  destruct (put_rows cs p) as [rows p1]. destruct (alloc_block room (sizeof l_predicate * lenN cs) p1) as [a p2].
  reflexivity.
Qed.

Definition read_list (fuel : nat) (m : memory) : list N -> option (list cpred) :=
  fix go (l : list N) : option (list cpred) :=
    match l with
    | [] => Some []
    | x :: r => match c_read_pred fuel m x, go r with
                | Some c, Some cs => Some (c :: cs)
                | _, _ => None
                end
    end.
Lemma read_pred_eq : forall fuel m a k n vi u s f ch cs,
  row_vals m a = [code l_predicate_kind (l_kind_keyword k); Z.of_N n; Z.of_N vi; Z.of_N u; s64 s; Z.of_N f; Z.of_N ch] ->
  s < two64 ->
  (if ch =? 0 then Some None else option_map Some (read_list fuel m (elements ch 56 (N.to_nat n)))) = Some cs ->
  c_read_pred (S fuel) m a = Some (CPred k n vi u s f cs).
Proof.
  intros fuel m a k n vi u s f ch cs H Hs Hc. unfold row_vals in H.
  injection H as H1 H2 H3 H4 H5 H6 H7. cbn [c_read_pred].
  rewrite H1, H2, H3, H4, H5, H6, H7, !N2Z.id.
  assert (E1 : enumerator c_predicate_kind (code l_predicate_kind (l_kind_keyword k)) <> None) by (destruct k; discriminate).
  assert (E2 : forall t, enumerator c_predicate_kind (code l_predicate_kind (l_kind_keyword k)) = Some t -> c_kind_of t = Some k)
    by (destruct k; intros t Ht; injection Ht as <-; reflexivity).
  destruct (enumerator c_predicate_kind (code l_predicate_kind (l_kind_keyword k))) as [t|]; [|congruence].
  rewrite (E2 t eq_refl).
  change ((fix go (l : list N) : option (list cpred) :=
    match l with
    | [] => Some []
    | x :: r => match c_read_pred fuel m x with
                | Some c => match go r with Some cs => Some (c :: cs) | None => None end
                | None => None
                end
    end)) with (read_list fuel m).
  replace (sizeof c_predicate) with 56 by reflexivity.
  rewrite Hc. do 2 f_equal.
  unfold s64. destruct (N.ltb_spec s two63).
  - rewrite Z.mod_small by (unfold two63 in *; lia). apply N2Z.id.
  - replace (Z.of_N s - Z.of_N two64)%Z with (Z.of_N s + (-1) * 2 ^ 64)%Z by (unfold two64; lia).
    rewrite Z.mod_add by lia. rewrite Z.mod_small by (unfold two64 in *; lia). apply N2Z.id.
Qed.

Lemma kind_range : forall k, in_range TI32 (code l_predicate_kind (l_kind_keyword k)) = true /\
  in_range TU32 (code l_predicate_kind (l_kind_keyword k)) = true.
Proof. destruct k; split; reflexivity. Qed.
Lemma f64_range : forall n, n < two64 -> in_range TF64 (Z.of_N n) = true.
Proof. intros. apply range_u; [reflexivity|]. exact H. Qed.
Lemma s64_range : forall n, n < two64 -> in_range TI64 (s64 n) = true.
Proof.
  intros n H. unfold in_range, s64. cbn [signed]. change (modulus TI64 / 2)%Z with (2 ^ 63)%Z.
  unfold two63, two64 in *. destruct (N.ltb_spec n 9223372036854775808);
    apply andb_true_iff; split; [apply Z.leb_le|apply Z.ltb_lt|apply Z.leb_le|apply Z.ltb_lt]; lia.
Qed.

Definition grown (p p' : proc) : Prop :=
  pr_brk p <= pr_brk p' /\ forall x, x < pr_brk p -> pr_mem p' x = pr_mem p x.

(** What putting a predicate achieves. *)
Definition put_spec (c : cpred) : Prop := fits_pred c -> forall p row p', l_put_pred room c p = (row, p') ->
  grown p p' /\ (pr_brk p' < two64 -> row_ok row /\
  forall m a fuel, (depth c <= fuel)%nat -> (forall x, pr_brk p <= x < pr_brk p' -> m x = pr_mem p' x) ->
    row_vals m a = map snd row -> c_read_pred fuel m a = Some c).

Lemma put_rows_spec : forall cs, Forall put_spec cs -> Forall fits_pred cs -> forall p rows p', put_rows cs p = (rows, p') ->
  grown p p' /\ length rows = length cs /\ (pr_brk p' < two64 -> Forall row_ok rows /\
  forall m l fuel, (fold_right Nat.max O (map depth cs) <= fuel)%nat ->
    (forall x, pr_brk p <= x < pr_brk p' -> m x = pr_mem p' x) ->
    Forall2 (fun b row => row_vals m b = map snd row) l rows -> read_list fuel m l = Some cs).
Proof.
  induction cs as [|c cs IH]; intros Hs Hf p rows p' H; cbn [put_rows] in H.
  - injection H as <- <-. split; [split; [lia|reflexivity]|]. split; [reflexivity|]. intros _. split; [constructor|].
    intros m l fuel _ _ Hl. inversion Hl. reflexivity.
  - fold put_rows in H.
    destruct (l_put_pred room c p) as [row p1] eqn:E1. destruct (put_rows cs p1) as [rs p2] eqn:E2.
    injection H as <- <-.
    destruct (Forall_inv Hs (Forall_inv Hf) p row p1 E1) as [[G1 G2] K1].
    destruct (IH (Forall_inv_tail Hs) (Forall_inv_tail Hf) p1 rs p2 E2) as [[G3 G4] [Hlen K2]].
    split; [split; [lia|intros x Hx; rewrite G4 by lia; apply G2; lia]|].
    split; [cbn [length]; lia|]. intros Hb.
    destruct K1 as [R1 K1]; [lia|]. destruct K2 as [R2 K2]; [exact Hb|].
    split; [constructor; assumption|].
    intros m l fuel Hd Hm Hl. inversion Hl as [|b row' l' rs' Hr Hrs]; subst. cbn [read_list].
    cbn [map fold_right] in Hd. rewrite (K1 m b fuel); [|lia| |exact Hr].
    + fold (read_list fuel m). rewrite (K2 m l' fuel); [reflexivity|lia| |exact Hrs].
      intros x Hx. apply Hm. lia.
    + intros x Hx. rewrite Hm by lia. apply G4. lia.
Qed.

Lemma put_pred_ok : forall c, put_spec c.
Proof.
  apply cpred_ind2.
  - intros k n vi u s f Hf p row p' H. rewrite put_pred_none in H. injection H as <- <-.
    inversion Hf as [? ? ? ? ? ? F1 F2 F3 F4 F5|]; subst.
    split; [split; [lia|reflexivity]|]. intros Hb. split.
    + do 7 eexists. split; [reflexivity|]. destruct (kind_range k) as [K1 K2].
      repeat split; try assumption; try (now apply u64_range); try (now apply s64_range); try (now apply f64_range); reflexivity.
    + intros m a fuel Hd Hm Hr. destruct fuel; [cbn in Hd; lia|].
      apply read_pred_eq with (ch := 0); [exact Hr|assumption|reflexivity].
  - intros k n vi u s f cs IH Hf p row p' H. rewrite put_pred_some in H.
    inversion Hf as [|? ? ? ? ? ? ? F1 F2 F3 F4 F5 Hn Hcs]; subst.
    destruct (put_rows cs p) as [rows p1] eqn:E1.
    destruct (alloc_block room (sizeof l_predicate * lenN cs) p1) as [a p2] eqn:E2.
    apply alloc_spec in E2. destruct E2 as (A1 & A2 & A3). rewrite (proj1 size_pred) in A2.
    injection H as <- <-.
    destruct (put_rows_spec cs IH Hcs p rows p1 E1) as [[G1 G2] [Hlen K]].
    assert (Hl : lenN rows = lenN cs) by (unfold lenN; lia).
    cbn [on_mem pr_brk pr_mem].
    destruct (N.lt_ge_cases (pr_brk p2) two64) as [Hb|Hb].
    + destruct K as [R K]; [lia|].
      destruct (fill_ok rows (pr_mem p2) a R) as [W1 W2].
      split.
      * split; cbn [on_mem pr_brk pr_mem]; [lia|]. intros x Hx. rewrite W2 by lia. rewrite A3. apply G2. lia.
      * intros _. split.
        -- do 7 eexists. split; [reflexivity|]. destruct (kind_range k) as [K1 K2].
           repeat split; try assumption; try (now apply u64_range); try (now apply s64_range); try (now apply f64_range).
           apply ptr_range; lia.
        -- intros m b fuel Hd Hm Hr. destruct fuel; [cbn in Hd; lia|]. cbn [depth] in Hd.
           apply read_pred_eq with (ch := a); [exact Hr|assumption|].
           destruct (N.eqb_spec a 0); [lia|].
           rewrite (K m _ fuel); [reflexivity|lia| |].
           ++ intros x Hx. rewrite Hm by lia. rewrite W2 by lia. now rewrite A3.
           ++ unfold lenN. rewrite Nat2N.id, <- Hlen.
              eapply Forall2_imp_in; [|exact W1]. intros c r Hc Hr'. cbv beta in *. rewrite <- Hr'.
              apply row_vals_ext. apply (elements_in room) in Hc. intros x Hx. apply Hm. unfold lenN in *. lia.
    + split; [|intros; lia].
      split; cbn [on_mem pr_brk pr_mem]; [lia|]. intros x Hx.
      assert (Hout : forall rows m a x, x < a -> fill rows m a x = m x).
      { clear. induction rows as [|row rows IH]; intros m a x Hx; [reflexivity|]. rewrite fill_cons, IH by lia.
        unfold write_row. revert m. induction row as [|fz row IHr]; intros m; [reflexivity|]. cbn [fold_left]. rewrite IHr.
        unfold set. destruct (find_field (layout 0 l_predicate) (fst fz)) as [[o t]|]; [|reflexivity]. apply write_out. lia. }
      rewrite Hout by lia. rewrite A3. apply G2. lia.
Qed.

Lemma predicate_written : forall c p a p' fuel,
  match c with Some c => fits_pred c | None => True end ->
  l_put_predicate room c p = (a, p') -> pr_brk p' < two64 -> (depth_opt c <= fuel)%nat ->
  c_read_predicate fuel (pr_mem p') a = Some c.
Proof.
  intros [c|] p a p' fuel Hf H Hb Hd; cbn [l_put_predicate] in H.
  - destruct (alloc_block room (sizeof l_predicate) p) as [b p1] eqn:E1.
    destruct (l_put_pred room c p1) as [row p2] eqn:E2.
    apply alloc_spec in E1. destruct E1 as (A1 & A2 & A3). rewrite (proj1 size_pred) in A2.
    injection H as <- <-. cbn [on_mem pr_brk pr_mem] in *.
    destruct (put_pred_ok c Hf p1 row p2 E2) as [[G1 G2] K]. destruct K as [R K]; [exact Hb|].
    change (fold_left _ row (pr_mem p2)) with (write_row row (pr_mem p2) b).
    destruct (write_row_ok row (pr_mem p2) b R) as [W1 W2].
    unfold c_read_predicate. destruct (N.eqb_spec b 0); [lia|].
    rewrite (K _ b fuel); [reflexivity|exact Hd| |exact W1]. intros x Hx. apply W2. lia.
  - injection H as <- <-. reflexivity.
Qed.

(** ** Free variables *)
Lemma put_words32_ok : forall us a m, Forall (fun u => u < two32) us ->
  map (read TU32 (l_put_words32 us a m)) (elements a 4 (length us)) = map Z.of_N us /\
  (forall x, ~ (a <= x < a + 4 * lenN us) -> l_put_words32 us a m x = m x).
Proof.
  induction us as [|u us IH]; intros a m Hf; cbn [l_put_words32 length].
  - split; [reflexivity|reflexivity].
  - assert (Hu := Forall_inv Hf). assert (Hus := Forall_inv_tail Hf). rewrite lenN_cons.
    destruct (IH (a + 4) (write TU32 (Z.of_N u) m a) Hus) as [I1 I2]. split.
    + rewrite elements_cons. cbn [map]. f_equal; [|exact I1].
      rewrite (read_ext TU32 _ (write TU32 (Z.of_N u) m a)).
      * apply read_write_same; [reflexivity|now apply u32_range|now apply u32_range].
      * intros x Hx. apply I2. cbn [size] in Hx. lia.
    + intros x Hx. rewrite I2 by lia. apply write_out. cbn [size]. lia.
Qed.

Definition free_at (m : memory) (x : N) : list N :=
  map (fun y => Z.to_N (read TU32 m y))
    (elements (Z.to_N (get c_free_variable m x "allowed_types")) 4 (Z.to_nat (get c_free_variable m x "n_allowed_types"))).

Lemma fill_free_brk : forall ts a p, pr_brk p <= pr_brk (l_fill_free room ts a p).
Proof.
  induction ts as [|us ts IH]; intros a p; cbn [l_fill_free]; [lia|].
  destruct (alloc_block room (4 * lenN us) p) as [b p1] eqn:E. apply alloc_spec in E.
  eapply N.le_trans; [|apply IH]. cbn [on_mem pr_brk]. lia.
Qed.

Lemma fill_free_ok : forall ts a p, Forall (fun us => lenN us < two32 /\ Forall (fun u => u < two32) us) ts ->
  a + 16 * lenN ts <= pr_brk p -> pr_brk (l_fill_free room ts a p) < two64 ->
  map (free_at (pr_mem (l_fill_free room ts a p))) (elements a 16 (length ts)) = ts /\
  window a (a + 16 * lenN ts) p (l_fill_free room ts a p).
Proof.
  induction ts as [|us ts IH]; intros a p Hf Ha Hb; cbn [l_fill_free length] in *.
  - split; [reflexivity|apply window_refl].
  - rewrite lenN_cons in *. destruct (Forall_inv Hf) as [Hu1 Hu2]. assert (Hts := Forall_inv_tail Hf).
    destruct (alloc_block room (4 * lenN us) p) as [b p1] eqn:E.
    apply alloc_spec in E. destruct E as (A1 & A2 & A3).
    change (sizeof l_free_variable) with 16 in *. cbv zeta in *.
    match type of Hb with pr_brk (l_fill_free room ts _ ?q) < _ => set (p2 := q) in * end.
    assert (K2 : pr_brk p2 = pr_brk p1) by reflexivity.
    assert (Hmono := fill_free_brk ts (a + 16) p2).
    destruct (IH (a + 16) p2 Hts) as [I1 [I2 I3]]; [lia|exact Hb|].
    destruct (put_words32_ok us b (pr_mem p1) Hu2) as [W1 W2].
    assert (Em : pr_mem p2 = write TPtr (Z.of_N b) (write TU32 (Z.of_N (lenN us)) (l_put_words32 us b (pr_mem p1)) (a + 0)) (a + 8))
      by reflexivity.
    set (p3 := l_fill_free room ts (a + 16) p2) in *.
    split.
    + rewrite elements_cons. cbn [map]. f_equal; [|exact I1]. unfold free_at.
      change (get c_free_variable (pr_mem p3) a "allowed_types") with (read TPtr (pr_mem p3) (a + 8)).
      change (get c_free_variable (pr_mem p3) a "n_allowed_types") with (read TU32 (pr_mem p3) (a + 0)).
      rewrite (read_ext TPtr (pr_mem p3) (pr_mem p2) (a + 8)) by (intros y Hy; cbn [size] in Hy; apply I3; lia).
      rewrite (read_ext TU32 (pr_mem p3) (pr_mem p2) (a + 0)) by (intros y Hy; cbn [size] in Hy; apply I3; lia).
      assert (R1 : read TPtr (pr_mem p2) (a + 8) = Z.of_N b) by (rewrite Em; fields; apply ptr_range; lia).
      assert (R2 : read TU32 (pr_mem p2) (a + 0) = Z.of_N (lenN us)) by (rewrite Em; fields; now apply u32_range).
      rewrite R1, R2, N2Z.id. unfold lenN at 1. rewrite nat_N_Z, Nat2Z.id.
      rewrite <- map_map.
      rewrite (map_ext_in (read TU32 (pr_mem p3)) (read TU32 (l_put_words32 us b (pr_mem p1)))).
      * rewrite W1, map_map. rewrite <- (map_id us) at 2. apply map_ext. apply N2Z.id.
      * intros y Hy. apply (elements_in room) in Hy. apply read_ext. intros x Hx. cbn [size] in Hx. unfold lenN in *.
        rewrite I3 by lia. rewrite Em, !write_out by (cbn [size]; lia). reflexivity.
    + split; [lia|]. intros x Hx Hn. rewrite I3 by lia. rewrite Em, !write_out by (cbn [size]; lia).
      rewrite W2 by lia. now rewrite A3.
Qed.

Lemma free_written : forall ts p a p', l_put_free room ts p = (a, p') ->
  Forall (fun us => lenN us < two32 /\ Forall (fun u => u < two32) us) ts -> pr_brk p' < two64 ->
  c_read_free (pr_mem p') a (length ts) = ts.
Proof.
  intros ts p a p' H Hf Hb. unfold l_put_free in H. change (sizeof l_free_variable) with 16 in H.
  destruct (alloc_block room (16 * lenN ts) p) as [b p1] eqn:E. apply alloc_spec in E. injection H as <- <-.
  apply (fill_free_ok ts b p1 Hf); [lia|exact Hb].
Qed.
End Put.

(** ** Predicates built by Lisp fit *)
Lemma sym_position_bound : forall s l i, sym_position s l = Some i -> i < lenN l.
Proof.
  induction l as [|x l IH]; intros i H; cbn [sym_position] in H; [discriminate|]. rewrite lenN_cons.
  destruct (s =? x); [injection H as <-; lia|].
  destruct (sym_position s l) as [j|]; [|discriminate]. injection H as <-. specialize (IH j eq_refl). lia.
Qed.

Section SInd.
Variable P : sexp -> Prop.
Hypothesis Hs : forall s, P (SSym s).
Hypothesis Hi : forall z, P (SInt z).
Hypothesis Hf : forall b, P (SFloat b).
Hypothesis Hl : forall op args, Forall P args -> P (SList op args).
Fixpoint sexp_ind2 (e : sexp) : P e :=
  match e with
  | SSym s => Hs s | SInt z => Hi z | SFloat b => Hf b
  | SList op args => Hl op args
      ((fix go l : Forall P l := match l with [] => Forall_nil _ | c :: r => Forall_cons _ (sexp_ind2 c) (go r) end) args)
  end.
End SInd.

Lemma build_fits : forall vars e c, lenN vars < two64 -> sexp_fits e -> build vars e = Ok c -> fits_pred c.
Proof.
  intros vars e c Hv. revert c. induction e as [s|z|b|op args IH] using sexp_ind2; intros c Hfit H; cbn [build] in H.
  - destruct (sym_position s vars) as [i|] eqn:E; [|discriminate]. injection H as <-.
    apply sym_position_bound in E. constructor; unfold two64 in *; lia.
  - destruct (0 <=? z)%Z eqn:E0.
    + destruct (z <? 2 ^ 64)%Z eqn:E1; [|discriminate]. injection H as <-.
      apply Z.leb_le in E0. apply Z.ltb_lt in E1. constructor; unfold two64; lia.
    + destruct (- 2 ^ 63 <=? z)%Z; [|discriminate]. injection H as <-.
      assert (B := Z.mod_pos_bound z (2 ^ 64) ltac:(lia)). constructor; unfold two64; lia.
  - injection H as <-. cbn in Hfit. constructor; unfold two64 in *; lia.
  - destruct (op_kind op) as [k| | | |]; try discriminate. cbn [bind] in H.
    cbn [sexp_fits] in Hfit. destruct Hfit as [Hlen Hall].
    set (go := fix go l := match l with [] => Ok [] | a :: r => c <- build vars a ;; cs <- go r ;; Ok (c :: cs) end) in H.
    assert (K : forall l cs, Forall (fun e => forall c, sexp_fits e -> build vars e = Ok c -> fits_pred c) l ->
      (fix all l := match l with [] => True | a :: r => sexp_fits a /\ all r end) l ->
      go l = Ok cs -> Forall fits_pred cs /\ length cs = length l).
    { clear - Hv. induction l as [|x l IHl]; intros cs HF Ha Hg; cbn [go] in Hg.
      - injection Hg as <-. split; [constructor|reflexivity].
      - destruct (build vars x) as [c0| | | |] eqn:E; try discriminate. cbn [bind] in Hg. fold go in Hg.
        destruct (go l) as [cs0| | | |] eqn:E2; try discriminate. cbn [bind] in Hg. injection Hg as <-.
        destruct Ha as [Ha1 Ha2]. destruct (IHl cs0 (Forall_inv_tail HF) Ha2 eq_refl) as [I1 I2].
        split; [constructor; [apply (Forall_inv HF c0 Ha1 E)|exact I1]|cbn [length]; lia]. }
    destruct (go args) as [cs| | | |] eqn:E; try discriminate. cbn [bind] in H. injection H as <-.
    destruct (K args cs IH Hall E) as [K1 K2].
    apply fits_node; try (unfold two64; lia); try assumption. unfold lenN. lia.
Qed.

(** ** Calls *)
Lemma word_ok : forall t t' z junk, size t = size t' -> in_range t z = true -> in_range t' z = true ->
  take_word t' (pass_word t z junk) = z.
Proof.
  intros t t' z junk Hs H1 H2. unfold take_word, pass_word.
  rewrite firstn_app, encode_length, <- Hs, Nat.sub_diag. cbn [firstn]. rewrite app_nil_r.
  rewrite <- (encode_length t z), firstn_all. now apply decode_encode.
Qed.

Definition agrees (x y : fty) : bool :=
  match x, y with
  | TU8, TU8 | TU32, TU32 | TI32, TI32 | TU64, TU64 | TI64, TI64 | TF32, TF32 | TF64, TF64 | TPtr, TPtr | TI32, TU32 => true
  | _, _ => false
  end.
Fixpoint agree_all (l l' : list fty) : bool :=
  match l, l' with
  | [], [] => true
  | x :: r, y :: r' => agrees x y && agree_all r r'
  | _, _ => false
  end.
Lemma agrees_size : forall x y, agrees x y = true -> size x = size y.
Proof. destruct x, y; intros H; try discriminate H; reflexivity. Qed.
Lemma agrees_range : forall x y z, agrees x y = true -> in_range x z = true -> (0 <= z)%Z -> in_range y z = true.
Proof.
  intros x y z H Hr Hz. destruct x, y; try discriminate H; try exact Hr.
  unfold in_range in *. cbn [signed] in *. change (modulus TI32 / 2)%Z with 2147483648%Z in Hr.
  change (modulus TU32) with 4294967296%Z.
  apply andb_true_iff in Hr. destruct Hr as [H1 H2]. apply Z.ltb_lt in H2. apply andb_true_iff.
  split; [apply Z.leb_le|apply Z.ltb_lt]; lia.
Qed.

Lemma words_ok : forall lt ct args junk k, agree_all lt ct = true -> length args = length lt ->
  Forall (fun z => (0 <= z)%Z) args -> forallb (fun x => in_range (fst x) (snd x)) (combine lt args) = true ->
  map (fun x : fty * (fty * Z * nat) => take_word (fst x) (pass_word (fst (fst (snd x))) (snd (fst (snd x))) (junk (snd (snd x)))))
    (combine ct (combine (combine lt args) (seq k (length args)))) = args.
Proof.
  induction lt as [|x lt IH]; intros [|y ct] [|z args] junk k Ha Hl Hp Hr; try discriminate; [reflexivity|].
  cbn [agree_all] in Ha. apply andb_true_iff in Ha. destruct Ha as [Ha1 Ha2].
  cbn [combine forallb fst snd] in Hr. apply andb_true_iff in Hr. destruct Hr as [Hr1 Hr2].
  cbn [combine length seq map fst snd]. f_equal.
  - apply word_ok; [now apply agrees_size|exact Hr1|]. eapply agrees_range; [exact Ha1|exact Hr1|exact (Forall_inv Hp)].
  - apply IH; [exact Ha2|now injection Hl|exact (Forall_inv_tail Hp)|exact Hr2].
Qed.

Lemma find_sig_in : forall l f x, find_sig l f = Some x -> In (f, x) l.
Proof.
  induction l as [|[g y] l IH]; intros f x H; cbn [find_sig] in H; [discriminate|].
  destruct (String.eqb_spec f g) as [->|]; [injection H as <-; now left|right; now apply IH].
Qed.

Definition sig_check (f : string) : bool :=
  match find_sig l_functions f, find_sig c_functions f with
  | Some (lt, lr), Some (ct, cr) => agree_all lt ct &&
      match lr, cr with Some x, Some y => agrees x y && agrees y x | None, None => true | _, _ => false end
  | _, _ => true
  end.
Lemma sig_checked : forall f, sig_check f = true.
Proof.
  intros f. unfold sig_check. destruct (find_sig l_functions f) as [[lt lr]|] eqn:E; [|reflexivity].
  apply find_sig_in in E. unfold l_functions in E. cbn [In] in E.
  repeat (destruct E as [E|E]; [injection E as <- <- <-; reflexivity|]). destruct E.
Qed.

Lemma calls_ok : forall f args junk r, call_args f args junk = Ok r -> Forall (fun z => (0 <= z)%Z) args -> r = args.
Proof.
  intros f args junk r H Hp. assert (C := sig_checked f). unfold call_args in H. unfold sig_check in C.
  destruct (find_sig l_functions f) as [[lt lr]|]; [|discriminate].
  destruct (find_sig c_functions f) as [[ct cr]|]; [|discriminate].
  destruct ((length args =? length lt)%nat && forallb (fun x => in_range (fst x) (snd x)) (combine lt args)) eqn:E; [|discriminate].
  apply andb_true_iff in E. destruct E as [E1 E2]. apply Nat.eqb_eq in E1.
  apply andb_true_iff in C. destruct C as [C _].
  injection H as <-. now apply words_ok.
Qed.

Lemma in_ranges_b : forall ts zs, in_ranges ts zs ->
  length zs = length ts /\ forallb (fun x => in_range (fst x) (snd x)) (combine ts zs) = true.
Proof.
  induction ts as [|t ts IH]; intros [|z zs] H; try destruct H; [split; reflexivity|].
  destruct (IH zs H0) as [I1 I2]. split; [cbn [length]; lia|]. cbn [combine forallb fst snd]. now rewrite H, I2.
Qed.

Lemma accepts_ok : forall f ct cr args junk, f <> "add_trace" -> find_sig c_functions f = Some (ct, cr) ->
  in_ranges ct args -> exists r, call_args f args junk = Ok r.
Proof.
  intros f ct cr args junk Hf Hc Hr. apply in_ranges_b in Hr. destruct Hr as [R1 R2].
  assert (E : exists lr, find_sig l_functions f = Some (ct, lr)).
  { pose proof Hc as Hc'. apply find_sig_in in Hc'. unfold c_functions in Hc'. cbn [In] in Hc'.
    repeat (destruct Hc' as [Hc'|Hc']; [injection Hc' as <- <- <-; try (eexists; reflexivity); now elim Hf|]). destruct Hc'. }
  destruct E as [lr E]. unfold call_args. rewrite E, Hc, R1, R2, Nat.eqb_refl. cbn [andb]. eexists. reflexivity.
Qed.

Lemma results_ok : forall f ct cr z junk, find_sig c_functions f = Some (ct, Some cr) -> in_range cr z = true ->
  call_result f z junk = Some z.
Proof.
  intros f ct cr z junk Hc Hr.
  assert (E : exists lt, find_sig l_functions f = Some (lt, Some cr)).
  { pose proof Hc as Hc'. apply find_sig_in in Hc'. unfold c_functions in Hc'. cbn [In] in Hc'.
    repeat (destruct Hc' as [Hc'|Hc']; [injection Hc' as <- <- <-; eexists; reflexivity || discriminate|]). destruct Hc'. }
  destruct E as [lt E]. unfold call_result. rewrite E, Hc. f_equal. now apply word_ok.
Qed.
