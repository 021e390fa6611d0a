(** Lemmas about [Base]. *)
From Verif Require Export Base.
From Coq Require Export ZifyBool ZifyNat ZifyN.
Ltac Zify.zify_post_hook ::= Z.div_mod_to_equations.

Lemma bind_ok : forall A B (o : outcome A) (f : A -> outcome B) b,
  bind o f = Ok b -> exists a, o = Ok a /\ f a = Ok b.
Proof. intros A B [] f b H; simpl in H; try discriminate; eauto. Qed.

Lemma N_of_byte_lt : forall b, N_of_byte b < two8.
Proof. intro b. unfold N_of_byte, two8. pose proof (Byte.to_N_bounded b). lia. Qed.

Lemma N_of_byte_of_N : forall n, N_of_byte (byte_of_N n) = n mod two8.
Proof.
  intro n. unfold byte_of_N, N_of_byte.
  assert (H : n mod two8 < two8) by (apply N.mod_lt; discriminate).
  destruct (Byte.of_N (n mod two8)) as [b|] eqn:E.
  - apply Byte.to_of_N_iff in E. exact E.
  - apply Byte.of_N_None_iff in E. unfold two8 in *. lia.
Qed.

Lemma byte_of_N_of_byte : forall b, byte_of_N (N_of_byte b) = b.
Proof.
  intro b. unfold byte_of_N. rewrite N.mod_small by apply N_of_byte_lt.
  unfold N_of_byte. rewrite Byte.of_to_N. reflexivity.
Qed.

Lemma N_of_byte_inj : forall a b, N_of_byte a = N_of_byte b -> a = b.
Proof. intros a b H. rewrite <- (byte_of_N_of_byte a), <- (byte_of_N_of_byte b), H. reflexivity. Qed.

Lemma byte_of_N_mod : forall n, byte_of_N (n mod two8) = byte_of_N n.
Proof. intro n. unfold byte_of_N. rewrite N.mod_mod by discriminate. reflexivity. Qed.

Lemma le_bytes_length : forall n x, length (le_bytes n x) = n.
Proof. induction n; simpl; intros; [reflexivity | f_equal; auto]. Qed.

Lemma le_val_bound : forall l, le_val l < two8 ^ lenN l.
Proof.
  induction l as [|b r IH].
  - simpl. unfold lenN. simpl. lia.
  - cbn [le_val]. unfold lenN in *. cbn [length]. rewrite Nat2N.inj_succ, N.pow_succ_r'.
    pose proof (N_of_byte_lt b). set (p := two8 ^ N.of_nat (length r)) in *.
    unfold two8 in *. lia.
Qed.

Lemma le_val_le_bytes : forall n x, le_val (le_bytes n x) = x mod two8 ^ N.of_nat n.
Proof.
  induction n as [|n IH]; intro x.
  - simpl. rewrite N.mod_1_r. reflexivity.
  - cbn [le_bytes le_val]. rewrite IH, N_of_byte_of_N.
    rewrite Nat2N.inj_succ, N.pow_succ_r'.
    rewrite N.mod_mul_r; [reflexivity | discriminate | apply N.pow_nonzero; discriminate].
Qed.

Lemma le_val_le_bytes_small : forall n x,
  x < two8 ^ N.of_nat n -> le_val (le_bytes n x) = x.
Proof. intros. rewrite le_val_le_bytes. apply N.mod_small; assumption. Qed.

Lemma le_bytes_le_val : forall l, le_bytes (length l) (le_val l) = l.
Proof.
  induction l as [|b r IH]; [reflexivity|].
  cbn [length le_bytes le_val].
  assert (Hb := N_of_byte_lt b).
  f_equal.
  - rewrite <- byte_of_N_mod.
    replace (N_of_byte b + two8 * le_val r) with (N_of_byte b + le_val r * two8) by lia.
    rewrite N.mod_add by discriminate. rewrite byte_of_N_mod. apply byte_of_N_of_byte.
  - replace ((N_of_byte b + two8 * le_val r) / two8) with (le_val r); [exact IH|].
    apply N.div_unique with (N_of_byte b); [exact Hb | lia].
Qed.

Lemma le_val_app : forall a b, le_val (a ++ b) = le_val a + two8 ^ lenN a * le_val b.
Proof.
  induction a as [|x a IH]; intro b; cbn [app le_val].
  - unfold lenN. simpl. destruct (le_val b); reflexivity.
  - rewrite IH. unfold lenN. cbn [length]. rewrite Nat2N.inj_succ, N.pow_succ_r'. fold (lenN a). lia.
Qed.

(** ** takeN / dropN / nthN / lenN *)

Lemma lenN_nil : forall A, lenN (@nil A) = 0. Proof. reflexivity. Qed.
Lemma lenN_cons : forall A (x : A) l, lenN (x :: l) = N.succ (lenN l).
Proof. intros. unfold lenN. cbn [length]. lia. Qed.
Lemma lenN_app : forall A (l m : list A), lenN (l ++ m) = lenN l + lenN m.
Proof. intros. unfold lenN. rewrite app_length. lia. Qed.
Lemma lenN_map : forall A B (f : A -> B) l, lenN (map f l) = lenN l.
Proof. intros. unfold lenN. rewrite map_length. reflexivity. Qed.

Lemma takeN_firstn : forall A (l : list A) n, takeN n l = firstn (N.to_nat n) l.
Proof.
  induction l as [|x r IH]; intro n; cbn [takeN].
  - rewrite firstn_nil. reflexivity.
  - destruct (N.eqb_spec n 0).
    + subst. reflexivity.
    + rewrite IH. replace (N.to_nat n) with (S (N.to_nat (N.pred n))) by lia. reflexivity.
Qed.

Lemma dropN_skipn : forall A (l : list A) n, dropN n l = skipn (N.to_nat n) l.
Proof.
  induction l as [|x r IH]; intro n; cbn [dropN].
  - rewrite skipn_nil. reflexivity.
  - destruct (N.eqb_spec n 0).
    + subst. reflexivity.
    + rewrite IH. replace (N.to_nat n) with (S (N.to_nat (N.pred n))) by lia. reflexivity.
Qed.

Lemma nthN_nth_error : forall A (l : list A) n, nthN l n = nth_error l (N.to_nat n).
Proof.
  induction l as [|x r IH]; intro n; cbn [nthN].
  - destruct (N.to_nat n); reflexivity.
  - destruct (N.eqb_spec n 0).
    + subst. reflexivity.
    + rewrite IH. replace (N.to_nat n) with (S (N.to_nat (N.pred n))) by lia. reflexivity.
Qed.

Lemma takeN_dropN : forall A n (l : list A), takeN n l ++ dropN n l = l.
Proof. intros. rewrite takeN_firstn, dropN_skipn. apply firstn_skipn. Qed.

Lemma lenN_takeN : forall A n (l : list A), lenN (takeN n l) = N.min n (lenN l).
Proof. intros. rewrite takeN_firstn. unfold lenN. rewrite firstn_length. lia. Qed.

Lemma lenN_dropN : forall A n (l : list A), lenN (dropN n l) = lenN l - n.
Proof. intros. rewrite dropN_skipn. unfold lenN. rewrite skipn_length. lia. Qed.

Lemma takeN_app : forall A (l m : list A) n, n = lenN l -> takeN n (l ++ m) = l.
Proof.
  intros. subst. rewrite takeN_firstn. unfold lenN. rewrite Nat2N.id.
  rewrite firstn_app, Nat.sub_diag, firstn_O, app_nil_r, firstn_all. reflexivity.
Qed.

Lemma dropN_app : forall A (l m : list A) n, n = lenN l -> dropN n (l ++ m) = m.
Proof.
  intros. subst. rewrite dropN_skipn. unfold lenN. rewrite Nat2N.id.
  rewrite skipn_app, Nat.sub_diag, skipn_O, skipn_all. reflexivity.
Qed.

Lemma takeN_all : forall A (l : list A) n, lenN l <= n -> takeN n l = l.
Proof. intros. rewrite takeN_firstn. apply firstn_all2. unfold lenN in *. lia. Qed.

Lemma nthN_lt : forall A (l : list A) n, n < lenN l -> exists x, nthN l n = Some x.
Proof.
  intros. rewrite nthN_nth_error. destruct (nth_error l (N.to_nat n)) eqn:E; [eauto|].
  apply nth_error_None in E. unfold lenN in *. lia.
Qed.

Lemma nthN_Some_lt : forall A (l : list A) n x, nthN l n = Some x -> n < lenN l.
Proof.
  intros. rewrite nthN_nth_error in H.
  assert (nth_error l (N.to_nat n) <> None) as Hn by congruence.
  apply nth_error_Some in Hn. unfold lenN. lia.
Qed.

Lemma nthN_None : forall A (l : list A) n, nthN l n = None <-> lenN l <= n.
Proof.
  intros. rewrite nthN_nth_error, nth_error_None. unfold lenN. lia.
Qed.

Lemma nthN_In : forall A (l : list A) n x, nthN l n = Some x -> In x l.
Proof. intros. rewrite nthN_nth_error in H. eapply nth_error_In; eauto. Qed.

Lemma nthN_map : forall A B (f : A -> B) l n, nthN (map f l) n = option_map f (nthN l n).
Proof. induction l; intros; simpl; [reflexivity|]. destruct (n =? 0); auto. Qed.

Lemma nthN_app1 : forall A (l m : list A) n, n < lenN l -> nthN (l ++ m) n = nthN l n.
Proof. intros. rewrite !nthN_nth_error. apply nth_error_app1. unfold lenN in *. lia. Qed.

Lemma nthN_app2 : forall A (l m : list A) n, lenN l <= n -> nthN (l ++ m) n = nthN m (n - lenN l).
Proof.
  intros. rewrite !nthN_nth_error, nth_error_app2 by (unfold lenN in *; lia).
  f_equal. unfold lenN in *. lia.
Qed.

(** Split conjunctions only. *)
Ltac conj_split := repeat match goal with |- _ /\ _ => split | |- @eq _ _ _ => reflexivity end.
