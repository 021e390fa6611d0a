(** Exactly when a compiler that elides nothing makes the evaluation undefined. *)
From Verif Require Import BaseProofs Types Compare Predicate PredProofs Owned OwnedSpec OwnedProofs.

Section P.
Variable O : fops.
Variable elide : nat -> bool.
Variable vars : list var.
Hypothesis NO : forall n, elide n = false.
Notation ev := (o_evaluate O elide vars).

Lemma obind_ok {A B} (m : own O A) (f : A -> own O B) h r : obind O m f h = Ok r -> exists a h', m h = Ok (a, h') /\ f a h' = Ok r.
Proof. unfold obind. destruct (m h) as [[a h']| | | |]; try discriminate. eauto. Qed.
Lemma pass_ptr o h o' h' : pass O elide o h = Ok (o', h') -> o_ptr o' <> None.
Proof.
  unfold pass. rewrite NO. intros E. apply obind_ok in E. destruct E as (o1 & h1 & E1 & E). apply obind_ok in E. destruct E as (u & h2 & _ & E).
  injection E as <- <-. unfold copy in E1. destruct (o_int o);
    (apply obind_ok in E1; destruct E1 as (z & h3 & _ & E1); apply obind_ok in E1; destruct E1 as (a & h4 & _ & E1); injection E1 as <- <-; discriminate).
Qed.
Lemma ev_ptr p h o h' : ev p h = Ok (o, h') -> o_ptr o <> None.
Proof.
  destruct p as [k d cs]. intros E.
  assert (P : forall m : own O obj, obind O m (pass O elide) h = Ok (o, h') -> o_ptr o <> None).
  { intros m X. apply obind_ok in X. destruct X as (a & h1 & _ & X). exact (pass_ptr _ _ _ _ X). }
  assert (P2 : forall (m : own O var) (f : var -> own O obj), (forall v h1, f v h1 = Ok (o, h') -> o_ptr o <> None) -> obind O m f h = Ok (o, h') -> o_ptr o <> None).
  { intros m f F X. apply obind_ok in X. destruct X as (a & h1 & _ & X). exact (F _ _ X). }
  destruct k; cbn [o_evaluate] in E; try discriminate E; try exact (P _ E).
  - destruct cs as [|[[] i cs'] [|c r]]; try discriminate E. apply (P2 _ _) in E; [exact E|]. intros v h1 X. unfold o_size in X.
    apply obind_ok in X. destruct X as (a & h2 & _ & X). apply obind_ok in X. destruct X as (b & h3 & _ & X). exact (pass_ptr _ _ _ _ X).
  - destruct cs as [|[[] i cs'] [|c r]]; try discriminate E. apply (P2 _ _) in E; [exact E|]. intros v h1 X. unfold o_value in X.
    apply obind_ok in X. destruct X as (a & h2 & _ & X). exact (pass_ptr _ _ _ _ X).
  - destruct cs as [|a [|b [|c r]]]; try discriminate E. exact (P _ E).
  - destruct cs as [|a [|b [|c r]]]; try discriminate E. exact (P _ E).
  - destruct cs as [|a [|b [|c r]]]; try discriminate E. exact (P _ E).
  - destruct cs as [|a [|b [|c r]]]; try discriminate E. exact (P _ E).
Qed.
Lemma ev_invalid p h : hwf O h -> evaluate O vars p = Ok PInvalid -> ev p h = UB UNull.
Proof.
  intros W E. destruct (evaluate_sim O elide vars p h _ W eq_refl) as [[X _]|X]; [exact X|]. rewrite E in X.
  destruct X as (o & h' & b & X & [-> _] & _). destruct (ev_ptr p h _ _ X eq_refl).
Qed.

Lemma with_operands_ub {A} a b (f : obj -> obj -> own O A) x y h : hwf O h -> evaluate O vars a = Ok x -> evaluate O vars b = Ok y ->
  (forall h, hwf O h -> ev a h = UB UNull) \/ (forall h, hwf O h -> ev b h = UB UNull) ->
  with_operands O elide (ev a) (ev b) f h = UB UNull.
Proof.
  intros W Ea Eb [H|H]; unfold with_operands, obind at 1.
  - rewrite (H h W). reflexivity.
  - destruct (evaluate_sim O elide vars a h _ W eq_refl) as [[X _]|X]; [rewrite X; reflexivity|]. rewrite Ea in X.
    destruct X as (o & h1 & b1 & X & HO & HL & W1). rewrite X. unfold obind at 1.
    destruct (pass_sim O elide o x b1 (h_live O h) h1 True HO HL W1 (fun _ _ => I)) as [[Y _]|(o2 & h2 & b2 & Y & _ & _ & W2)]; rewrite Y; [reflexivity|].
    unfold obind at 1. rewrite (H h2 W2). reflexivity.
Qed.

Lemma ev_undefined p : forall x h, hwf O h -> evaluate O vars p = Ok x -> some_invalid O vars p -> ev p h = UB UNull.
Proof.
  induction p as [k d cs IH] using pred_ind2. intros x h W E (s & Ws & Es).
  inversion Ws as [|k' d' cs' c HK Ic Wc]; subst; [apply ev_invalid; assumption|].
  assert (BIN : forall op f,
    evaluate O vars (Pred k d cs) = match cs with [a; b] => x <- evaluate O vars a ;; y <- evaluate O vars b ;; Ok (f x y) | _ => Abort end ->
    ev (Pred k d cs) = match cs with [a; b] => obind O (with_operands O elide (ev a) (ev b) (functor O elide op)) (pass O elide) | _ => ofail O Abort end ->
    ev (Pred k d cs) h = UB UNull).
  { intros op f E1 E2. rewrite E2. rewrite E1 in E. destruct cs as [|a [|b [|c' r]]]; try discriminate E.
    apply bind_ok in E. destruct E as (u & Ea & E). apply bind_ok in E. destruct E as (v & Eb & E).
    unfold obind. rewrite (with_operands_ub a b _ u v h W Ea Eb); [reflexivity|].
    destruct Ic as [<-|[<-|[]]]; [left|right]; intros h0 W0; [apply (Forall_inv IH u)|apply (Forall_inv (Forall_inv_tail IH) v)]; auto; exists s; auto. }
  destruct k; cbn [evaluate] in E; try discriminate E; try (exfalso; clear - HK; cbn in HK; intuition discriminate).
  - exact (BIN _ _ eq_refl eq_refl).
  - exact (BIN _ _ eq_refl eq_refl).
  - exact (BIN _ _ eq_refl eq_refl).
  - exact (BIN _ _ eq_refl eq_refl).
Qed.

Lemma comparison_undefined k d a b x y h : is_comparison k -> hwf O h -> evaluate O vars a = Ok x -> evaluate O vars b = Ok y ->
  some_invalid O vars a \/ some_invalid O vars b -> o_satisfied O elide vars (Pred k d [a; b]) h = UB UNull.
Proof.
  intros K W Ea Eb H.
  assert (C : forall iop fop, with_operands O elide (ev a) (ev b) (comparison O iop fop) h = UB UNull).
  { intros iop fop. apply (with_operands_ub a b _ x y h W Ea Eb). destruct H as [H|H]; [left|right]; intros h0 W0; eapply ev_undefined; eauto. }
  destruct K as [<-|[<-|[<-|[<-|[<-|[]]]]]]; apply C.
Qed.
End P.
