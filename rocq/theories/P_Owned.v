(** Property C73: evaluating a predicate gives the memory of its intermediate values
    back, and what it yields does not depend on which temporary values the compiler
    copies.

    [o_satisfied O elide vars p] evaluates [p] on objects that own memory (Owned.v);
    [elide n] says whether the [n]-th copy is elided.  [satisfied O vars p] is the
    evaluation of Predicate.v, whose meaning is the subject of C22 - C25 and C59. *)
From Verif Require Import BaseProofs Types Compare Predicate Owned OwnedSpec OwnedProofs OwnedProofs2.

Lemma empty_hwf O : hwf O (empty_heap O).
Proof. split; constructor. Qed.

(** For every choice of copies: either the same outcome as without objects, and then
    no number remains and none is deleted twice, or a null pointer is dereferenced;
    the latter only if some copy is made and some sub-expression has no value. *)
Theorem C73_any_elision : forall O elide vars p,
  ends_clean (o_satisfied O elide vars p (empty_heap O)) (satisfied O vars p) \/
  (o_satisfied O elide vars p (empty_heap O) = UB UNull /\ (exists n, elide n = false) /\ some_invalid O vars p).
Proof.
  intros O elide vars p. destruct (satisfied_sim O elide vars p (empty_heap O) [] (empty_hwf O) eq_refl) as [[E B]|S]; [right; split; [exact E|exact B]|left].
  unfold ends_clean. destruct (satisfied O vars p) as [c|e|k| |]; try exact S. destruct S as (a & h & b & E & [-> ->] & HL & _). exists h. split; [exact E|exact HL].
Qed.
Print Assumptions C73_any_elision.

(** With copy elision (the default of gcc and clang). *)
Theorem C73_elided : forall O elide vars p, (forall n, elide n = true) ->
  ends_clean (o_satisfied O elide vars p (empty_heap O)) (satisfied O vars p).
Proof.
  intros O elide vars p H. destruct (C73_any_elision O elide vars p) as [X|(_ & [n E] & _)]; [exact X|]. rewrite H in E. discriminate.
Qed.
Print Assumptions C73_elided.

(** If every operand has a value, the copies do not matter. *)
Theorem C73_values : forall O elide vars p, ~ some_invalid O vars p ->
  ends_clean (o_satisfied O elide vars p (empty_heap O)) (satisfied O vars p).
Proof.
  intros O elide vars p H. destruct (C73_any_elision O elide vars p) as [X|(_ & _ & E)]; [exact X|]. destruct (H E).
Qed.
Print Assumptions C73_values.

(** Without elision a comparison whose operands can be evaluated is undefined exactly
    if some sub-expression has no value. *)
Theorem C73_no_elision : forall O elide vars k d a b x y, (forall n, elide n = false) -> is_comparison k ->
  evaluate O vars a = Ok x -> evaluate O vars b = Ok y ->
  ((exists u, o_satisfied O elide vars (Pred k d [a; b]) (empty_heap O) = UB u) <->
   some_invalid O vars a \/ some_invalid O vars b).
Proof.
  intros O elide vars k d a b x y NO K Ea Eb. split.
  - intros [u E]. destruct (C73_any_elision O elide vars (Pred k d [a; b])) as [X|(_ & _ & (s & Ws & Es))].
    + exfalso. assert (S : exists c, satisfied O vars (Pred k d [a; b]) = Ok c).
      { destruct K as [<-|[<-|[<-|[<-|[<-|[]]]]]]; cbn [satisfied]; rewrite Ea, Eb; eexists; reflexivity. }
      destruct S as [c S]. rewrite S in X. destruct X as (h & X & _). rewrite X in E. discriminate.
    + inversion Ws as [|k' d' cs' c HK Ic Wc]; subst.
      * exfalso. destruct K as [<-|[<-|[<-|[<-|[<-|[]]]]]]; cbn [evaluate] in Es; discriminate Es.
      * destruct Ic as [<-|[<-|[]]]; [left|right]; exists s; auto.
  - intros H. exists UNull. exact (comparison_undefined O elide vars NO k d a b x y _ K (empty_hwf O) Ea Eb H).
Qed.
Print Assumptions C73_no_elision.

(** The comparison (size v) < 3 for a pointer into no known buffer: false if copies
    are elided, undefined behaviour if not. *)
Definition a_pointer : var := mkV (VBits 4096) 0 0 POINTER 8 0 0.
Definition size_less_3 : pred :=
  Pred LESS_THAN 0 [Pred VAR_SIZE 0 [Pred VAR_REFERENCE 0 []]; Pred UNSIGNED_VALUE 3 []].
Theorem C73_copies_refuted : forall O,
  satisfied O [a_pointer] size_less_3 = Ok false /\
  ends_clean (o_satisfied O (fun _ => true) [a_pointer] size_less_3 (empty_heap O)) (Ok false) /\
  o_satisfied O (fun _ => false) [a_pointer] size_less_3 (empty_heap O) = UB UNull.
Proof. intros O. split; [reflexivity|]. split; [|reflexivity]. eexists. split; [vm_compute; reflexivity|reflexivity]. Qed.
Print Assumptions C73_copies_refuted.

(** (4096 + v) * 2 = 16384 with all copies made: every number is deleted. *)
Definition sum_is : pred :=
  Pred EQUAL 0 [Pred MULTIPLY 0 [Pred ADD 0 [Pred UNSIGNED_VALUE 4096 []; Pred VAR_VALUE 0 [Pred VAR_REFERENCE 0 []]]; Pred SIGNED_VALUE 2 []];
                Pred UNSIGNED_VALUE 16384 []].
Example C73_case : forall O, exists h, o_satisfied O (fun _ => false) [a_pointer] sum_is (empty_heap O) = Ok (true, h) /\
  h_live O h = [] /\ h_next O h = 28 /\ h_copies O h = 22%nat.
Proof. intros O. eexists. split; [vm_compute; reflexivity|]. repeat split. Qed.
