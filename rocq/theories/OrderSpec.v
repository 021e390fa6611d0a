(** What is expected of ==, hash_value and <. *)
From Verif Require Import Base Types.

Definition equivalence {A} (D : A -> Prop) (eq : A -> A -> bool) : Prop :=
  (forall x, D x -> eq x x = true) /\
  (forall x y, D x -> D y -> eq x y = true -> eq y x = true) /\
  (forall x y z, D x -> D y -> D z -> eq x y = true -> eq y z = true -> eq x z = true).

Definition hash_agrees {A} (D : A -> Prop) (eq : A -> A -> bool) (h : A -> N) : Prop :=
  forall x y, D x -> D y -> eq x y = true -> h x = h y.

Definition distinguishes {A} (D : A -> Prop) (eq : A -> A -> bool) : Prop :=
  forall x y, D x -> D y -> eq x y = true -> x = y.

(** A comparison that is always defined, irreflexive, transitive, and whose
    incomparable elements are equal. *)
Definition strict_order {A} (D : A -> Prop) (lt : A -> A -> outcome bool) : Prop :=
  (forall x y, D x -> D y -> exists b, lt x y = Ok b) /\
  (forall x, D x -> lt x x = Ok false) /\
  (forall x y z, D x -> D y -> D z -> lt x y = Ok true -> lt y z = Ok true -> lt x z = Ok true) /\
  (forall x y, D x -> D y -> lt x y = Ok false -> lt y x = Ok false -> x = y).

(** Every value has its format's representation (no indeterminate bytes). *)
Definition has_value (v : var) : Prop :=
  match v_fmt v with
  | BLOB => exists bs, v_val v = VBlob bs
  | _ => exists u, v_val v = VBits u
  end.

(** Variables that are not blobs; blobs of size n; points without blobs. *)
Definition no_blob (v : var) : Prop := v_fmt v <> BLOB /\ exists u, v_val v = VBits u.
Definition blob_of (n : N) (v : var) : Prop := v_fmt v = BLOB /\ v_size v = n /\ exists bs, v_val v = VBlob bs /\ lenN bs = n.
Definition no_blobs {A} (p : point A) : Prop := Forall no_blob (p_vars p).
