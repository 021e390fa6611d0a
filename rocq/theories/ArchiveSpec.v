(** What a serialised database is about: which databases can be stored. *)
From Verif Require Import Base Types FormatSpec Order CApi CApiSpec PredSpec.

(** The members of the objects are within their C++ types, and a blob has as
    many bytes as its size says. *)
Definition var_in_range (v : var) : Prop :=
  v_name v < 2 ^ 32 /\ v_type v < 2 ^ 32 /\ v_size v < 2 ^ 32 /\ v_bsz v < 2 ^ 64 /\ v_has v < 2 ^ 8 /\
  match v_val v with
  | VBits u => v_fmt v <> BLOB /\ u < 2 ^ 64
  | VBlob bs => v_fmt v = BLOB /\ lenN bs = v_size v
  | VIndet => False
  end.
Definition bufsz_in_range (b : bufsz) : Prop := b_addr b < 2 ^ 64 /\ b_size b < 2 ^ 64.
Definition type_in_range (t : tdesc) : Prop := t_name t < 2 ^ 32 /\ t_size t < 2 ^ 32.
Definition point_in_range (p : point N) : Prop :=
  p_counter p < 2 ^ 64 /\ p_stmt p < 2 ^ 64 /\
  lenN (p_sizes p) < 2 ^ 64 /\ lenN (p_vars p) < 2 ^ 64 /\ lenN (p_aux p) < 2 ^ 64 /\
  Forall bufsz_in_range (p_sizes p) /\ Forall var_in_range (p_vars p) /\ Forall (fun u => u < 2 ^ 64) (p_aux p).

(** A trace with fewer than 2^32 names and types, none of the names containing
    a NUL. *)
Definition trace_in_range (t : trace N) : Prop :=
  lenN (tr_names t) < 2 ^ 32 /\ lenN (tr_types t) < 2 ^ 32 /\ lenN (tr_points t) < 2 ^ 64 /\
  Forall (fun n => nul_free n /\ lenN n < 2 ^ 64) (tr_names t) /\
  Forall type_in_range (tr_types t) /\ Forall point_in_range (tr_points t).

(** Points whose data are equal (operator==) have the same data.  C32 and C33
    say that this holds when every value fits the size of its variable. *)
Definition canonical (ts : list (trace N)) : Prop :=
  forall t u p q, In t ts -> In u ts -> In p (tr_points t) -> In q (tr_points u) -> data_eqb p q = true ->
    p_sizes p = p_sizes q /\ p_vars p = p_vars q /\ p_aux p = p_aux q.

Definition storable (ts : list (trace N)) : Prop :=
  lenN ts < 2 ^ 64 /\ lenN (concat (map tr_points ts)) < 2 ^ 64 /\ Forall trace_in_range ts /\ canonical ts.

(** A call of the C API whose arguments are within their C types. *)
Definition call_in_range (c : call) : Prop :=
  match c with
  | CAdd _ _ garbage => forall i, garbage i < 2 ^ 64
  | CAddPoints names ps =>
      Forall (fun p => ip_stmt p < 2 ^ 64 /\ lenN (ip_vars p) < 2 ^ 64 /\
        Forall (fun v => cv_name v < 2 ^ 32 /\ cv_tname v < 2 ^ 32 /\ cv_bsz v < 2 ^ 64 /\ cv_has v < 2 ^ 8 /\
                         exists u, cv_value v = VBits u /\ u < 2 ^ 64) (ip_vars p)) ps
  | _ => True
  end.

(** The traces have fewer than 2^32 names and types, and the vectors and strings
    fewer than 2^64 elements. *)
Definition not_huge (ts : list (trace N)) : Prop :=
  lenN ts < 2 ^ 64 /\ lenN (concat (map tr_points ts)) < 2 ^ 64 /\
  Forall (fun t => lenN (tr_names t) < 2 ^ 32 /\ lenN (tr_types t) < 2 ^ 32 /\ Forall (fun n => lenN n < 2 ^ 64) (tr_names t) /\
    Forall (fun p => lenN (p_sizes p) < 2 ^ 64 /\ lenN (p_vars p) < 2 ^ 64 /\ lenN (p_aux p) < 2 ^ 64) (tr_points t)) ts.
