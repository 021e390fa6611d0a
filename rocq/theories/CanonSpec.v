(** Traces that the binary format can represent faithfully. *)
From Verif Require Import Base Types MemMapSpec FormatSpec.

(** The variable fits its type; [h]: the buffer records of the trace up to
    and including those of the variable's point. *)
Definition var_canon (ok : N -> bool) (names : list name) (types : list tdesc) (h : history) (v : var) : Prop :=
  v_name v < 2 ^ 32 /\ v_type v < 2 ^ 32 /\ v_name v < lenN names /\
  exists t, nthN types (v_type v) = Some t /\ v_fmt v = t_fmt t /\
  (t_fmt t <> POINTER -> v_bsz v = 0 /\ v_has v = 0) /\
  match t_fmt t with
  | UNSIGNED => In (t_size t) [1; 2; 4; 8] /\ v_size v = t_size t /\
                exists u, v_val v = VBits u /\ u < 2 ^ (8 * t_size t)
  | SIGNED => In (t_size t) [1; 2; 4; 8] /\ v_size v = t_size t /\
              exists u, v_val v = VBits u /\ u < 2 ^ 64 /\
                (- 2 ^ (8 * Z.of_N (t_size t) - 1) <= s64 u < 2 ^ (8 * Z.of_N (t_size t) - 1))%Z
  | FLOAT => In (t_size t) [4; 8] /\ v_size v = t_size t /\
             exists u, v_val v = VBits u /\ u < 2 ^ (8 * t_size t)
  | POINTER => t_size t = 8 /\ v_size v = 8 /\
               exists u, v_val v = VBits u /\ u < 2 ^ 64 /\ pointer_size h u (v_bsz v) (v_has v)
  | BLOB => t_size t = 0 /\ exists bs, v_val v = VBlob bs /\ v_size v = lenN bs /\ lenN bs < 2 ^ 32 /\
               (bs <> [] -> ok (lenN bs) = true)
  | INVALID_FORMAT => False
  end.

Definition sizes_hist (l : list bufsz) : history := map (fun b => (b_addr b, b_size b)) l.

Inductive points_canon (ok : N -> bool) (names : list name) (types : list tdesc) : N -> history -> list (point N) -> Prop :=
| pc_nil : forall i h, points_canon ok names types i h []
| pc_cons : forall i h p ps,
    p_counter p = i -> p_stmt p < 2 ^ 64 ->
    Forall (fun b => b_addr b < 2 ^ 64 /\ b_size b < 2 ^ 64) (p_sizes p) ->
    Forall (var_canon ok names types (h ++ sizes_hist (p_sizes p))) (p_vars p) ->
    Forall (fun a => a < 2 ^ 64) (p_aux p) ->
    points_canon ok names types (i + 1) (h ++ sizes_hist (p_sizes p)) ps ->
    points_canon ok names types i h (p :: ps).

Definition trace_canon (ok : N -> bool) (tr : trace N) : Prop :=
  names_wf ok (tr_names tr) /\ types_wf ok (tr_types tr) /\
  points_canon ok (tr_names tr) (tr_types tr) 0 [] (tr_points tr) /\
  sentinel_safe (sizes_hist (concat (map p_sizes (tr_points tr)))).

(** The trace as the reader reports it: every statement id is defined. *)
Definition some_trace (tr : trace N) : trace (option N) :=
  mkTr (tr_names tr) (tr_types tr) (map (map_stmt Some) (tr_points tr)).

(** Types whose values the writer writes in the form the reader reads. *)
Definition writable (t : tdesc) : Prop :=
  match t_fmt t with
  | UNSIGNED | SIGNED => In (t_size t) [1; 2; 4; 8]
  | FLOAT => In (t_size t) [4; 8]
  | POINTER => t_size t = 8
  | BLOB => t_size t = 0
  | INVALID_FORMAT => False
  end.

(** In this point no buffer record follows a variable. *)
Definition sizes_first (es : list entry) : Prop :=
  exists a b, es = a ++ b /\
    length (filter (fun e => match e with EVar _ _ _ => true | _ => false end) a) = O /\ records b = [].
