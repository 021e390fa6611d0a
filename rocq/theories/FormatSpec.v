(** Specification of the binary trace format, independent of the reader and
    the writer: what a trace file looks like and which trace it describes. *)
From Verif Require Import Base Types MemMapSpec.

(** One entry of a trace point. *)
Inductive entry :=
| EStmt (id : N)                             (* statement id *)
| EVar (nm ty : N) (data : list byte)        (* variable: name index, type index, value *)
| EBuf (addr size : N)                       (* buffer size record *)
| EAux (a : N).                              (* auxiliary word *)

(** A trace file: names, types and points. *)
Record tfile := mkF {
  f_names : list name;
  f_types : list tdesc;
  f_points : list (list entry)
}.

(** ** Concrete syntax *)

Definition is_var_blob (types : list tdesc) (ty : N) : bool :=
  match nthN types ty with
  | Some (mkT _ BLOB 0) => true
  | _ => false
  end.

Definition enc_entry (types : list tdesc) (e : entry) : list byte :=
  match e with
  | EStmt id => x01 :: le_bytes 8 id
  | EVar nm ty data =>
      x02 :: le_bytes 4 nm ++ le_bytes 4 ty ++
      (if is_var_blob types ty then le_bytes 4 (lenN data) else []) ++ data
  | EBuf a s => x03 :: le_bytes 8 a ++ le_bytes 8 s
  | EAux a => x04 :: le_bytes 8 a
  end.

Definition enc_entries (types : list tdesc) (es : list entry) : list byte :=
  concat (map (enc_entry types) es).

Definition enc_point (types : list tdesc) (es : list entry) : list byte :=
  enc_entries types es ++ [x00].

Definition enc_points (types : list tdesc) (ps : list (list entry)) : list byte :=
  concat (map (enc_point types) ps).

(** Names are NUL-terminated, preceded by the total number of characters. *)
Definition name_chars (names : list name) : list byte := concat (map (fun n => n ++ [x00]) names).
Definition enc_names (names : list name) : list byte :=
  le_bytes 8 (lenN (name_chars names)) ++ name_chars names.

Definition enc_type (t : tdesc) : list byte :=
  le_bytes 4 (t_name t) ++ le_bytes 4 (fmt_code (t_fmt t)) ++ le_bytes 4 (t_size t).
Definition enc_types (types : list tdesc) : list byte :=
  le_bytes 4 (lenN types) ++ concat (map enc_type types).

Definition enc_header (names : list name) (types : list tdesc) : list byte :=
  enc_names names ++ enc_types types.

Definition enc_file (F : tfile) : list byte :=
  enc_header (f_names F) (f_types F) ++ enc_points (f_types F) (f_points F).

(** ** Well-formed files.  [ok n]: n bytes of memory can be allocated. *)

Definition nul_free (n : name) : Prop := ~ In x00 n.

Definition names_wf (ok : N -> bool) (names : list name) : Prop :=
  Forall nul_free names /\ lenN (name_chars names) < 2 ^ 64 /\
  (names <> [] -> ok (lenN (name_chars names)) = true).

Definition type_wf (t : tdesc) : Prop :=
  t_name t < 2 ^ 32 /\ t_size t < 2 ^ 32 /\ t_fmt t <> INVALID_FORMAT.

Definition types_wf (ok : N -> bool) (types : list tdesc) : Prop :=
  Forall type_wf types /\ lenN types < 2 ^ 32 /\
  (types <> [] -> ok (12 * lenN types) = true).

(** The value of a variable has the size its type says. *)
Definition data_wf (ok : N -> bool) (t : tdesc) (data : list byte) : Prop :=
  match t_fmt t with
  | SIGNED => lenN data = t_size t /\ In (t_size t) [1; 2; 4; 8]
  | UNSIGNED | FLOAT | POINTER => lenN data = t_size t /\ t_size t <= 8
  | BLOB => (t_size t = 0 /\ lenN data < 2 ^ 32 \/ t_size t <> 0 /\ lenN data = t_size t) /\
            (data <> [] -> ok (lenN data) = true)
  | INVALID_FORMAT => False
  end.

Definition entry_wf (ok : N -> bool) (names : list name) (types : list tdesc) (e : entry) : Prop :=
  match e with
  | EStmt id => id < 2 ^ 64
  | EVar nm ty data =>
      nm < 2 ^ 32 /\ ty < 2 ^ 32 /\ nm < lenN names /\
      exists t, nthN types ty = Some t /\ data_wf ok t data
  | EBuf a s => a < 2 ^ 64 /\ s < 2 ^ 64
  | EAux a => a < 2 ^ 64
  end.

(** Buffer size records, in order. *)
Fixpoint records (es : list entry) : history :=
  match es with
  | [] => []
  | EBuf a s :: r => (a, s) :: records r
  | _ :: r => records r
  end.

Definition file_wf (ok : N -> bool) (F : tfile) : Prop :=
  names_wf ok (f_names F) /\ types_wf ok (f_types F) /\
  Forall (Forall (entry_wf ok (f_names F) (f_types F))) (f_points F) /\
  sentinel_safe (records (concat (f_points F))).

(** ** Meaning *)

(** Two's complement value of a little-endian byte string. *)
Definition signed_val (data : list byte) : Z :=
  let u := Z.of_N (le_val data) in
  let n := Z.of_N (lenN data) in
  if (u <? 2 ^ (8 * n - 1))%Z then u else (u - 2 ^ (8 * n))%Z.

Definition value_of (f : fmt) (data : list byte) (v : value) : Prop :=
  match f with
  | UNSIGNED | FLOAT | POINTER => v = VBits (le_val data)
  | SIGNED => exists u, v = VBits u /\ u < 2 ^ 64 /\ s64 u = signed_val data
  | BLOB => v = VBlob data
  | INVALID_FORMAT => False
  end.

(** Buffer size of a pointer with value [a], after the records [h]. *)
Inductive pointer_size (h : history) (a : N) : N -> N -> Prop :=
| ps_some : forall r, a < 2 ^ 64 - 1 -> answer h a r -> r < 2 ^ 64 - 1 -> pointer_size h a r 1
| ps_none : a = 2 ^ 64 - 1 \/ (a < 2 ^ 64 - 1 /\ answer h a (2 ^ 64 - 1)) -> pointer_size h a 0 0.

Definition var_of (types : list tdesc) (h : history) (nm ty : N) (data : list byte) (v : var) : Prop :=
  v_name v = nm /\ v_type v = ty /\ v_size v = lenN data /\
  exists t, nthN types ty = Some t /\ v_fmt v = t_fmt t /\
    value_of (t_fmt t) data (v_val v) /\
    (t_fmt t = POINTER -> pointer_size h (le_val data) (v_bsz v) (v_has v)) /\
    (t_fmt t <> POINTER -> v_bsz v = 0 /\ v_has v = 0).

(** Variables described by a list of entries read after the records [h]. *)
Inductive vars_of (types : list tdesc) : history -> list entry -> list var -> Prop :=
| vo_nil : forall h, vars_of types h [] []
| vo_var : forall h nm ty data es v vs,
    var_of types h nm ty data v -> vars_of types h es vs ->
    vars_of types h (EVar nm ty data :: es) (v :: vs)
| vo_buf : forall h a s es vs,
    vars_of types (h ++ [(a, s)]) es vs -> vars_of types h (EBuf a s :: es) vs
| vo_stmt : forall h id es vs, vars_of types h es vs -> vars_of types h (EStmt id :: es) vs
| vo_aux : forall h a es vs, vars_of types h es vs -> vars_of types h (EAux a :: es) vs.

(** The statement id of a point: that of its last statement entry. *)
Fixpoint stmt_of (es : list entry) : option N :=
  match es with
  | [] => None
  | e :: r => match stmt_of r with
              | Some x => Some x
              | None => match e with EStmt id => Some id | _ => None end
              end
  end.

Fixpoint aux_of (es : list entry) : list N :=
  match es with
  | [] => []
  | EAux a :: r => a :: aux_of r
  | _ :: r => aux_of r
  end.

Definition point_of (types : list tdesc) (i : N) (h : history) (es : list entry)
  (p : point (option N)) : Prop :=
  p_counter p = i /\ p_stmt p = stmt_of es /\
  p_sizes p = map (fun r => mkB (fst r) (snd r)) (records es) /\
  vars_of types h es (p_vars p) /\ p_aux p = aux_of es.

(** Points number i, i+1, ...  described by a list of points read after the records [h]. *)
Inductive points_of (types : list tdesc) : N -> history -> list (list entry) -> list (point (option N)) -> Prop :=
| po_nil : forall i h, points_of types i h [] []
| po_cons : forall i h es p pts ps,
    point_of types i h es p ->
    points_of types (i + 1) (h ++ records es) pts ps ->
    points_of types i h (es :: pts) (p :: ps).

Definition denotes (F : tfile) (tr : trace (option N)) : Prop :=
  tr_names tr = f_names F /\ tr_types tr = f_types F /\
  points_of (f_types F) 0 [] (f_points F) (tr_points tr).

(** ** Accepted files, including those that end early *)

(** [accepted ok max bs tr]: the bytes [bs] are a trace file of which
    (at most [max], unless [max] = 0) points form the trace [tr]. *)
Inductive accepted (ok : N -> bool) (max : N) (bs : list byte) (tr : trace (option N)) : Prop :=
| acc_all : forall F es,     (* complete points, then entries of an unfinished point *)
    file_wf ok F -> Forall (entry_wf ok (f_names F) (f_types F)) es ->
    sentinel_safe (records (concat (f_points F) ++ es)) ->
    bs = enc_file F ++ enc_entries (f_types F) es ->
    max = 0 \/ lenN (f_points F) < max ->
    denotes F tr -> accepted ok max bs tr
| acc_max : forall F rest,   (* [max] points, then anything *)
    file_wf ok F -> max <> 0 -> lenN (f_points F) = max ->
    bs = enc_file F ++ rest ->
    denotes F tr -> accepted ok max bs tr
| acc_cut_count : forall names k,  (* ends within the number of types *)
    names_wf ok names -> (k < 4)%nat ->
    bs = enc_names names ++ repeat x00 k ->
    tr = mkTr names [] [] -> accepted ok max bs tr
| acc_cut_size : forall names types t part missing,  (* ends within the size of the last type *)
    names_wf ok names -> types_wf ok (types ++ [t]) ->
    part ++ missing = le_bytes 4 (t_size t) -> missing <> [] ->
    bs ++ missing = enc_header names (types ++ [t]) ->
    tr = mkTr names (types ++ [mkT (t_name t) (t_fmt t) (le_val part)]) [] ->
    accepted ok max bs tr.
