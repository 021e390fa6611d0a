(** Specification of the foreign interface: what memory contains when it is read
    with the declarations of the library, which values fit into the structures. *)
From Coq Require Import Strings.String Strings.Ascii.
From Verif Require Import Base Types Compare Predicate Query CApi Lisp Ffi.
Local Open Scope string_scope.

(** The 64 bits [x] of the union are the value of [v]: the bits themselves, or the
    address of the bytes of a blob. *)
Definition holds_value (m : memory) (v : cvar) (x : N) : Prop :=
  match cv_format v, cv_value v with
  | BLOB, VBlob bs => load m x (length bs) = bs /\ cv_size v <= lenN bs
  | BLOB, _ => False
  | _, VBits u => x = u
  | _, _ => False
  end.
(** At address [a] the library finds the variable [v]. *)
Definition c_var_at (m : memory) (a : N) (v : cvar) : Prop :=
  (exists x, get c_var_info m a "value" = Z.of_N x /\ holds_value m v x) /\
  get c_var_info m a "format" = code c_type_format (c_format_name (cv_format v)) /\
  get c_var_info m a "var_name_index" = Z.of_N (cv_name v) /\
  get c_var_info m a "type_name_index" = Z.of_N (cv_tname v) /\
  get c_var_info m a "size" = Z.of_N (cv_size v) /\
  get c_var_info m a "buffer_size" = Z.of_N (cv_bsz v) /\
  get c_var_info m a "has_buffer_size" = Z.of_N (cv_has v).
(** At address [a] the library finds the point [x]. *)
Definition c_point_at (m : memory) (a : N) (x : ipoint) : Prop :=
  get c_trace_point m a "statement" = Z.of_N (ip_stmt x) /\
  get c_trace_point m a "n_vars" = Z.of_N (lenN (ip_vars x)) /\
  get c_trace_point m a "n_aux" = Z.of_N (lenN (ip_aux x)) /\
  Forall2 (c_var_at m)
    (elements (Z.to_N (get c_trace_point m a "vars")) (sizeof c_var_info) (length (ip_vars x))) (ip_vars x) /\
  map (read TU64 m) (elements (Z.to_N (get c_trace_point m a "aux")) 8 (length (ip_aux x))) = map Z.of_N (ip_aux x).
(** At address [a] the library finds an array of the points [xs]. *)
Definition c_points_at (m : memory) (a : N) (xs : list ipoint) : Prop :=
  Forall2 (c_point_at m) (elements a (sizeof c_trace_point) (length xs)) xs.

(** Values that fit. *)
Definition fits_var (v : cvar) : Prop :=
  match cv_format v, cv_value v with
  | BLOB, VBlob bs => cv_size v <= lenN bs
  | BLOB, _ => False
  | _, VBits u => u < two64
  | _, _ => False
  end /\
  cv_name v < two32 /\ cv_tname v < two32 /\ cv_size v < two32 /\ cv_bsz v < two64 /\ cv_has v < 256.
Definition fits_point (x : ipoint) : Prop :=
  ip_stmt x < two64 /\ lenN (ip_vars x) < two32 /\ lenN (ip_aux x) < two32 /\
  Forall fits_var (ip_vars x) /\ Forall (fun u => u < two64) (ip_aux x).

(** Predicates whose fields fit and whose arrays have the length they claim. *)
Inductive fits_pred : cpred -> Prop :=
| fits_leaf : forall k n vi u s f, n < two64 -> vi < two64 -> u < two64 -> s < two64 -> f < two64 ->
    fits_pred (CPred k n vi u s f None)
| fits_node : forall k n vi u s f cs, n < two64 -> vi < two64 -> u < two64 -> s < two64 -> f < two64 ->
    n = lenN cs -> Forall fits_pred cs -> fits_pred (CPred k n vi u s f (Some cs)).
Fixpoint depth (c : cpred) : nat :=
  let 'CPred _ _ _ _ _ _ cs := c in
  S (match cs with None => O | Some l => fold_right Nat.max O (map depth l) end).
Definition depth_opt (c : option cpred) : nat := match c with None => O | Some c => depth c end.

(** The Lisp name of a C enumerator: lower case, dashes for underscores. *)
Definition lisp_char (c : Ascii.ascii) : Ascii.ascii :=
  let n := Ascii.N_of_ascii c in
  if Ascii.eqb c "_" then "-"%char
  else if ((65 <=? n) && (n <=? 90))%N then Ascii.ascii_of_N (n + 32)%N else c.
Fixpoint lisp_name (s : string) : string :=
  match s with EmptyString => EmptyString | String c r => String (lisp_char c) (lisp_name r) end.

(** Every argument belongs to the type of its parameter. *)
Fixpoint in_ranges (ts : list fty) (zs : list Z) : Prop :=
  match ts, zs with
  | [], [] => True
  | t :: ts, z :: zs => in_range t z = true /\ in_ranges ts zs
  | _, _ => False
  end.

(** Expressions whose floats are 64 bits wide and whose lists have fewer than 2^64
    elements. *)
Fixpoint sexp_fits (e : sexp) : Prop :=
  match e with
  | SFloat b => b < two64
  | SList _ args => lenN args < two64 /\ (fix all l := match l with [] => True | a :: r => sexp_fits a /\ all r end) args
  | _ => True
  end.
