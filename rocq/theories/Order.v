(** Model of operator==, operator< and hash_value of the data classes (beyond
    TraceVarInfo::operator==, which is in Compare.v). *)
From Verif Require Import Base Types Compare Predicate.

(** ** operator== *)

(** == of vectors: same length and equal elements. *)
Fixpoint list_eqb {A} (eq : A -> A -> bool) (a b : list A) : bool :=
  match a, b with
  | [], [] => true
  | x :: r, y :: r' => eq x y && list_eqb eq r r'
  | _, _ => false
  end.

(** TypeDescription.hpp:136-140 *)
Definition type_eqb (a b : tdesc) : bool :=
  (t_name a =? t_name b) && fmt_eqb (t_fmt a) (t_fmt b) && (t_size a =? t_size b).

(** TraceBufferSize.hpp:88-91 *)
Definition bufsz_eqb (a b : bufsz) : bool := (b_addr a =? b_addr b) && (b_size a =? b_size b).

(** TracePointData::operator==, TracePoint.hpp:137-141, for the data of two
    points.  m_vars is a vector of flyweights; == of flyweights is == of the
    variables (Flyweight.v). *)
Definition data_eqb {A B} (p : point A) (q : point B) : bool :=
  list_eqb bufsz_eqb (p_sizes p) (p_sizes q) && list_eqb var_eqb (p_vars p) (p_vars q) &&
  list_eqb N.eqb (p_aux p) (p_aux q).

(** TracePoint::operator==, TracePoint.hpp:428-432: the last conjunct compares
    m_data with itself. *)
Definition point_eqb (p q : point N) : bool :=
  (p_counter p =? p_counter q) && (p_stmt p =? p_stmt q) && data_eqb p p.

(** Trace::operator==, Trace.hpp:364-368 *)
Definition trace_eqb (a b : trace N) : bool :=
  list_eqb point_eqb (tr_points a) (tr_points b) && list_eqb bytes_eqb (tr_names a) (tr_names b) &&
  list_eqb type_eqb (tr_types a) (tr_types b).

(** FreeVariable::operator==, QueryObjects.hpp:279-281 *)
Definition fv_eqb (a b : list N) : bool := list_eqb N.eqb a b.

(** ** hash_value.  [hc seed x] is boost::hash_combine(seed, x) for a value x
    whose hash is determined by the number x. *)
Section Hash.
Variable hc : N -> N -> N.

(** boost::hash_range and the hash of vectors and strings *)
Definition hash_range {A} (f : A -> N) (l : list A) : N := fold_left (fun s x => hc s (f x)) l 0.

(** TypeDescription.hpp:142-150 *)
Definition hash_type (t : tdesc) : N := hc (hc (hc 0 (t_name t)) (fmt_code (t_fmt t))) (t_size t).

(** TraceBufferSize.hpp:93-100 *)
Definition hash_bufsz (b : bufsz) : N := hc (hc 0 (b_addr b)) (b_size b).

(** TraceVarInfo.hpp:437-467 (a value that is not of the variable's format,
    which does not occur, hashes as 0). *)
Definition hash_var (v : var) : N :=
  let seed := match v_fmt v, v_val v with
              | BLOB, VBlob bs => hc 0 (hash_range N_of_byte bs)
              | _, VBits u => hc 0 (trunc (v_size v) u)
              | _, _ => 0
              end in
  hc (hc (hc (hc (hc (hc seed (v_name v)) (v_type v)) (v_size v)) (fmt_code (v_fmt v))) (v_bsz v)) (v_has v).

(** TracePointData, TracePoint.hpp:143-151; the hash of a flyweight is that of
    its address, [at v] for the variable v. *)
Definition hash_data {A} (adr : var -> N) (p : point A) : N :=
  hc (hc (hc 0 (hash_range hash_bufsz (p_sizes p))) (hash_range adr (p_vars p))) (hash_range (fun x => x) (p_aux p)).

(** TracePoint, TracePoint.hpp:434-442; [dat p]: address of the data of p. *)
Definition hash_point (dat : point N -> N) (p : point N) : N :=
  hc (hc (hc 0 (p_counter p)) (p_stmt p)) (dat p).

(** Trace, Trace.hpp:370-378 *)
Definition hash_trace (dat : point N -> N) (t : trace N) : N :=
  hc (hc (hc 0 (hash_range (hash_point dat) (tr_points t))) (hash_range (hash_range N_of_byte) (tr_names t)))
     (hash_range hash_type (tr_types t)).

(** Predicate, QueryObjects.hpp:79-87; [kc k] is the enumerator's number. *)
Variable kc : pkind -> N.
Fixpoint hash_pred (p : pred) : N :=
  let 'Pred k d cs := p in
  hc (hc (hc 0 (kc k)) d) ((fix go l s := match l with [] => s | c :: r => go r (hc s (hash_pred c)) end) cs 0).

(** FreeVariable, QueryObjects.hpp:255-258 *)
Definition hash_fv (a : list N) : N := hash_range (fun x => x) a.
End Hash.

(** ** operator< *)

(** std::tie(x, ...) < std::tie(y, ...): compare the first components, then the rest. *)
Definition tie_lt {A} (lt : A -> A -> bool) (x y : A) (rest : bool) : bool := lt x y || (negb (lt y x) && rest).

(** operator< of vectors: std::lexicographical_compare. *)
Fixpoint list_lt {A} (lt : A -> A -> bool) (a b : list A) : bool :=
  match a, b with
  | _, [] => false
  | [], _ :: _ => true
  | x :: r, y :: r' => if lt x y then true else if lt y x then false else list_lt lt r r'
  end.

(** TypeDescription.hpp:127-134 *)
Definition type_lt (a b : tdesc) : bool :=
  tie_lt N.ltb (t_name a) (t_name b) (tie_lt N.ltb (fmt_code (t_fmt a)) (fmt_code (t_fmt b)) (t_size a <? t_size b)).

(** TraceBufferSize.hpp:81-86 *)
Definition bufsz_lt (a b : bufsz) : bool := tie_lt N.ltb (b_addr a) (b_addr b) (b_size a <? b_size b).

(** char is signed *)
Definition char_lt (a b : byte) : bool :=
  let s x := if N_of_byte x <? 128 then Z.of_N (N_of_byte x) else (Z.of_N (N_of_byte x) - 256)%Z in
  (s a <? s b)%Z.

Definition var_lt_rest (a b : var) : bool :=
  tie_lt N.ltb (v_name a) (v_name b) (tie_lt N.ltb (v_type a) (v_type b)
    (tie_lt N.ltb (fmt_code (v_fmt a)) (fmt_code (v_fmt b)) (tie_lt N.ltb (v_size a) (v_size b)
      (tie_lt N.ltb (v_bsz a) (v_bsz b) (v_has a <? v_has b))))).

(** TraceVarInfo.hpp:361-398.  [adr] gives the address of the bytes of a blob:
    m_value.u of a BLOB variable is its pointer.  Of both blobs the first
    m_size bytes are compared, where m_size is that of the left operand. *)
Definition var_lt (adr : var -> N) (a b : var) : outcome bool :=
  match v_fmt a, v_fmt b with
  | BLOB, BLOB =>
      match v_val a, v_val b with
      | VBlob x, VBlob y =>
          if (lenN x <? v_size a) || (lenN y <? v_size a) then UB UOob
          else Ok (tie_lt (list_lt char_lt) (takeN (v_size a) x) (takeN (v_size a) y) (var_lt_rest a b))
      | _, _ => UB UUninit
      end
  | _, _ =>
      let word v := match v_val v with VBits u => Ok u | VBlob _ => Ok (adr v) | VIndet => UB UUninit end in
      x <- word a ;; y <- word b ;; Ok (tie_lt N.ltb x y (var_lt_rest a b))
  end.

(** The same when neither is a blob. *)
Definition bits (v : var) : N := match v_val v with VBits u => u | _ => 0 end.
Definition var_ltb (a b : var) : bool := tie_lt N.ltb (bits a) (bits b) (var_lt_rest a b).

(** TracePointData, TracePoint.hpp:128-135, and TracePoint, 419-426, when no
    variable is a blob; operator< of flyweights compares the values. *)
Definition data_lt {A B} (p : point A) (q : point B) (rest : bool) : bool :=
  tie_lt (list_lt bufsz_lt) (p_sizes p) (p_sizes q)
    (tie_lt (list_lt var_ltb) (p_vars p) (p_vars q) (tie_lt (list_lt N.ltb) (p_aux p) (p_aux q) rest)).
Definition point_lt (p q : point N) : bool :=
  tie_lt N.ltb (p_counter p) (p_counter q) (tie_lt N.ltb (p_stmt p) (p_stmt q) (data_lt p q false)).
