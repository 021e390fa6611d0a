(** Model of the Lisp clients (binary-trace-db.lisp, sexp-trace-db.lisp,
    trace-db.lisp).  Conditions signalled by Lisp are [Throw ELisp].  Setting an
    unsigned slot of a foreign struct to a negative integer is taken to store its
    two's complement; integers that do not fit into the slot signal an error. *)
From Verif Require Import Base Types Stream Reader Compare Predicate Query CHeap CApi.

(** ** Statement ids *)

(** +trace-id-file-bits+, +trace-id-statement-bits+, binary-trace-db.lisp:131-134 *)
Definition file_bits : N := 23.
Definition statement_bits : N := 40.

(** Packing, binary-trace-db.lisp:340-346; the same in
    instrumentation/c-cpp.lisp:399-414 (get-ast-ids-ht). *)
Definition pack (f : option N) (c : N) : N :=
  match f with
  | Some f => N.lor (N.shiftl 1 63) (N.lor (N.shiftl f statement_bits) c)
  | None => c
  end.

(** Unpacking, binary-trace-db.lisp:110-120 *)
Definition flagged (s : N) : bool := 0 <? N.land s (N.shiftl 1 63).
Definition unpack_c (s : N) : N :=
  if flagged s then N.land (N.shiftl 1 statement_bits - 1) s else s.
Definition unpack_f (s : N) : option N :=
  if flagged s then Some (N.land (N.shiftl 1 file_bits - 1) (N.shiftr s statement_bits)) else None.

(** ** Trace points as Lisp data *)

(** The value of a variable: an integer, the bits of a float or double with
    its size, or the bytes of a blob. *)
Inductive lval := LInt (z : Z) | LFloat (size bits : N) | LBlob (bs : list byte).

(** #(name type value buffer-size) *)
Record lvar := mkLV { lv_name : name; lv_type : name; lv_value : lval; lv_size : option N }.

(** ((:c . c) (:f . f) (:scopes ...) (:aux ...)) *)
Record lpoint := mkLP { lp_c : N; lp_f : option N; lp_scopes : list lvar; lp_aux : list N }.

(** (aref names i) *)
Definition aref {A} (l : list A) (i : N) : outcome A :=
  match nthN l i with Some x => Ok x | None => Throw ELisp end.

(** expand-from-foreign for var-info, binary-trace-db.lisp:71-100, with the
    replacement of indices by names, 180-184.  Blobs are kept as bytes
    (decoding them to a string is not modelled). *)
Definition expand_value (v : cvar) : outcome lval :=
  match cv_format v, cv_value v with
  | (UNSIGNED | POINTER), VBits u => Ok (LInt (Z.of_N u))
  | SIGNED, VBits u => Ok (LInt (s64 u))
  | FLOAT, VBits u => Ok (if cv_size v =? 4 then LFloat 4 (u mod two32) else LFloat 8 u)
  | BLOB, VBlob bs => if cv_size v <=? lenN bs then Ok (LBlob (takeN (cv_size v) bs)) else UB UOob
  | INVALID_FORMAT, _ => Throw ELisp
  | _, _ => UB UUninit
  end.
Definition expand_var (names : list name) (v : cvar) : outcome lvar :=
  x <- expand_value v ;;
  n <- aref names (cv_name v) ;;
  t <- aref names (cv_tname v) ;;
  Ok (mkLV n t x (if cv_has v =? 0 then None else Some (cv_bsz v))).

(** expand-from-foreign for trace-point, binary-trace-db.lisp:101-128, and
    convert-trace-point, 179-184 *)
Definition expand_point (names : list name) (p : ipoint) : outcome lpoint :=
  vs <- mapO (expand_var names) (ip_vars p) ;;
  Ok (mkLP (unpack_c (ip_stmt p)) (unpack_f (ip_stmt p)) vs (ip_aux p)).

(** What the C interface presents for a point (points_to_array, see CApi.v;
    C37 relates the array to this list). *)
Definition export_var (types : list tdesc) (v : var) : outcome cvar :=
  match nthN types (v_type v) with
  | None => UB UOob
  | Some t => Ok (mkCV (v_val v) (v_fmt v) (v_name v) (t_name t) (v_size v) (v_bsz v) (v_has v))
  end.
Definition export_point (types : list tdesc) (p : point N) : outcome ipoint :=
  vs <- mapO (export_var types) (p_vars p) ;; Ok (mkIP (p_stmt p) vs (p_aux p)).

(** convert-trace-points, binary-trace-db.lisp:166-197 *)
Definition convert_points (ok : N -> bool) (tr : trace N) (ps : list (point N)) (filter : lpoint -> bool) : outcome (list lpoint) :=
  ips <- mapO (export_point (tr_types tr)) ps ;;
  names <- c_get_names ok tr ;;
  l <- mapO (expand_point names) ips ;;
  Ok (List.filter filter l).

(** ** Equality tests *)
Fixpoint bytes_eqb (a b : list byte) : bool :=
  match a, b with
  | [], [] => true
  | x :: a, y :: b => (N_of_byte x =? N_of_byte y) && bytes_eqb a b
  | _, _ => false
  end.

(** Lower case of an ASCII character.  equalp compares strings without regard
    to case (characters outside ASCII are not modelled). *)
Definition fold_case (b : N) : N := if (65 <=? b) && (b <=? 90) then b + 32 else b.
Fixpoint name_equalp (a b : name) : bool :=
  match a, b with
  | [], [] => true
  | x :: a, y :: b => (fold_case (N_of_byte x) =? fold_case (N_of_byte y)) && name_equalp a b
  | _, _ => false
  end.

(** get-statement-and-bindings, trace-db.lisp:75-81 *)
Definition lkey := (option N * N * list (name * name))%type.
Definition lisp_key (p : lpoint) : lkey := (lp_f p, lp_c p, map (fun v => (lv_name v, lv_type v)) (lp_scopes p)).

Definition optN_eqb (a b : option N) : bool :=
  match a, b with Some x, Some y => x =? y | None, None => true | _, _ => false end.
Fixpoint bindings_equalp (a b : list (name * name)) : bool :=
  match a, b with
  | [], [] => true
  | x :: a, y :: b => name_equalp (fst x) (fst y) && name_equalp (snd x) (snd y) && bindings_equalp a b
  | _, _ => false
  end.
Definition key_equalp (a b : lkey) : bool :=
  optN_eqb (fst (fst a)) (fst (fst b)) && (snd (fst a) =? snd (fst b)) && bindings_equalp (snd a) (snd b).

(** remove-duplicates keeps the last of equal elements. *)
Fixpoint remove_duplicates {A} (test : A -> A -> bool) (l : list A) : list A :=
  match l with
  | [] => []
  | x :: r => if existsb (test x) r then remove_duplicates test r else x :: remove_duplicates test r
  end.

(** position with :test #'string= *)
Fixpoint position (n : name) (l : list name) : option N :=
  match l with
  | [] => None
  | m :: r => if bytes_eqb n m then Some 0 else option_map N.succ (position n r)
  end.

(** ** Predicates *)

(** S-expressions: symbols (numbered), integers, other numbers (the bits of
    their double), and lists with one of the known operators or another one. *)
Inductive lop := ODistinct | OAnd | OOr | ONot | OSize | OValue | OGt | OGe | OLt | OLe | OEqual | OEq
               | OAdd | OSub | OMul | ODiv | OOther.
Inductive sexp := SSym (s : N) | SInt (z : Z) | SFloat (bits : N) | SList (op : lop) (args : list sexp).

Definition op_kind (o : lop) : outcome pkind :=
  match o with
  | ODistinct => Ok DISTINCT_VARS | OAnd => Ok AND | OOr => Ok OR | ONot => Ok NOT
  | OSize => Ok VAR_SIZE | OValue => Ok VAR_VALUE
  | OGt => Ok GREATER_THAN | OGe => Ok GREATER_THAN_OR_EQUAL | OLt => Ok LESS_THAN | OLe => Ok LESS_THAN_OR_EQUAL
  | OEqual | OEq => Ok EQUAL
  | OAdd => Ok ADD | OSub => Ok SUBTRACT | OMul => Ok MULTIPLY | ODiv => Ok DIVIDE
  | OOther => Throw ELisp
  end.

(** (position var var-names) *)
Fixpoint sym_position (s : N) (l : list N) : option N :=
  match l with
  | [] => None
  | x :: r => if s =? x then Some 0 else option_map N.succ (sym_position s r)
  end.

(** build-predicate, helper, binary-trace-db.lisp:455-522 *)
Fixpoint build (var_names : list N) (e : sexp) : outcome cpred :=
  match e with
  | SSym s => match sym_position s var_names with
              | Some i => Ok (CPred VAR_REFERENCE 0 i 0 0 0 None)
              | None => Throw ELisp
              end
  | SInt z => if (0 <=? z)%Z
              then if (z <? 2 ^ 64)%Z then Ok (CPred UNSIGNED_VALUE 0 0 (Z.to_N z) 0 0 None) else Throw ELisp
              else if (- 2 ^ 63 <=? z)%Z then Ok (CPred SIGNED_VALUE 0 0 0 (Z.to_N (z mod 2 ^ 64)) 0 None) else Throw ELisp
  | SFloat b => Ok (CPred FLOAT_VALUE 0 0 0 0 b None)
  | SList op args =>
      k <- op_kind op ;;
      cs <- (fix go l := match l with
                         | [] => Ok []
                         | a :: r => c <- build var_names a ;; cs <- go r ;; Ok (c :: cs)
                         end) args ;;
      Ok (CPred k (lenN args) 0 0 0 0 (Some cs))
  end.
Definition build_predicate (var_names : list N) (e : option sexp) : outcome (option cpred) :=
  match e with None => Ok None | Some e => c <- build var_names e ;; Ok (Some c) end.

(** ** The database with metadata *)
Section Db.
Variable A : Type.

(** binary-trace-db, binary-trace-db.lisp:242-248 *)
Record ldb := mkL { l_db : db; l_meta : list A }.
Definition create_ldb : ldb := mkL create_db [].

(** add-trace, binary-trace-db.lisp:285-303 *)
Definition lisp_add_trace (ok : alloc) (M : map_ops) (garbage grow : N -> N) (l : ldb) (file : opened) (max : N) (m : A) : outcome (bool * ldb) :=
  ' (b, d) <- add_trace ok M garbage grow (l_db l) file max ;;
  Ok (b, mkL d (if b : bool then l_meta l ++ [m] else l_meta l)).

(** The structs for a list of points, binary-trace-db.lisp:307-357. *)
Definition encode_var (names : list name) (v : lvar) : outcome cvar :=
  match lv_value v, position (lv_name v) names, position (lv_type v) names with
  | LInt z, Some n, Some t =>
      if ((- 2 ^ 63 <=? z) && (z <? 2 ^ 64))%Z then
        let sz := match lv_size v with Some s => s | None => 0 end in
        if sz <? two64 then
          Ok (mkCV (VBits (Z.to_N (z mod 2 ^ 64))) (if (z <? 0)%Z then SIGNED else UNSIGNED) n t 8 sz
                   (match lv_size v with Some _ => 1 | None => 0 end))
        else Throw ELisp
      else Throw ELisp
  | _, _, _ => Throw ELisp
  end.
Definition encode_point (names : list name) (p : lpoint) : outcome ipoint :=
  vs <- mapO (encode_var names) (lp_scopes p) ;;
  if pack (lp_f p) (lp_c p) <? two64 then Ok (mkIP (pack (lp_f p) (lp_c p)) vs []) else Throw ELisp.
Definition names_of (ps : list lpoint) : list name :=
  remove_duplicates bytes_eqb (flat_map (fun p => flat_map (fun v => [lv_name v; lv_type v]) (lp_scopes p)) ps).

(** add-trace-points, binary-trace-db.lisp:305-358.  The metadata goes to the
    front. *)
Definition lisp_add_points (grow : N -> N) (l : ldb) (ps : list lpoint) (m : A) : outcome ldb :=
  let names := names_of ps in
  ips <- mapO (encode_point names) ps ;;
  ' (b, d) <- add_trace_points grow (l_db l) names ips ;;
  Ok (mkL d (m :: l_meta l)).

(** trace-types, binary-trace-db.lisp:360-371 *)
Definition lisp_types (ok : N -> bool) (l : ldb) (i : N) : outcome (list name) :=
  tr <- aref (db_traces (l_db l)) i ;; c_get_types ok (fst tr).

(** get-trace, binary-trace-db.lisp:373-387 *)
Definition lisp_get_trace (ok : N -> bool) (l : ldb) (i : N) (file : option N) : outcome (list lpoint * A) :=
  tr <- aref (db_traces (l_db l)) i ;;
  ps <- convert_points ok (fst tr) (tr_points (fst tr)) (fun _ => true) ;;
  m <- aref (l_meta l) i ;;
  Ok (match file with
      | Some _ => filter (fun p => optN_eqb file (lp_f p)) ps
      | None => ps
      end, m).

(** query-trace, binary-trace-db.lisp:524-613. *)
Definition file_mask (file : option N) : N :=
  match file with Some _ => N.shiftl (N.shiftl 1 file_bits - 1) statement_bits | None => 0 end.
Definition file_statement (file : option N) : N :=
  match file with Some f => N.shiftl f statement_bits | None => 0 end.

(** Arguments: variable names, allowed type names, and the keywords.  [lq_pick]
    is the number drawn by (random (expt 2 32)) if :pick is given. *)
Record lquery := mkLQ {
  lq_names : list N; lq_types : list (list name); lq_pick : option N; lq_file : option N;
  lq_pred : option sexp; lq_soft : list (option sexp); lq_filter : option (lpoint -> bool)
}.

(** The arguments of the C function. *)
Definition type_indices (tys : list name) (ts : list name) : outcome (list N) :=
  mapO (fun t => match position t tys with Some i => Ok i | None => Throw ELisp end) ts.
Definition to_cquery (tys : list name) (q : lquery) : outcome cquery :=
  if match lq_pred q, lq_soft q, lq_names q with
     | None, [], _ => true
     | _, _, [] => false
     | _, _, _ => true
     end then
    fvs <- mapO (type_indices tys) (lq_types q) ;;
    hard <- build_predicate (lq_names q) (lq_pred q) ;;
    soft <- mapO (build_predicate (lq_names q)) (lq_soft q) ;;
    if file_statement (lq_file q) <? two64 then
      Ok (mkCQ fvs hard soft (match lq_pick q with Some n => n | None => 0 end)
               (match lq_filter q with Some _ => 1 | None => 0 end)
               (file_mask (lq_file q)) (file_statement (lq_file q)))
    else Throw ELisp
  else Throw ELisp.

Section LispQuery.
Variable St : Type.
Variable sat : St -> pred -> list var -> outcome (bool * St).

(** The results and the metadata ((nth index metadata) is NIL if there is none). *)
Definition lisp_query (ok : N -> bool) (pick : N -> N -> N) (hash : N * list (N * N) -> N)
  (l : ldb) (st : St) (i : N) (q : lquery) : outcome (list lpoint * option A * ldb * St) :=
  tr <- aref (db_traces (l_db l)) i ;;
  tys <- lisp_types ok l i ;;
  cq <- to_cquery tys q ;;
  ' (rs, d, st') <- query_trace St sat ok pick hash (l_db l) st i cq ;;
  ls <- match lq_filter q with
        | Some g => ps <- convert_points ok (fst tr) rs g ;;
                    Ok (remove_duplicates (fun a b => key_equalp (lisp_key a) (lisp_key b)) ps)
        | None => convert_points ok (fst tr) rs (fun _ => true)
        end ;;
  Ok (ls, nthN (l_meta l) i, mkL d (l_meta l), st').
End LispQuery.

(** restrict-to-file, binary-trace-db.lisp:617-664: the wrapper shares the
    pointer to the database and has its own list of metadata, initially empty;
    an empty list means the list of the parent. *)
Record wrapper := mkW { w_file : N; w_meta : list A }.
Definition restrict_to_file (f : N) : wrapper := mkW f [].
Definition wrapper_meta (l : ldb) (w : wrapper) : list A :=
  match w_meta w with [] => l_meta l | m => m end.
Definition via (l : ldb) (w : wrapper) : ldb := mkL (l_db l) (wrapper_meta l w).
Definition default_file (w : wrapper) (file : option N) : option N :=
  match file with Some f => Some f | None => Some (w_file w) end.
Definition wrapper_get_trace (ok : N -> bool) (l : ldb) (w : wrapper) (i : N) (file : option N) : outcome (list lpoint * A) :=
  lisp_get_trace ok (via l w) i (default_file w file).
Definition wrapper_add_trace (ok : alloc) (M : map_ops) (garbage grow : N -> N) (l : ldb) (w : wrapper) (file : opened) (max : N) (m : A)
  : outcome (bool * ldb * wrapper) :=
  ' (b, l') <- lisp_add_trace ok M garbage grow (via l w) file max m ;;
  Ok (b, mkL (l_db l') (l_meta l), if b : bool then mkW (w_file w) (l_meta l') else w).

(** ** sexp-trace-db *)

(** sexp-trace-db.lisp:16-24 *)
Record sdb := mkS { s_traces : list (list lpoint); s_meta : list A }.

(** read-trace-stream, sexp-trace-db.lisp:68-84: the objects read from the
    stream; [None] is the object NIL, which the default predicate rejects. *)
Fixpoint read_objects (collected : N) (max : option N) (objs : list (option lpoint)) : list lpoint :=
  match objs with
  | Some p :: r =>
      if match max with None => true | Some m => collected <? m end
      then p :: read_objects (collected + 1) max r else []
  | _ => []
  end.

(** add-trace, add-trace-points, get-trace, sexp-trace-db.lisp:117-135 *)
Definition sexp_add_trace (s : sdb) (objs : list (option lpoint)) (max : option N) (m : A) : sdb :=
  match read_objects 0 max objs with
  | [] => s
  | t => mkS (t :: s_traces s) (m :: s_meta s)
  end.
Definition sexp_add_points (s : sdb) (t : list lpoint) (m : A) : sdb := mkS (t :: s_traces s) (m :: s_meta s).
Definition sexp_get_trace (s : sdb) (i : N) (file : option N) : list lpoint * option A :=
  let t := match nthN (s_traces s) i with Some t => t | None => [] end in
  (match file with Some _ => filter (fun p => optN_eqb file (lp_f p)) t | None => t end, nthN (s_meta s) i).

(** query-trace, sexp-trace-db.lisp:154-196, without :pick.  The function
    cartesian-without-duplicates comes from another library: [cart].  The
    arguments file-id, var-names and predicate are ignored. *)
Definition sexp_query (cart : list (list lvar) -> list (list lvar)) (s : sdb) (i : N) (var_types : list (list name))
  (file : option N) (predicate : option sexp) (flt : lpoint -> bool) : list lpoint :=
  let at_point p :=
    map (fun vs => mkLP (lp_c p) (lp_f p) vs (lp_aux p))
        (cart (map (fun ts => filter (fun v => existsb (bytes_eqb (lv_type v)) ts) (lp_scopes p)) var_types)) in
  match nthN (s_traces s) i with
  | Some t => remove_duplicates (fun a b => key_equalp (lisp_key a) (lisp_key b)) (filter flt (flat_map at_point t))
  | None => []
  end.
End Db.
Arguments mkL {A}. Arguments l_db {A}. Arguments l_meta {A}.
Arguments mkS {A}. Arguments s_traces {A}. Arguments s_meta {A}.
Arguments mkW {A}. Arguments w_file {A}. Arguments w_meta {A}.
Arguments create_ldb {A}. Arguments restrict_to_file {A}.
