(** Model of the C interface (trace.cpp, trace-db.cpp). *)
From Verif Require Import Base Types Stream Reader Compare Predicate Query CHeap.

(** ** Structs and arrays of trace points *)

(** c_trace_var_info_struct, trace.h:23-31.  For a blob, [cv_value] stands for
    the pointer to the bytes owned by the pool of variables; it is not copied. *)
Record cvar := mkCV {
  cv_value : value; cv_format : fmt; cv_name : N; cv_tname : N; cv_size : N; cv_bsz : N; cv_has : N
}.

(** c_trace_point_struct, trace.h:33-39; vars and aux are addresses. *)
Record cpoint := mkCP { cp_stmt : N; cp_vars : N; cp_nvars : N; cp_aux : N; cp_naux : N }.

Inductive pcell := CellPoint (p : cpoint) | CellVar (v : cvar) | CellWord (u : N).

(** On x86-64: sizeof(c_trace_var_info_struct) = 8 + 4 + 4 + 4 + 4 + 8 + 1,
    rounded up to a multiple of 8; sizeof(c_trace_point_struct) = 8 + 8 + 4 + 8
    + 4 with two paddings of 4 bytes. *)
Definition sizeof_var : N := 40.
Definition sizeof_point : N := 40.

Section Points.
Variable al : allocator pcell.

(** std::copy(aux.begin(), aux.end(), c_aux), trace.cpp:124 *)
Fixpoint store_words (h : heap pcell) (a i : N) (us : list N) : outcome (heap pcell) :=
  match us with
  | [] => Ok h
  | u :: r => h1 <- store h a i (CellWord u) ;; store_words h1 a (i + 1) r
  end.

(** The loop over the variables, trace.cpp:126-138.  trace.getTypes()[...]
    does not check the index. *)
Fixpoint store_vars (types : list tdesc) (h : heap pcell) (a j : N) (vs : list var) : outcome (heap pcell) :=
  match vs with
  | [] => Ok h
  | v :: r =>
      match nthN types (v_type v) with
      | None => UB UOob
      | Some t =>
          h1 <- store h a j (CellVar (mkCV (v_val v) (v_fmt v) (v_name v) (t_name t) (v_size v) (v_bsz v) (v_has v))) ;;
          store_vars types h1 a (j + 1) r
      end
  end.

(** The loop over the points, trace.cpp:108-141.  n_aux and n_vars are
    uint32_t members. *)
Fixpoint store_points (types : list tdesc) (h : heap pcell) (a i : N) (ps : list (point N)) : outcome (heap pcell) :=
  match ps with
  | [] => Ok h
  | p :: r =>
      let n_vars := lenN (p_vars p) in
      let n_aux := lenN (p_aux p) in
      let '(va, h1) := calloc al h n_vars sizeof_var in
      let '(xa, h2) := calloc al h1 n_aux 8 in
      h3 <- store h2 a i (CellPoint (mkCP (p_stmt p) va (n_vars mod two32) xa (n_aux mod two32))) ;;
      h4 <- store_words h3 xa 0 (p_aux p) ;;
      h5 <- store_vars types h4 va 0 (p_vars p) ;;
      store_points types h5 a (i + 1) r
  end.

(** points_to_array, trace.cpp:97-145.  The size is computed with the size of
    a variable struct.  Returns the pointer. *)
Definition points_to_array (types : list tdesc) (h : heap pcell) (ps : list (point N)) : outcome (N * heap pcell) :=
  let results_size := (lenN ps * sizeof_var) mod two64 in
  if 0 <? results_size then
    let '(a, h1) := malloc al h results_size sizeof_point in
    h2 <- store_points types h1 a 0 ps ;; Ok (a, h2)
  else Ok (0, h).
End Points.

(** free_trace_points, trace.cpp:85-95.  The assignments of NULL have no effect
    that can be observed: the array is freed at the end. *)
Fixpoint free_point_fields (h : heap pcell) (a i : N) (n : nat) : outcome (heap pcell) :=
  match n with
  | O => Ok h
  | S m =>
      c <- load h a i ;;
      match c with
      | CellPoint p =>
          h1 <- free h (cp_vars p) ;;
          h2 <- free h1 (cp_aux p) ;;
          free_point_fields h2 a (i + 1) m
      | _ => UB UUninit
      end
  end.
Definition free_trace_points (h : heap pcell) (a n : N) : outcome (heap pcell) :=
  h1 <- free_point_fields h a 0 (N.to_nat n) ;; free h1 a.

(** ** Names and types of a trace *)

(** A C string ends at the first NUL. *)
Fixpoint c_string (n : name) : name :=
  match n with
  | [] => []
  | b :: r => if N_of_byte b =? 0 then [] else b :: c_string r
  end.

(** n_names, n_types, trace.cpp:42-46, 61-65: size_t converted to uint32_t. *)
Definition c_n_names {A} (tr : trace A) : N := lenN (tr_names tr) mod two32.
Definition c_n_types {A} (tr : trace A) : N := lenN (tr_types tr) mod two32.

(** get_names, trace.cpp:67-78: the strings the pointers of the array denote.
    The loop counter is a uint32_t, so the loop never ends if there are 2^32
    names or more.  [ok]: the array can be allocated. *)
Definition c_get_names {A} (ok : N -> bool) (tr : trace A) : outcome (list name) :=
  if two32 <=? lenN (tr_names tr) then Diverge
  else if ok (8 * lenN (tr_names tr)) || (lenN (tr_names tr) =? 0) then Ok (map c_string (tr_names tr))
  else UB UNull.

(** get_types, trace.cpp:48-59. *)
Definition c_get_types {A} (ok : N -> bool) (tr : trace A) : outcome (list name) :=
  if two32 <=? lenN (tr_types tr) then Diverge
  else if ok (8 * lenN (tr_types tr)) || (lenN (tr_types tr) =? 0) then
    mapO (fun t => match nthN (tr_names tr) (t_name t) with Some n => Ok (c_string n) | None => UB UOob end)
         (tr_types tr)
  else UB UNull.

(** ** Predicates *)

(** struct c_predicate, trace-db.h:79-92.  [children] is NULL or an array (of
    any length, whatever n_children says). *)
Inductive cpred :=
  CPred (kind : pkind) (n_children var_index unsigned_value signed_value float_value : N)
        (children : option (list cpred)).

(** The value stored in the union, trace-db.cpp:219-235 *)
Definition pred_data (k : pkind) (n vi u s f : N) : N :=
  match k with
  | VAR_REFERENCE => vi
  | UNSIGNED_VALUE => u
  | SIGNED_VALUE => s
  | FLOAT_VALUE => f
  | _ => n
  end.

Definition is_null_pred (p : pred) : bool :=
  match p with Pred NULL_PREDICATE _ _ => true | _ => false end.

(** create_predicate_obj, trace-db.cpp:199-242, for a non-NULL pointer.  The
    loop counter is a uint32_t while n_children is a uint64_t: with 2^32
    children or more the loop reads the array again from the start, forever. *)
Fixpoint create_predicate (c : cpred) : outcome pred :=
  let 'CPred k n vi u s f cs := c in
  ps <- match cs with
        | None => Ok []
        | Some l =>
            (fix go (l : list cpred) (i : N) : outcome (list pred) :=
               if n <=? i then Ok []
               else if two32 <=? i then Diverge
               else match l with
                    | [] => UB UOob
                    | c :: r =>
                        p <- create_predicate c ;;
                        ps <- go r (i + 1) ;;
                        Ok (if is_null_pred p then ps else p :: ps)
                    end) l 0
        end ;;
  Ok (Pred k (pred_data k n vi u s f) ps).

(** With a pointer that may be NULL, trace-db.cpp:202-204.  The default
    constructed Predicate has no children and data 0. *)
Definition create_predicate_obj (c : option cpred) : outcome pred :=
  match c with None => Ok (Pred NULL_PREDICATE 0 []) | Some c => create_predicate c end.

(** A c_predicate in memory: the fields that free_c_predicate uses. *)
Record cpnode := mkCN { cn_kind : pkind; cn_n : N; cn_children : N }.

(** Kinds for which free_c_predicate_helper does nothing, trace-db.cpp:246-249 *)
Definition is_leaf_kind (k : pkind) : bool :=
  match k with VAR_REFERENCE | SIGNED_VALUE | UNSIGNED_VALUE | FLOAT_VALUE => true | _ => false end.

(** free_c_predicate_helper, trace-db.cpp:244-254, on element i of the array at
    address a.  [fuel] bounds the depth of the recursion.  The loop counter is a
    uint32_t; n_children is assumed to be below 2^32. *)
Fixpoint free_helper (fuel : nat) (h : heap cpnode) (a i : N) : outcome (heap cpnode) :=
  match fuel with
  | O => Diverge
  | S fuel' =>
      c <- load h a i ;;
      if is_leaf_kind (cn_kind c) then Ok h
      else
        h1 <- (fix loop (m : nat) (j : N) (h : heap cpnode) : outcome (heap cpnode) :=
                 match m with
                 | O => Ok h
                 | S m' => h1 <- free_helper fuel' h (cn_children c) j ;; loop m' (j + 1) h1
                 end) (N.to_nat (cn_n c)) 0 h ;;
        free h1 (cn_children c)
  end.

(** free_c_predicate, trace-db.cpp:256-262 *)
Definition free_c_predicate (fuel : nat) (h : heap cpnode) (a : N) : outcome (heap cpnode) :=
  if a =? 0 then Ok h
  else h1 <- free_helper fuel h a 0 ;; free h1 a.

(** ** add_trace_points, trace-db.cpp:54-144 *)

(** A point of the argument array.  The arrays it points to are given as lists
    of n_vars and n_aux elements. *)
Record ipoint := mkIP { ip_stmt : N; ip_vars : list cvar; ip_aux : list N }.

(** value.s < 0 *)
Definition negative (v : value) : bool :=
  match v with VBits u => two63 <=? u | _ => false end.

(** std::map<uint32_t, type_format>: a list sorted by key. *)
Fixpoint fm_find (m : list (N * fmt)) (k : N) : option fmt :=
  match m with
  | [] => None
  | (k', f) :: r => if k' =? k then Some f else fm_find r k
  end.
Fixpoint fm_set (m : list (N * fmt)) (k : N) (f : fmt) : list (N * fmt) :=
  match m with
  | [] => [(k, f)]
  | (k', f') :: r =>
      if k <? k' then (k, f) :: m
      else if k =? k' then (k, f) :: r
      else (k', f') :: fm_set r k f
  end.

(** trace-db.cpp:76-88 *)
Definition note_format (m : list (N * fmt)) (v : cvar) : list (N * fmt) :=
  if negative (cv_value v) then fm_set m (cv_tname v) SIGNED
  else match fm_find m (cv_tname v) with
       | None => fm_set m (cv_tname v) UNSIGNED
       | Some _ => m
       end.
Definition type_formats (ps : list ipoint) : list (N * fmt) :=
  fold_left (fun m p => fold_left note_format (ip_vars p) m) ps [].

(** trace-db.cpp:90-94 *)
Definition types_of_formats (m : list (N * fmt)) : list tdesc :=
  map (fun e => mkT (fst e) (snd e) 8) m.

(** std::find_if, trace-db.cpp:105-115 *)
Fixpoint type_position (types : list tdesc) (nm : N) : N :=
  match types with
  | [] => 0
  | t :: r => if t_name t =? nm then 0 else 1 + type_position r nm
  end.

(** trace-db.cpp:117-124 *)
Definition import_var (types : list tdesc) (v : cvar) : outcome var :=
  let ti := type_position types (cv_tname v) in
  match nthN types ti with
  | None => UB UOob
  | Some t => Ok (mkV (cv_value v) (cv_name v) ti (t_fmt t) (t_size t) (cv_bsz v) (cv_has v))
  end.

(** trace-db.cpp:96-135.  [aux[j] = ...] writes to an element of an empty
    vector. *)
Fixpoint import_points (types : list tdesc) (i : N) (ps : list ipoint) : outcome (list (point N)) :=
  match ps with
  | [] => Ok []
  | p :: r =>
      match ip_aux p with
      | _ :: _ => UB UOob
      | [] =>
          vs <- mapO (import_var types) (ip_vars p) ;;
          rest <- import_points types (i + 1) r ;;
          Ok (mkP i (ip_stmt p) [] vs [] :: rest)
      end
  end.

Definition import_trace (names : list name) (ps : list ipoint) : outcome (trace N) :=
  let types := types_of_formats (type_formats ps) in
  points <- import_points types 0 ps ;;
  Ok (mkTr (map c_string names) types points).

(** ** The database *)

(** std::vector<Trace> m_traces (TraceDB.hpp:25): the elements, each with its
    cache of points, the capacity and the identity of the storage. *)
Record db := mkDB { db_traces : list (trace N * gp_cache); db_cap : N; db_base : N }.

(** create_db, trace-db.cpp:23-26 *)
Definition create_db : db := mkDB [] 0 0.

(** m_traces.push_back(trace), TraceDB.hpp:46-52.  Trace has a user-defined
    copy constructor (Trace.hpp) that copies neither cache nor memory map and
    no move constructor, so a reallocation copies all traces and drops their
    caches.  [grow]: the next capacity. *)
Definition push_trace (grow : N -> N) (d : db) (tr : trace N) : db :=
  if lenN (db_traces d) <? db_cap d then mkDB (db_traces d ++ [(tr, [])]) (db_cap d) (db_base d)
  else mkDB (map (fun e => (fst e, [])) (db_traces d) ++ [(tr, [])]) (grow (db_cap d)) (db_base d + 1).

(** What openWithTimeout returns for a file (OpenFile.v): an error or a stream,
    given by the bytes it delivers and the way it ends. *)
Definition opened := outcome (list byte * tail_kind).

(** An uninitialised statement id is some number: [garbage i] for point i. *)
Definition settle (garbage : N -> N) (tr : trace (option N)) : trace N :=
  mkTr (tr_names tr) (tr_types tr)
    (map (fun p => map_stmt (fun s => match s with Some u => u | None => garbage (p_counter p) end) p) (tr_points tr)).

(** add_trace, trace-db.cpp:28-52: exceptions are caught and give false. *)
Definition add_trace (ok : alloc) (M : map_ops) (garbage : N -> N) (grow : N -> N)
  (d : db) (file : opened) (max : N) : outcome (bool * db) :=
  match (' (bs, t) <- file ;; read_trace ok M max (open_stream bs t)) with
  | Ok tr => Ok (true, push_trace grow d (settle garbage tr))
  | Throw _ => Ok (false, d)
  | UB k => UB k
  | Abort => Abort
  | Diverge => Diverge
  end.

(** add_trace_points, trace-db.cpp:54-144 *)
Definition add_trace_points (grow : N -> N) (d : db) (names : list name) (ps : list ipoint) : outcome (bool * db) :=
  tr <- import_trace names ps ;; Ok (true, push_trace grow d tr).

(** n_traces, trace-db.cpp:153-157: uint32_t *)
Definition n_traces (d : db) : N := lenN (db_traces d) mod two32.

(** get_trace, trace-db.cpp:146-151: a pointer into the storage of the vector. *)
Definition get_trace (d : db) (i : N) : outcome (N * N) :=
  if i <? lenN (db_traces d) then Ok (db_base d, i) else UB UOob.
(** Using such a pointer. *)
Definition deref (d : db) (p : N * N) : outcome (trace N) :=
  if fst p =? db_base d then
    match nthN (db_traces d) (snd p) with Some e => Ok (fst e) | None => UB UDangling end
  else UB UDangling.

(** query_trace, trace-db.cpp:305-349, without the final conversion. *)
Record cquery := mkCQ {
  cq_fvs : list free_var; cq_hard : option cpred; cq_soft : list (option cpred);
  cq_seed : N; cq_keep : N; cq_mask : N; cq_stmt : N
}.

Fixpoint set_cache (l : list (trace N * gp_cache)) (i : N) (c : gp_cache) : list (trace N * gp_cache) :=
  match l with
  | [] => []
  | (t, c') :: r => if i =? 0 then (t, c) :: r else (t, c') :: set_cache r (N.pred i) c
  end.

Section QueryTrace.
Variable St : Type.
Variable sat : St -> pred -> list var -> outcome (bool * St).

Definition query_trace (ok : N -> bool) (pick : N -> N -> N) (hash : N * list (N * N) -> N)
  (d : db) (st : St) (index : N) (q : cquery) : outcome (list (point N) * db * St) :=
  match nthN (db_traces d) index with
  | None => Abort
  | Some (tr, c) =>
      hard <- create_predicate_obj (cq_hard q) ;;
      soft <- mapO create_predicate_obj (cq_soft q) ;;
      ' (rs, c', st') <- query St sat ok pick (tr_points tr) c st (cq_fvs q) hard soft (cq_seed q) (cq_mask q) (cq_stmt q) ;;
      Ok (if cq_keep q =? 0 then dedup hash [] rs else rs,
          mkDB (set_cache (db_traces d) index c') (db_cap d) (db_base d), st')
  end.

(** ** Histories of calls on one database *)
Inductive call :=
| CAdd (file : opened) (max : N) (garbage : N -> N)
| CAddPoints (names : list name) (ps : list ipoint)
| CQuery (index : N) (q : cquery)
| CGet (index : N)
| CCount.

Inductive answer_ := ARet (b : bool) | AResults (rs : list (point N)) | APtr (p : N * N) | ANum (n : N).

Definition do_call (ok : N -> bool) (M : map_ops) (grow : N -> N) (pick : N -> N -> N) (hash : N * list (N * N) -> N)
  (d : db) (st : St) (c : call) : outcome (answer_ * db * St) :=
  match c with
  | CAdd file max garbage => ' (b, d') <- add_trace ok M garbage grow d file max ;; Ok (ARet b, d', st)
  | CAddPoints names ps => ' (b, d') <- add_trace_points grow d names ps ;; Ok (ARet b, d', st)
  | CQuery i q => ' (rs, d', st') <- query_trace ok pick hash d st i q ;; Ok (AResults rs, d', st')
  | CGet i => p <- get_trace d i ;; Ok (APtr p, d, st)
  | CCount => Ok (ANum (n_traces d), d, st)
  end.

Fixpoint do_calls ok M grow pick hash d st (cs : list call) : outcome (list answer_ * db * St) :=
  match cs with
  | [] => Ok ([], d, st)
  | c :: r =>
      ' (a, d1, st1) <- do_call ok M grow pick hash d st c ;;
      ' (l, d2, st2) <- do_calls ok M grow pick hash d1 st1 r ;;
      Ok (a :: l, d2, st2)
  end.
End QueryTrace.
