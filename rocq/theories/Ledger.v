(** Model of the memory that reading a trace obtains with new and malloc and gives
    back with delete and free: the reader of Reader.v with a ledger of live blocks,
    and read_trace / free_trace (trace.cpp:7-28, 80-83), add_trace / free_db
    (trace-db.cpp:28-52, 185-189).

    Only explicit allocations are in the ledger.  The storage of strings, vectors,
    streams' locals and shared (flyweight) objects is released by destructors of the
    library; nodes of the memory map are in SkipList.v (property C02). *)
From Verif Require Import Base Types Stream Reader.

(** What a block is: the buffer for names (Trace.hpp:61), a blob value
    (TraceVarInfo.hpp:175), a stream buffer (Utils.hpp:81), an istream
    (trace.cpp:17, trace-db.cpp:40), a Trace (trace.cpp:18), a TraceDB (trace-db.cpp:25). *)
Inductive block := BChars (n : N) | BBlob (n : N) | BStreamBuf | BStream | BTrace | BDb.

Record ledger := mkL { l_next : N; l_live : list (N * block) }.

(** Computations that allocate.  The ledger survives an exception. *)
Definition mem (A : Type) : Type := ledger -> outcome A * ledger.
Definition mret {A} (o : outcome A) : mem A := fun l => (o, l).
Definition mbind {A B} (m : mem A) (f : A -> mem B) : mem B := fun l =>
  let '(o, l') := m l in
  match o with
  | Ok a => f a l'
  | Throw e => (Throw e, l')
  | UB k => (UB k, l')
  | Abort => (Abort, l')
  | Diverge => (Diverge, l')
  end.
Notation "x <~ o ;; k" := (mbind o (fun x => k)) (at level 61, o at next level, right associativity).
Notation "' p <~ o ;; k" := (mbind o (fun p => k)) (at level 61, p pattern, o at next level, right associativity).

(** new / malloc: the address is a fresh number *)
Definition obtain (b : block) : mem N := fun l =>
  (Ok (l_next l), mkL (l_next l + 1) (l_live l ++ [(l_next l, b)])).
(** delete / free of a live block; anything else is a bad free *)
Definition release (a : N) : mem unit := fun l =>
  if existsb (fun e => fst e =? a) (l_live l)
  then (Ok tt, mkL (l_next l) (filter (fun e => negb (fst e =? a)) (l_live l)))
  else (UB UBadFree, l).

(** Trace.hpp:59-73; delete[] only after the last name *)
Definition read_names_l (ok : alloc) (s : istream) : mem (list name * istream) :=
  '(n_chars, s1) <~ mret (read_word 8 0 s) ;;
  if 0 <? n_chars then
    if ok n_chars then
      buf <~ obtain (BChars n_chars) ;;
      '(d, s2) <~ mret (binary_read n_chars s1) ;;
      if lenN d <? n_chars then mret (UB UUninit)
      else names <~ mret (scan_names d []) ;;
           _ <~ release buf ;;
           mret (Ok (names, s2))
    else mret (Throw EBadAlloc)
  else mret (Ok ([], s1)).

(** TraceVarInfo.hpp:110-182: as Reader.read_value, with the malloc of line 175 *)
Definition read_value_l (ok : alloc) (M : map_ops) (map : mo_state M) (f : fmt) (size : N) (s : istream)
  : mem (value * N * N * N * istream) :=
  match f with
  | BLOB =>
      '(size', s1) <~ mret (if size =? 0 then read_word 4 0 s else Ok (size, s)) ;;
      if ok size' || (size' =? 0) then
        _ <~ obtain (BBlob size') ;;
        '(d, s2) <~ mret (binary_read size' s1) ;;
        if lenN d <? size' then mret (Ok (VIndet, size', 0, 0, s2))
        else mret (Ok (VBlob d, size', 0, 0, s2))
      else
        '(d, s2) <~ mret (binary_read size' s1) ;;
        if lenN d =? 0 then mret (Ok (VIndet, size', 0, 0, s2)) else mret (UB UNull)
  | _ => mret (read_value ok M map f size s)
  end.

(** TraceVarInfo.hpp:85-185 *)
Definition read_var_l (ok : alloc) (M : map_ops) (names : list name) (types : list tdesc)
  (map : mo_state M) (s : istream) : mem (var * istream) :=
  '(nm, s1) <~ mret (read_word 4 0 s) ;;
  '(ty, s2) <~ mret (read_word 4 0 s1) ;;
  match nthN types ty with
  | None => mret (Throw EInvalidTypeIndex)
  | Some t =>
      if lenN names <=? nm then mret (Throw EInvalidNameIndex)
      else
        '(v, size, b, has, s3) <~ read_value_l ok M map (t_fmt t) (t_size t) s2 ;;
        mret (Ok (mkV v nm ty (t_fmt t) size b has, s3))
  end.

(** TracePoint.hpp:263-302 *)
Definition read_entry_l (ok : alloc) (M : map_ops) (names : list name) (types : list tdesc)
  (map : mo_state M) (acc : pacc) (s : istream) : mem (bool * pacc * mo_state M * istream) :=
  '(d, s1) <~ mret (binary_read_into [x05] s) ;;
  let c := schar (match d with b :: _ => b | [] => x05 end) in
  if negb (good s1) || (c =? 0)%Z then mret (Ok (false, acc, map, s1))
  else if (c =? 2)%Z then
    '(v, s2) <~ read_var_l ok M names types map s1 ;;
    mret (Ok (true, mkA (a_stmt acc) (a_sizes acc) (a_vars acc ++ [v]) (a_aux acc), map, s2))
  else mret (read_entry ok M names types map acc s).
Fixpoint read_entries_l (fuel : nat) (ok : alloc) (M : map_ops) (names : list name) (types : list tdesc)
  (map : mo_state M) (acc : pacc) (s : istream) : mem (pacc * mo_state M * istream) :=
  match fuel with
  | O => mret Diverge
  | S fuel' =>
      '(again, acc', map', s') <~ read_entry_l ok M names types map acc s ;;
      if (again : bool) then read_entries_l fuel' ok M names types map' acc' s'
      else mret (Ok (acc', map', s'))
  end.
(** TracePoint.hpp:252-311 *)
Definition read_point_l (ok : alloc) (M : map_ops) (counter : N) (names : list name) (types : list tdesc)
  (map : mo_state M) (s : istream) : mem (point (option N) * mo_state M * istream) :=
  '(acc, map', s') <~ read_entries_l (S (S (length (s_rest s)))) ok M names types map pacc0 s ;;
  mret (Ok (mkP counter (a_stmt acc) (a_sizes acc) (a_vars acc) (a_aux acc), map', s')).
(** Trace.hpp:85-91 *)
Fixpoint read_points_l (fuel : nat) (ok : alloc) (M : map_ops) (max i : N) (names : list name)
  (types : list tdesc) (map : mo_state M) (s : istream) : mem (list (point (option N)) * istream) :=
  if good s && ((i <? max) || (max =? 0)) then
    match fuel with
    | O => mret Diverge
    | S fuel' =>
        '(p, map', s1) <~ read_point_l ok M i names types map s ;;
        '(ps, s2) <~ read_points_l fuel' ok M max (i + 1) names types map' s1 ;;
        mret (if good s1 then Ok (p :: ps, s2) else Ok (ps, s2))
    end
  else mret (Ok ([], s)).
(** Trace.hpp:51-98 *)
Definition read_trace_l (ok : alloc) (M : map_ops) (max : N) (s : istream) : mem (trace (option N)) :=
  '(names, s1) <~ read_names_l ok s ;;
  '(types, s2) <~ mret (read_types ok s1) ;;
  '(points, _) <~ read_points_l (S (S (length (s_rest s2)))) ok M max 0 names types (mo_new M) s2 ;;
  mret (Ok (mkTr names types points)).

(** A file as openWithTimeout (Utils.hpp:46-88) finds it: [None] if it throws,
    otherwise what the stream will deliver. *)
Definition source : Type := option (list byte * tail_kind).

(** try { m } catch (std::exception &) { h }: every exception of the model is one. *)
Definition catch {A} (m : mem A) (h : mem A) : mem A := fun l =>
  let '(o, l') := m l in
  match o with Throw _ => h l' | _ => (o, l') end.

(** read_trace, trace.cpp:7-28.  [new Trace(...)] gives its memory back if the
    constructor throws.  The result is the address and the contents of the Trace. *)
Definition read_trace_c (ok : alloc) (M : map_ops) (max : N) (src : source) : mem (option (N * trace (option N))) :=
  match src with
  | None => catch (mret (Throw ECannotOpen)) (mret (Ok None))
  | Some (bs, t) =>
      fp <~ obtain BStreamBuf ;;
      in_ <~ obtain BStream ;;
      catch
        (tr <~ obtain BTrace ;;
         c <~ (fun l => let '(o, l') := read_trace_l ok M max (open_stream bs t) l in
                        match o with Throw e => (_ <~ release tr ;; mret (Throw e)) l' | _ => (o, l') end) ;;
         _ <~ release fp ;; _ <~ release in_ ;; mret (Ok (Some (tr, c))))
        (_ <~ release fp ;; _ <~ release in_ ;; mret (Ok None))
  end.
(** free_trace, trace.cpp:80-83; the destructor of Trace releases no explicit block:
    TraceVarInfo has no destructor of its own. *)
Definition free_trace_c (tr : N) : mem unit := release tr.

(** add_trace, trace-db.cpp:28-52: the trace is a local object; the copy in the
    database shares the blobs.  The result is the trace added, if any. *)
Definition add_trace_c (ok : alloc) (M : map_ops) (max : N) (src : source) : mem (option (trace (option N))) :=
  match src with
  | None => catch (mret (Throw ECannotOpen)) (mret (Ok None))
  | Some (bs, t) =>
      fp <~ obtain BStreamBuf ;;
      in_ <~ obtain BStream ;;
      catch
        (c <~ read_trace_l ok M max (open_stream bs t) ;;
         _ <~ release fp ;; _ <~ release in_ ;; mret (Ok (Some c)))
        (_ <~ release fp ;; _ <~ release in_ ;; mret (Ok None))
  end.
(** create_db and free_db, trace-db.cpp:23-26 and 185-189 *)
Definition create_db_c : mem N := obtain BDb.
Definition free_db_c (db : N) : mem unit := release db.
