(** serialize_trace_db and deserialize_trace_db: the text archives of Boost
    (boost::archive::text_oarchive and text_iarchive, version 1.67, which the
    Makefile:38-53 fetches) as far as the database uses them. *)
From Coq Require Import Strings.String.
From Verif Require Import Base Types Compare Order Dec CApi PrintPred.

(** ** State of an archive *)

(** The classes whose class information (tracking level and version) the
    archive contains once, in front of the first object.  CFly is
    FlyweightTracePointData. *)
Inductive cls : Set := CDb | CTrace | CPoint | CFly | CData | CBuf | CVar | CType.
Definition cls_code (c : cls) : N :=
  match c with CDb => 0 | CTrace => 1 | CPoint => 2 | CFly => 3 | CData => 4 | CBuf => 5 | CVar => 6 | CType => 7 end.
Definition seen (l : list cls) (c : cls) : bool := existsb (fun d => cls_code d =? cls_code c) l.

(** A TracePointData: buffer sizes, variables, auxiliary values. *)
Definition pdata := point unit.
Definition data_of {A} (p : point A) : pdata := mkP 0 tt (p_sizes p) (p_vars p) (p_aux p).

(** The classes seen, and the objects in the helper of
    boost/flyweight/serialize.hpp, in order of their numbers. *)
Record arch := mkA { a_seen : list cls; a_tab : list pdata }.
Definition arch0 : arch := mkA [] [].

(** ** Writing *)

Definition space : byte := byte_of_N 32.

(** basic_text_oprimitive::save of an integer, with the delimiter that newtoken
    puts in front of all tokens but the first. *)
Definition put_N (n : N) : list byte := space :: show_N n.
Definition put_Z (z : Z) : list byte := space :: show_Z z.
(** text_oarchive_impl::save(std::string): length, then the characters. *)
Definition put_string (s : list byte) : list byte := put_N (lenN s) ++ space :: s.
(** basic_text_oprimitive::save(char): as a short int.  A char is signed. *)
Definition schar (b : byte) : Z :=
  if N_of_byte b <? 128 then Z.of_N (N_of_byte b) else (Z.of_N (N_of_byte b) - 256)%Z.
Definition put_char (b : byte) : list byte := put_Z (schar b).

(** Class information, basic_oarchive::save_object: tracking level (no object of
    these classes is saved through a pointer, so 0) and version (0). *)
Definition put_class (c : cls) (st : arch) : list byte * arch :=
  if seen (a_seen st) c then ([], st) else (put_N 0 ++ put_N 0, mkA (c :: a_seen st) (a_tab st)).

(** A loop that saves elements in order. *)
Fixpoint put_all {A} (f : A -> arch -> list byte * arch) (l : list A) (st : arch) : list byte * arch :=
  match l with
  | [] => ([], st)
  | x :: r =>
      let '(o1, st1) := f x st in
      let '(o2, st2) := put_all f r st1 in
      (o1 ++ o2, st2)
  end.

(** TraceBufferSize::serialize, TraceBufferSize.hpp:106-111 *)
Definition put_bufsz (b : bufsz) (st : arch) : list byte * arch :=
  let '(o, st1) := put_class CBuf st in
  (o ++ put_N (b_addr b) ++ put_N (b_size b), st1).

(** TypeDescription::serialize, TypeDescription.hpp:157-163.  An enum is saved
    as an int. *)
Definition put_type (t : tdesc) (st : arch) : list byte * arch :=
  let '(o, st1) := put_class CType st in
  (o ++ put_N (t_name t) ++ put_N (fmt_code (t_fmt t)) ++ put_N (t_size t), st1).

(** The value of a variable, TraceVarInfo.hpp:484-490.  Values in a database
    are never indeterminate and a blob has m_size bytes (C11, C31). *)
Definition put_value (v : var) : list byte :=
  match v_val v with
  | VBlob bs => concat (map put_char bs)
  | VBits u => put_N u
  | VIndet => []
  end.

(** TraceVarInfo::save, TraceVarInfo.hpp:474-491 *)
Definition put_var (v : var) (st : arch) : list byte * arch :=
  let '(o, st1) := put_class CVar st in
  (o ++ put_N (v_name v) ++ put_N (v_type v) ++ put_N (fmt_code (v_fmt v)) ++ put_N (v_size v) ++
   put_N (v_bsz v) ++ put_N (v_has v) ++ put_value v, st1).

(** TracePointData::save, TracePoint.hpp:191-213 *)
Definition put_data (d : pdata) (st : arch) : list byte * arch :=
  let '(o, st1) := put_class CData st in
  let '(o1, st2) := put_all put_bufsz (p_sizes d) st1 in
  let '(o2, st3) := put_all put_var (p_vars d) st2 in
  (o ++ put_N (lenN (p_sizes d)) ++ put_N (lenN (p_vars d)) ++ put_N (lenN (p_aux d)) ++
   o1 ++ o2 ++ concat (map put_N (p_aux d)), st3).

(** Position of an object in the table; equal objects are one flyweight
    (Flyweight.v, C32). *)
Fixpoint position (tab : list pdata) (d : pdata) : N :=
  match tab with
  | [] => 0
  | e :: r => if data_eqb e d then 0 else 1 + position r d
  end.

(** save for flyweights, boost/flyweight/serialize.hpp: the number of the
    object, and the object itself if it is new. *)
Definition put_fly (d : pdata) (st : arch) : list byte * arch :=
  let '(o, st1) := put_class CFly st in
  let n := position (a_tab st1) d in
  if n =? lenN (a_tab st1) then
    let '(o1, st2) := put_data d st1 in
    (o ++ put_N n ++ o1, mkA (a_seen st2) (a_tab st2 ++ [d]))
  else (o ++ put_N n, st1).

(** TracePoint::serialize, TracePoint.hpp:449-455 *)
Definition put_point (p : point N) (st : arch) : list byte * arch :=
  let '(o, st1) := put_class CPoint st in
  let '(o1, st2) := put_fly (data_of p) st1 in
  (o ++ put_N (p_counter p) ++ put_N (p_stmt p) ++ o1, st2).

Definition put_name (n : name) (st : arch) : list byte * arch := (put_string n, st).

(** Trace::save, Trace.hpp:416-438.  The numbers of names and types are
    converted to uint32_t; all names and types are saved. *)
Definition put_trace (t : trace N) (st : arch) : list byte * arch :=
  let '(o, st1) := put_class CTrace st in
  let '(o1, st2) := put_all put_point (tr_points t) st1 in
  let '(o2, st3) := put_all put_name (tr_names t) st2 in
  let '(o3, st4) := put_all put_type (tr_types t) st3 in
  (o ++ put_N (lenN (tr_points t)) ++ put_N (lenN (tr_names t) mod two32) ++ put_N (lenN (tr_types t) mod two32) ++
   o1 ++ o2 ++ o3, st4).

(** TraceDB::save, TraceDB.hpp:98-108 *)
Definition put_db (ts : list (trace N)) (st : arch) : list byte * arch :=
  let '(o, st1) := put_class CDb st in
  let '(o1, st2) := put_all put_trace ts st1 in
  (o ++ put_N (lenN ts) ++ o1, st2).

(** basic_text_oarchive::init: signature and library version.  [ver] is
    BOOST_ARCHIVE_VERSION, 16 for Boost 1.67. *)
Definition signature : list byte := text "serialization::archive".
Definition header (ver : N) : list byte :=
  show_N (lenN signature) ++ space :: signature ++ put_N ver.

(** serialize_trace_db, trace-db.cpp:159-171: the characters of the result in
    front of the final NUL.  (The newline that the destructor of the archive
    writes comes after ss.str().) *)
Definition serialize_trace_db (ver : N) (d : db) : list byte :=
  header ver ++ fst (put_db (map fst (db_traces d)) arch0).

(** ** Reading *)

(** An input stream: characters ahead, eofbit, failbit. *)
Record istr := mkI { i_rest : list byte; i_eof : bool; i_fail : bool }.
Definition good (s : istr) : bool := negb (i_eof s) && negb (i_fail s).

(** isspace in the "C" locale *)
Definition is_space (b : byte) : bool := (N_of_byte b =? 32) || (9 <=? N_of_byte b) && (N_of_byte b <=? 13).
Definition is_digitb (b : byte) : bool := (48 <=? N_of_byte b) && (N_of_byte b <=? 57).

Fixpoint skip_space (l : list byte) : list byte :=
  match l with [] => [] | b :: r => if is_space b then skip_space r else l end.
Fixpoint span_digits (l : list byte) : list byte * list byte :=
  match l with
  | [] => ([], [])
  | b :: r => if is_digitb b then let '(d, r') := span_digits r in (b :: d, r') else ([], l)
  end.
Definition digits_N (l : list byte) : N := fold_left (fun a b => 10 * a + (N_of_byte b - 48)) l 0.
(** An optional sign. *)
Definition take_sign (l : list byte) : bool * list byte :=
  match l with
  | b :: r => if N_of_byte b =? 45 then (true, r) else if N_of_byte b =? 43 then (false, r) else (false, l)
  | [] => (false, [])
  end.

(** std::istream::operator>> for an integer type in the "C" locale: the sign,
    the magnitude and the stream.  None: failbit is set.  basic_text_iprimitive
    throws an archive_exception when it is set. *)
Definition get_number (s : istr) : option (bool * N * istr) :=
  if good s then
    let '(neg, l) := take_sign (skip_space (i_rest s)) in
    let '(ds, r) := span_digits l in
    match ds with
    | [] => None
    | _ => Some (neg, digits_N ds, mkI r (match r with [] => true | _ => false end) false)
    end
  else None.

(** An unsigned type of [bits] bits.  A negative number is negated modulo
    2^bits; failbit is set if the magnitude is too large. *)
Definition get_N (bits : N) (s : istr) : outcome (N * istr) :=
  match get_number s with
  | None => Throw EArchive
  | Some (neg, n, s') =>
      if n <? 2 ^ bits then Ok (if neg then (2 ^ bits - n) mod 2 ^ bits else n, s') else Throw EArchive
  end.
(** A signed type of [bits] bits. *)
Definition get_Z (bits : N) (s : istr) : outcome (Z * istr) :=
  match get_number s with
  | None => Throw EArchive
  | Some (neg, n, s') =>
      let z := if neg then (- Z.of_N n)%Z else Z.of_N n in
      if ((- 2 ^ (Z.of_N bits - 1) <=? z) && (z <? 2 ^ (Z.of_N bits - 1)))%Z then Ok (z, s') else Throw EArchive
  end.

(** std::istream::get() *)
Definition skip_char (s : istr) : istr :=
  if good s then match i_rest s with b :: r => mkI r false false | [] => mkI [] true true end
  else mkI (i_rest s) (i_eof s) true.
(** std::istream::read of n characters into a string of n NULs *)
Definition read_chars (n : N) (s : istr) : list byte * istr :=
  if good s then
    if n <=? lenN (i_rest s) then (takeN n (i_rest s), mkI (dropN n (i_rest s)) false false)
    else (i_rest s ++ repeat x00 (N.to_nat (n - lenN (i_rest s))), mkI [] true true)
  else (repeat x00 (N.to_nat n), mkI (i_rest s) (i_eof s) true).

Section Load.
(** Whether room for n elements can be allocated. *)
Variable ok : N -> bool.
(** Bound on the number of elements of any list (shown sufficient). *)
Variable fuel : nat.

Record lst := mkL { l_in : istr; l_st : arch }.
Definition load (A : Type) := lst -> outcome (A * lst).

Definition load_N (bits : N) : load N := fun s =>
  ' (n, i) <- get_N bits (l_in s) ;; Ok (n, mkL i (l_st s)).
Definition load_Z (bits : N) : load Z := fun s =>
  ' (n, i) <- get_Z bits (l_in s) ;; Ok (n, mkL i (l_st s)).

(** resize and reserve: std::bad_alloc or std::length_error *)
Definition reserve (n : N) (s : lst) : outcome unit := if ok n then Ok tt else Throw EBadAlloc.

(** text_iarchive_impl::load(std::string): the result of read is not checked. *)
Definition load_string : load (list byte) := fun s =>
  ' (n, i) <- get_N 64 (l_in s) ;;
  let i1 := skip_char i in
  _ <- reserve n s ;;
  if n =? 0 then Ok ([], mkL i1 (l_st s))
  else let '(x, i2) := read_chars n i1 in Ok (x, mkL i2 (l_st s)).

(** char: a short int, converted. *)
Definition load_char : load byte := fun s =>
  ' (z, s1) <- load_Z 16 s ;; Ok (byte_of_N (Z.to_N (z mod 256)%Z), s1).

(** uint8_t: an unsigned short, converted. *)
Definition load_u8 : load N := fun s => ' (n, s1) <- load_N 16 s ;; Ok (n mod two8, s1).

(** An enum is loaded as an int; see fmt_of_code about other values. *)
Definition load_fmt : load fmt := fun s =>
  ' (z, s1) <- load_Z 32 s ;; Ok (if (z <? 0)%Z then INVALID_FORMAT else fmt_of_code (Z.to_N z), s1).

(** Class information, basic_iarchive::load_object.  Simplification: a tracking
    level other than 0, which serialize_trace_db never writes, counts as an
    error; the version is not used. *)
Definition load_class (c : cls) : lst -> outcome lst := fun s =>
  if seen (a_seen (l_st s)) c then Ok s
  else
    ' (n, s1) <- load_N 1 s ;;
    if n =? 0 then
      ' (_, s2) <- load_N 32 s1 ;;
      Ok (mkL (l_in s2) (mkA (c :: a_seen (l_st s2)) (a_tab (l_st s2))))
    else Throw EArchive.

(** A loop that loads n elements. *)
Fixpoint load_list {A} (f : load A) (fuel : nat) (n : N) (s : lst) : outcome (list A * lst) :=
  if n =? 0 then Ok ([], s)
  else match fuel with
       | O => Diverge
       | S fuel' =>
           ' (x, s1) <- f s ;;
           ' (r, s2) <- load_list f fuel' (n - 1) s1 ;;
           Ok (x :: r, s2)
       end.

(** TraceBufferSize.hpp:106-111 *)
Definition load_bufsz : load bufsz := fun s =>
  s <- load_class CBuf s ;;
  ' (a, s) <- load_N 64 s ;;
  ' (z, s) <- load_N 64 s ;;
  Ok (mkB a z, s).

(** TypeDescription.hpp:157-163 *)
Definition load_type : load tdesc := fun s =>
  s <- load_class CType s ;;
  ' (n, s) <- load_N 32 s ;;
  ' (f, s) <- load_fmt s ;;
  ' (z, s) <- load_N 32 s ;;
  Ok (mkT n f z, s).

(** TraceVarInfo::load, TraceVarInfo.hpp:493-511.  A NULL from malloc is
    written through, unless there is nothing to write. *)
Definition load_var : load var := fun s =>
  s <- load_class CVar s ;;
  ' (n, s) <- load_N 32 s ;;
  ' (t, s) <- load_N 32 s ;;
  ' (f, s) <- load_fmt s ;;
  ' (z, s) <- load_N 32 s ;;
  ' (b, s) <- load_N 64 s ;;
  ' (h, s) <- load_u8 s ;;
  match f with
  | BLOB =>
      if ok z || (z =? 0) then
        ' (bs, s) <- load_list load_char fuel z s ;; Ok (mkV (VBlob bs) n t f z b h, s)
      else ' (_, s) <- load_char s ;; UB UNull
  | _ => ' (u, s) <- load_N 64 s ;; Ok (mkV (VBits u) n t f z b h, s)
  end.

(** TracePointData::load, TracePoint.hpp:153-189 *)
Definition load_data : load pdata := fun s =>
  s <- load_class CData s ;;
  ' (n1, s) <- load_N 64 s ;;
  ' (n2, s) <- load_N 64 s ;;
  ' (n3, s) <- load_N 64 s ;;
  _ <- reserve n1 s ;; _ <- reserve n2 s ;; _ <- reserve n3 s ;;
  ' (sizes, s) <- load_list load_bufsz fuel n1 s ;;
  ' (vars, s) <- load_list load_var fuel n2 s ;;
  ' (aux, s) <- load_list (load_N 64) fuel n3 s ;;
  Ok (mkP 0 tt sizes vars aux, s).

(** load for flyweights, boost/flyweight/serialize.hpp *)
Definition load_fly : load pdata := fun s =>
  s <- load_class CFly s ;;
  ' (n, s) <- load_N 64 s ;;
  if lenN (a_tab (l_st s)) <? n then Throw EArchive
  else if n =? lenN (a_tab (l_st s)) then
    ' (d, s) <- load_data s ;;
    Ok (d, mkL (l_in s) (mkA (a_seen (l_st s)) (a_tab (l_st s) ++ [d])))
  else match nthN (a_tab (l_st s)) n with Some d => Ok (d, s) | None => UB UOob end.

(** TracePoint.hpp:449-455 *)
Definition load_point : load (point N) := fun s =>
  s <- load_class CPoint s ;;
  ' (c, s) <- load_N 64 s ;;
  ' (t, s) <- load_N 64 s ;;
  ' (d, s) <- load_fly s ;;
  Ok (mkP c t (p_sizes d) (p_vars d) (p_aux d), s).

(** Trace::load, Trace.hpp:384-414 *)
Definition load_trace : load (trace N) := fun s =>
  s <- load_class CTrace s ;;
  ' (n1, s) <- load_N 64 s ;;
  ' (n2, s) <- load_N 32 s ;;
  ' (n3, s) <- load_N 32 s ;;
  _ <- reserve n1 s ;; _ <- reserve n2 s ;; _ <- reserve n3 s ;;
  ' (points, s) <- load_list load_point fuel n1 s ;;
  ' (names, s) <- load_list load_string fuel n2 s ;;
  ' (types, s) <- load_list load_type fuel n3 s ;;
  Ok (mkTr names types points, s).

(** TraceDB::load, TraceDB.hpp:83-96 *)
Definition load_db : load (list (trace N)) := fun s =>
  s <- load_class CDb s ;;
  ' (n, s) <- load_N 64 s ;;
  _ <- reserve n s ;;
  load_list load_trace fuel n s.

(** basic_text_iarchive::init: the signature must be right and the version not
    newer than the library's. *)
Definition load_header (ver : N) (s : lst) : outcome lst :=
  ' (x, s) <- load_string s ;;
  if bytes_eqb x signature then
    ' (v, s) <- load_N 16 s ;;
    if ver <? v then Throw EArchive else Ok s
  else Throw EArchive.
End Load.

(** deserialize_trace_db, trace-db.cpp:173-183.  The argument is a C string.
    An exception leaves an extern "C" function that the Lisp runtime called: no
    handler is found and std::terminate ends the process. *)
Definition deserialize_trace_db (ok : N -> bool) (ver : N) (txt : list byte) : outcome db :=
  let t := c_string txt in
  let fuel := S (Datatypes.length t) in
  match (s <- load_header ok ver (mkL (mkI t false false) arch0) ;; load_db ok fuel s) with
  | Ok (ts, _) => Ok (mkDB (map (fun t => (t, [])) ts) (lenN ts) 0)
  | Throw _ => Abort
  | UB k => UB k
  | Abort => Abort
  | Diverge => Diverge
  end.
