(** Model of the binary trace reader. *)
From Verif Require Import Base Types Stream SkipList AMap.

(** The memory map as the reader uses it.  Two instances: the skip list and
    the abstract map. *)
Record map_ops := mkMapOps {
  mo_state : Type;
  mo_new : mo_state;
  mo_update : mo_state -> N -> N -> outcome mo_state;
  mo_compute : mo_state -> N -> outcome N
}.

(** The MemoryMap of the code (Trace.hpp:44 m_memory_map, constructed empty
    when the Trace is constructed); [coins] are the results of rand(). *)
Definition skip_map (coins : nat -> bool) (pos : nat) : map_ops :=
  mkMapOps memory_map (mm_new pos) (mm_update coins) mm_compute.

Definition abs_map : map_ops :=
  mkMapOps amap [] am_update (fun m a => Ok (am_compute m a)).

(** Memory allocation oracle: does a request for n bytes succeed?  Used for
    new char[n], vector::reserve and malloc of blobs.  Other (small)
    allocations are assumed to succeed. *)
Definition alloc := N -> bool.

(** Names are read as C strings from the dictionary buffer,
    Trace.hpp:64-70: std::string(buf + i), skip to the terminating NUL, i++,
    until i >= n_chars.  [l] is the rest of the buffer; reading past its end
    before a NUL was found is an out-of-bounds access. *)
Fixpoint scan_names (l : list byte) (cur : list byte) : outcome (list name) :=
  match l with
  | [] => match cur with [] => Ok [] | _ => UB UOob end
  | b :: r =>
      if N_of_byte b =? 0 then
        rest <- scan_names r [] ;; Ok (rev cur :: rest)
      else scan_names r (b :: cur)
  end.

(** Name dictionary, Trace.hpp:59-73.  A short read leaves part of the buffer
    uninitialised, and the scan then runs through uninitialised memory. *)
Definition read_names (ok : alloc) (s : istream) : outcome (list name * istream) :=
  '(n_chars, s1) <- read_word 8 0 s ;;
  if 0 <? n_chars then
    if ok n_chars then
      '(d, s2) <- binary_read n_chars s1 ;;
      if lenN d <? n_chars then UB UUninit
      else names <- scan_names d [] ;; Ok (names, s2)
    else Throw EBadAlloc
  else Ok ([], s1).

(** TypeDescription::read(istream), TypeDescription.hpp:49-63. *)
Definition read_type (s : istream) : outcome (tdesc * istream) :=
  '(nm, s1) <- read_word 4 0 s ;;
  '(f, s2) <- read_word 4 (fmt_code INVALID_FORMAT) s1 ;;
  '(sz, s3) <- read_word 4 0 s2 ;;
  if fmt_code INVALID_FORMAT <=? f then Throw EInvalidFormat
  else Ok (mkT nm (fmt_of_code f) sz, s3).

(** TypeDescription::read(istream, names), TypeDescription.hpp:65-73 (not used
    by Trace::read). *)
Definition read_type_checked (names : list name) (s : istream) : outcome (tdesc * istream) :=
  '(t, s1) <- read_type s ;;
  if lenN names <=? t_name t then Throw EInvalidNameIndex else Ok (t, s1).

(** The loop over the types, Trace.hpp:79-82.  Each completed iteration
    consumes 12 bytes, so the number of remaining bytes bounds the number of
    iterations; it is used as fuel, and running out of fuel is [Diverge]
    (proved not to happen). *)
Fixpoint read_types_fuel (fuel : nat) (n : N) (s : istream) : outcome (list tdesc * istream) :=
  if n =? 0 then Ok ([], s)
  else match fuel with
       | O => Diverge
       | S f =>
           '(t, s1) <- read_type s ;;
           '(ts, s2) <- read_types_fuel f (N.pred n) s1 ;;
           Ok (t :: ts, s2)
       end.

(** Type dictionary, Trace.hpp:76-82.  sizeof(TypeDescription) = 12. *)
Definition read_types (ok : alloc) (s : istream) : outcome (list tdesc * istream) :=
  '(n_types, s1) <- read_word 4 0 s ;;
  if (n_types =? 0) || ok (12 * n_types) then
    read_types_fuel (S (S (length (s_rest s1)))) n_types s1
  else Throw EBadAlloc.

(** Sign extension of an n-byte integer to 64 bits, as performed by
    m_value.s = tmp (TraceVarInfo.hpp:114-141). *)
Definition sign_extend (n : N) (u : N) : N :=
  if u <? 2 ^ (8 * n - 1) then u else u + (2 ^ 64 - 2 ^ (8 * n)).

(** TraceBufferSize::read, TraceBufferSize.hpp:34-42. *)
Definition read_bufsz (s : istream) : outcome (bufsz * istream) :=
  '(a, s1) <- read_word 8 0 s ;;
  '(z, s2) <- read_word 8 0 s1 ;;
  Ok (mkB a z, s2).

(** Value of a variable: the switch of TraceVarInfo::read, lines 110-182.
    Returns value, final size, buffer size, has-flag. *)
Definition read_value (ok : alloc) (M : map_ops) (map : mo_state M) (f : fmt) (size : N) (s : istream)
  : outcome (value * N * N * N * istream) :=
  match f with
  | SIGNED =>
      if (size =? 1) || (size =? 2) || (size =? 4) || (size =? 8) then
        '(d, s1) <- binary_read size s ;;
        if lenN d <? size then Ok (VIndet, size, 0, 0, s1)
        else Ok (VBits (sign_extend size (le_val d)), size, 0, 0, s1)
      else Throw EInvalidSignedSize
  | UNSIGNED | FLOAT =>
      (* BINARY_READ(is, &m_value.u, m_size): the union has 8 bytes *)
      '(d, s1) <- binary_read size s ;;
      if 8 <? lenN d then UB UOob
      else Ok (VBits (le_val d), size, 0, 0, s1)
  | POINTER =>
      '(d, s1) <- binary_read size s ;;
      if 8 <? lenN d then UB UOob
      else
        b <- mo_compute M map (le_val d) ;;
        if negb (b =? max64) then Ok (VBits (le_val d), size, b, 1, s1)
        else Ok (VBits (le_val d), size, 0, 0, s1)
  | BLOB =>
      '(size', s1) <- (if size =? 0 then read_word 4 0 s else Ok (size, s)) ;;
      (* malloc, no check for NULL; nothing is stored when m_size = 0 *)
      if ok size' || (size' =? 0) then
        '(d, s2) <- binary_read size' s1 ;;
        if lenN d <? size' then Ok (VIndet, size', 0, 0, s2)
        else Ok (VBlob d, size', 0, 0, s2)
      else
        (* BINARY_READ checks the stream before it stores through NULL *)
        '(d, s2) <- binary_read size' s1 ;;
        if lenN d =? 0 then Ok (VIndet, size', 0, 0, s2) else UB UNull
  | INVALID_FORMAT => Throw EInvalidFormat
  end.

(** TraceVarInfo::read, TraceVarInfo.hpp:85-185. *)
Definition read_var (ok : alloc) (M : map_ops) (names : list name) (types : list tdesc)
  (map : mo_state M) (s : istream) : outcome (var * istream) :=
  '(nm, s1) <- read_word 4 0 s ;;
  '(ty, s2) <- read_word 4 0 s1 ;;
  match nthN types ty with
  | None => Throw EInvalidTypeIndex
  | Some t =>
      if lenN names <=? nm then Throw EInvalidNameIndex
      else
        '(v, size, b, has, s3) <- read_value ok M map (t_fmt t) (t_size t) s2 ;;
        Ok (mkV v nm ty (t_fmt t) size b has, s3)
  end.

(** State of the loop of TracePoint::read: m_statement, sizes, vars, aux. *)
Record pacc := mkA { a_stmt : option N; a_sizes : list bufsz; a_vars : list var; a_aux : list N }.
Definition pacc0 : pacc := mkA None [] [] [].

(** (char) c compared as int *)
Definition schar (b : byte) : Z :=
  if N_of_byte b <? 128 then Z.of_N (N_of_byte b) else (Z.of_N (N_of_byte b) - 256)%Z.

(** One iteration of the loop of TracePoint::read, TracePoint.hpp:263-302.
    The boolean says whether the loop goes on. *)
Definition read_entry (ok : alloc) (M : map_ops) (names : list name) (types : list tdesc)
  (map : mo_state M) (acc : pacc) (s : istream) : outcome (bool * pacc * mo_state M * istream) :=
  '(d, s1) <- binary_read_into [x05] s ;;
  let c := schar (match d with b :: _ => b | [] => x05 end) in
  if negb (good s1) || (c =? 0)%Z then Ok (false, acc, map, s1)
  else if (5 <=? c)%Z then Throw EInvalidTag
  else if (c =? 1)%Z then            (* STATEMENT_ID *)
    '(d, s2) <- binary_read 8 s1 ;;
    (* a short read leaves m_statement (partly) uninitialised *)
    let st := if lenN d <? 8 then None else Some (le_val d) in
    Ok (true, mkA st (a_sizes acc) (a_vars acc) (a_aux acc), map, s2)
  else if (c =? 3)%Z then            (* BUFFER_SIZE *)
    '(b, s2) <- read_bufsz s1 ;;
    map' <- mo_update M map (b_addr b) (b_size b) ;;
    Ok (true, mkA (a_stmt acc) (a_sizes acc ++ [b]) (a_vars acc) (a_aux acc), map', s2)
  else if (c =? 2)%Z then            (* VARIABLE *)
    '(v, s2) <- read_var ok M names types map s1 ;;
    Ok (true, mkA (a_stmt acc) (a_sizes acc) (a_vars acc ++ [v]) (a_aux acc), map, s2)
  else if (c =? 4)%Z then            (* AUXILIARY; the static variable is modelled in Concur.v *)
    '(a, s2) <- read_word 8 0 s1 ;;
    Ok (true, mkA (a_stmt acc) (a_sizes acc) (a_vars acc) (a_aux acc ++ [a]), map, s2)
  else Throw EInvalidTag.

(** The loop.  Each iteration consumes at least the tag byte, so the number
    of remaining bytes bounds the number of iterations. *)
Fixpoint read_entries (fuel : nat) (ok : alloc) (M : map_ops) (names : list name) (types : list tdesc)
  (map : mo_state M) (acc : pacc) (s : istream) : outcome (pacc * mo_state M * istream) :=
  match fuel with
  | O => Diverge
  | S fuel' =>
      '(again, acc', map', s') <- read_entry ok M names types map acc s ;;
      if (again : bool) then read_entries fuel' ok M names types map' acc' s'
      else Ok (acc', map', s')
  end.

(** TracePoint::read, TracePoint.hpp:252-311. *)
Definition read_point (ok : alloc) (M : map_ops) (counter : N) (names : list name) (types : list tdesc)
  (map : mo_state M) (s : istream) : outcome (point (option N) * mo_state M * istream) :=
  '(acc, map', s') <- read_entries (S (S (length (s_rest s)))) ok M names types map pacc0 s ;;
  Ok (mkP counter (a_stmt acc) (a_sizes acc) (a_vars acc) (a_aux acc), map', s').

(** Loop over the points, Trace.hpp:85-91. *)
Fixpoint read_points (fuel : nat) (ok : alloc) (M : map_ops) (max i : N) (names : list name)
  (types : list tdesc) (map : mo_state M) (s : istream) : outcome (list (point (option N)) * istream) :=
  if good s && ((i <? max) || (max =? 0)) then
    match fuel with
    | O => Diverge
    | S fuel' =>
        '(p, map', s1) <- read_point ok M i names types map s ;;
        '(ps, s2) <- read_points fuel' ok M max (i + 1) names types map' s1 ;;
        if good s1 then Ok (p :: ps, s2) else Ok (ps, s2)
    end
  else Ok ([], s).

(** Trace::read, Trace.hpp:51-98 (used by Trace(istream, max_points)). *)
Definition read_trace (ok : alloc) (M : map_ops) (max : N) (s : istream)
  : outcome (trace (option N)) :=
  '(names, s1) <- read_names ok s ;;
  '(types, s2) <- read_types ok s1 ;;
  '(points, _) <- read_points (S (S (length (s_rest s2)))) ok M max 0 names types (mo_new M) s2 ;;
  Ok (mkTr names types points).
