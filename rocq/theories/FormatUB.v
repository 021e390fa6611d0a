(** Specification of the inputs on which reading a trace is undefined
    behaviour, in terms of the format ([FormatSpec]). *)
From Verif Require Import Base Types MemMapSpec FormatSpec.

(** The name dictionary of n > 0 characters is cut short (the tail of the
    buffer is uninitialised), or its last character is not NUL (the scan runs
    past the buffer). *)
Definition ub_names (ok : N -> bool) (bs : list byte) (k : ub) : Prop :=
  exists n r, bs = le_bytes 8 n ++ r /\ 0 < n /\ n < 2 ^ 64 /\ ok n = true /\
    (lenN r < n /\ k = UUninit \/
     exists p b q, r = p ++ [b] ++ q /\ lenN (p ++ [b]) = n /\ b <> x00 /\ k = UOob).

(** Causes at an entry that starts at [bs], after the buffer records [h]. *)
Inductive ub_entry (ok : N -> bool) (names : list name) (types : list tdesc) (h : history)
  (bs : list byte) : ub -> Prop :=
| ub_wide : forall nm ty t r,
    (* an unsigned/float/pointer type wider than the 8-byte union *)
    bs = x02 :: le_bytes 4 nm ++ le_bytes 4 ty ++ r ->
    nm < lenN names -> nm < 2 ^ 32 -> ty < 2 ^ 32 -> nthN types ty = Some t ->
    t_fmt t = UNSIGNED \/ t_fmt t = FLOAT \/ t_fmt t = POINTER ->
    8 < t_size t -> 8 < lenN r -> ub_entry ok names types h bs UOob
| ub_null : forall nm ty t r size r',
    (* a blob for which malloc fails *)
    bs = x02 :: le_bytes 4 nm ++ le_bytes 4 ty ++ r ->
    nm < lenN names -> nm < 2 ^ 32 -> ty < 2 ^ 32 -> nthN types ty = Some t -> t_fmt t = BLOB ->
    (t_size t <> 0 /\ size = t_size t /\ r' = r \/
     t_size t = 0 /\ size < 2 ^ 32 /\ r = le_bytes 4 size ++ r') ->
    size <> 0 -> ok size = false -> r' <> [] -> ub_entry ok names types h bs UNull
| ub_sentinel : forall r,
    (* free of the sentinel address that was not allocated; the size may be cut short *)
    bs = x03 :: le_bytes 8 (2 ^ 64 - 1) ++ r -> le_val (takeN 8 r) = 0 ->
    (sentinel_allocs h <= sentinel_frees h)%nat -> ub_entry ok names types h bs UBadFree.

(** Reading at most [max] points (0: all) of the file [bs] is undefined. *)
Inductive ub_file (ok : N -> bool) (max : N) (bs : list byte) (k : ub) : Prop :=
| ubf_names : ub_names ok bs k -> ub_file ok max bs k
| ubf_entry : forall F es r,
    file_wf ok F -> Forall (entry_wf ok (f_names F) (f_types F)) es ->
    sentinel_safe (records (concat (f_points F) ++ es)) ->
    bs = enc_file F ++ enc_entries (f_types F) es ++ r ->
    max = 0 \/ lenN (f_points F) < max ->
    ub_entry ok (f_names F) (f_types F) (records (concat (f_points F) ++ es)) r k ->
    ub_file ok max bs k.
