(** Abstract memory map: a list of (address, size) sorted by address.  It is
    the functional reference implementation that the skip list refines, and
    what the reader model is proved against.  Entries for the sentinel
    address 2^64-1 can occur repeatedly, at the end of the list. *)
From Verif Require Import Base.

Definition amap := list (N * N).

Fixpoint am_insert (m : amap) (k v : N) : amap :=
  match m with
  | [] => [(k, v)]
  | (a, w) :: r =>
      if a <? k then (a, w) :: am_insert r k v
      else if (a =? k) && negb (k =? max64) then (k, v) :: r
      else (k, v) :: (a, w) :: r
  end.

Fixpoint am_remove (m : amap) (k : N) : outcome amap :=
  match m with
  | [] => if k =? max64 then UB UBadFree else Ok []
  | (a, w) :: r =>
      if a <? k then (r' <- am_remove r k ;; Ok ((a, w) :: r'))
      else if a =? k then Ok r
      else Ok ((a, w) :: r)
  end.

Definition am_update (m : amap) (a s : N) : outcome amap :=
  if s =? 0 then am_remove m a else Ok (am_insert m a s).

(** Last entry with address <= a. *)
Fixpoint am_find (m : amap) (a : N) : option (N * N) :=
  match m with
  | [] => None
  | (k, v) :: r =>
      if k <=? a then
        match am_find r a with Some x => Some x | None => Some (k, v) end
      else None
  end.

Definition am_compute (m : amap) (a : N) : N :=
  if a =? max64 then max64
  else match am_find m a with
       | None => max64
       | Some (k, v) =>
           let e := add64 k v in
           if a <=? e then e - a else max64
       end.

Fixpoint am_run (m : amap) (h : list (N * N)) : outcome amap :=
  match h with
  | [] => Ok m
  | (a, s) :: r => m' <- am_update m a s ;; am_run m' r
  end.
