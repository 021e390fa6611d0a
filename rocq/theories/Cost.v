(** The functions of MemoryMap (SkipList.v) with a count of the comparisons
    they make between the key of a node and the key looked for
    (MemoryMap.hpp:43, 49, 66, 82, 102).  Besides these comparisons an
    operation does a constant amount of work for each of its at most 32
    levels. *)
From Verif Require Import Base SkipList.

(** while (test (current->next[i]->key)) current = current->next[i];
    MemoryMap.hpp:43-44, 82-84, 102-104; every evaluation of the test counts. *)
Fixpoint walk_n (fuel : nat) (sl : skiplist) (i : nat) (test : N -> bool) (cur : ptr)
  : outcome (ptr * nat) :=
  match fuel with
  | O => Diverge
  | S f =>
      nx <- next_of sl cur i ;;
      k <- key_of sl nx ;;
      if test k then ' (c, n) <- walk_n f sl i test nx ;; Ok (c, S n) else Ok (cur, 1%nat)
  end.

(** Loop of skipListFind, MemoryMap.hpp:101-105. *)
Fixpoint find_loop_n (sl : skiplist) (key : N) (i : nat) (cur : ptr) : outcome (ptr * nat) :=
  match i with
  | O => Ok (cur, 0%nat)
  | S i' =>
      ' (cur', n) <- walk_n (fuel_of sl) sl i (fun k => k <=? key) cur ;;
      ' (c, n') <- find_loop_n sl key i' cur' ;;
      Ok (c, n + n')%nat
  end.

(** skipListFind, MemoryMap.hpp:95-110. *)
Definition skip_list_find_n (sl : skiplist) (key : N) : outcome (option nat * nat) :=
  if key =? max64 then Ok (None, 0%nat)
  else
    ' (cur, n) <- find_loop_n sl key (sl_height sl) Head ;;
    match cur with
    | Head => Ok (None, n)
    | Nd id => Ok (Some id, n)
    end.

(** First loop of skipListRemove, MemoryMap.hpp:42-46. *)
Fixpoint remove_search_n (sl : skiplist) (key : N) (i : nat) (cur : ptr)
  : outcome (ptr * list ptr * nat) :=
  match i with
  | O => Ok (cur, [], 0%nat)
  | S i' =>
      ' (cur', n) <- walk_n (fuel_of sl) sl i (fun k => k <? key) cur ;;
      ' (c, ups, n') <- remove_search_n sl key i' cur' ;;
      Ok (c, ups ++ [cur'], n + n')%nat
  end.

(** skipListRemove, MemoryMap.hpp:38-62. *)
Definition skip_list_remove_n (sl : skiplist) (key : N) : outcome (skiplist * nat) :=
  ' (cur, ups, n) <- remove_search_n sl key (sl_height sl) Head ;;
  target <- next_of sl cur 1 ;;
  k <- key_of sl target ;;
  if k =? key then
    sl1 <- unlink_loop sl 1 ups target ;;
    sl2 <- free_node sl1 target ;;
    h <- shrink_loop sl2 (sl_height sl2) ;;
    Ok (set_height sl2 h, S n)
  else Ok (sl, S n).

(** Insertion loop, MemoryMap.hpp:81-90. *)
Fixpoint insert_loop_n (sl : skiplist) (key : N) (new : ptr) (level i : nat) (cur : ptr)
  : outcome (skiplist * nat) :=
  match i with
  | O => Ok (sl, 0%nat)
  | S i' =>
      ' (cur', n) <- walk_n (fuel_of sl) sl i (fun k => k <? key) cur ;;
      sl' <- (if Nat.leb i level then
                q <- next_of sl cur' i ;;
                sl1 <- set_next sl new i q ;;
                set_next sl1 cur' i new
              else Ok sl) ;;
      ' (r, n') <- insert_loop_n sl' key new level i' cur' ;;
      Ok (r, n + n')%nat
  end.

(** The else branch of skipListUpdate, MemoryMap.hpp:69-91. *)
Definition skip_list_insert_n (sl : skiplist) (key value : N) (level : nat) : outcome (skiplist * nat) :=
  let grow := Nat.ltb (sl_height sl) level in
  let height := if grow then S (sl_height sl) else sl_height sl in
  let level := if grow then height else level in
  let id := sl_fresh sl in
  let sl1 := mkSL height (sl_head sl)
               (heap_set (sl_heap sl) id (Some (mkSnode key value (repeat None (S level)))))
               (S id) in
  insert_loop_n sl1 key (Nd id) level height Head.

(** skipListUpdate, MemoryMap.hpp:64-93. *)
Definition skip_list_update_n (coins : nat -> bool) (sl : skiplist) (pos : nat) (key value : N)
  : outcome (skiplist * nat * nat) :=
  ' (existing, n) <- skip_list_find_n sl key ;;
  match existing with
  | Some id =>
      k <- key_of sl (Nd id) ;;
      if k =? key then
        sl' <- set_value sl id value ;; Ok (sl', pos, S n)
      else
        let '(level, pos') := random_level coins pos in
        ' (sl', n') <- skip_list_insert_n sl key value level ;; Ok (sl', pos', S n + n')%nat
  | None =>
      let '(level, pos') := random_level coins pos in
      ' (sl', n') <- skip_list_insert_n sl key value level ;; Ok (sl', pos', n + n')%nat
  end.

(** updateMemoryMap, MemoryMap.hpp:150-156 *)
Definition mm_update_n (coins : nat -> bool) (m : memory_map) (addr size : N)
  : outcome (memory_map * nat) :=
  if size =? 0 then
    ' (sl, n) <- skip_list_remove_n (mm_sl m) addr ;; Ok (mkMM sl (mm_pos m), n)
  else
    ' (sl, pos, n) <- skip_list_update_n coins (mm_sl m) (mm_pos m) addr size ;;
    Ok (mkMM sl pos, n).

(** computeBufferSize, MemoryMap.hpp:160-173 *)
Definition mm_compute_n (m : memory_map) (addr : N) : outcome (N * nat) :=
  ' (result, n) <- skip_list_find_n (mm_sl m) addr ;;
  match result with
  | None => Ok (max64, n)
  | Some id =>
      match sl_heap (mm_sl m) id with
      | None => UB UDangling
      | Some nd =>
          let region_end := add64 (sn_key nd) (sn_value nd) in
          if addr <=? region_end then Ok (region_end - addr, n) else Ok (max64, n)
      end
  end.

(** A sequence of updateMemoryMap calls. *)
Fixpoint mm_run_n (coins : nat -> bool) (m : memory_map) (h : list (N * N)) : outcome (memory_map * nat) :=
  match h with
  | [] => Ok (m, 0%nat)
  | (a, s) :: r =>
      ' (m', n) <- mm_update_n coins m a s ;;
      ' (m'', n') <- mm_run_n coins m' r ;;
      Ok (m'', n + n')%nat
  end.
