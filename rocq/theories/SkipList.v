(** Heap-level model of class MemoryMap (cffi-interface/trace-db/MemoryMap.hpp).

    The heap maps node identities to nodes; a node and its [next] array are
    allocated and freed together (they always are in the code: lines 75-78 and
    54-55, 125-126), so one heap cell stands for both blocks.  [m_head] is a
    member of the MemoryMap object and not a heap cell; its [next] array has
    SKIP_LIST_MAX_HEIGHT + 1 entries. *)
From Verif Require Import Base.

(** MemoryMap.hpp:17 *)
Definition max_height : nat := 32.

(** A pointer stored in a [next] array: &m_head or a heap node. *)
Inductive ptr : Set := Head | Nd (id : nat).

Definition ptr_eqb (p q : ptr) : bool :=
  match p, q with
  | Head, Head => true
  | Nd i, Nd j => Nat.eqb i j
  | _, _ => false
  end.

(** struct snode, MemoryMap.hpp:19-24.  [None] in [sn_next] is an entry that
    was not yet written (new snode*[...] leaves it uninitialised). *)
Record snode := mkSnode {
  sn_key : N;
  sn_value : N;
  sn_next : list (option ptr)
}.

(** Fields of MemoryMap, MemoryMap.hpp:29-30, plus the heap of live nodes.
    [sl_fresh] is the identity of the next allocation. *)
Record skiplist := mkSL {
  sl_height : nat;
  sl_head : list (option ptr);
  sl_heap : nat -> option snode;
  sl_fresh : nat
}.

Definition heap_set (h : nat -> option snode) (i : nat) (n : option snode) :=
  fun j => if Nat.eqb j i then n else h j.

Fixpoint list_set {A} (l : list A) (i : nat) (x : A) : list A :=
  match l, i with
  | [], _ => []
  | _ :: r, O => x :: r
  | y :: r, S j => y :: list_set r j x
  end.

Definition read_arr (l : list (option ptr)) (i : nat) : outcome ptr :=
  match nth_error l i with
  | None => UB UOob
  | Some None => UB UUninit
  | Some (Some q) => Ok q
  end.

(** p->next[i] *)
Definition next_of (sl : skiplist) (p : ptr) (i : nat) : outcome ptr :=
  match p with
  | Head => read_arr (sl_head sl) i
  | Nd id =>
      match sl_heap sl id with
      | None => UB UDangling
      | Some n => read_arr (sn_next n) i
      end
  end.

(** p->key *)
Definition key_of (sl : skiplist) (p : ptr) : outcome N :=
  match p with
  | Head => Ok max64            (* MemoryMap.hpp:114 *)
  | Nd id =>
      match sl_heap sl id with
      | None => UB UDangling
      | Some n => Ok (sn_key n)
      end
  end.

(** p->next[i] = q *)
Definition set_next (sl : skiplist) (p : ptr) (i : nat) (q : ptr) : outcome skiplist :=
  match p with
  | Head =>
      if Nat.ltb i (length (sl_head sl)) then
        Ok (mkSL (sl_height sl) (list_set (sl_head sl) i (Some q)) (sl_heap sl) (sl_fresh sl))
      else UB UOob
  | Nd id =>
      match sl_heap sl id with
      | None => UB UDangling
      | Some n =>
          if Nat.ltb i (length (sn_next n)) then
            Ok (mkSL (sl_height sl) (sl_head sl)
                  (heap_set (sl_heap sl) id
                     (Some (mkSnode (sn_key n) (sn_value n) (list_set (sn_next n) i (Some q)))))
                  (sl_fresh sl))
          else UB UOob
      end
  end.

(** delete[] p->next; delete p;  (MemoryMap.hpp:54-55, 125-126) *)
Definition free_node (sl : skiplist) (p : ptr) : outcome skiplist :=
  match p with
  | Head => UB UBadFree
  | Nd id =>
      match sl_heap sl id with
      | None => UB UBadFree
      | Some _ => Ok (mkSL (sl_height sl) (sl_head sl) (heap_set (sl_heap sl) id None) (sl_fresh sl))
      end
  end.

Definition set_height (sl : skiplist) (h : nat) : skiplist :=
  mkSL h (sl_head sl) (sl_heap sl) (sl_fresh sl).

(** while (test (current->next[i]->key)) current = current->next[i];
    (MemoryMap.hpp:43-44, 82-84, 102-104).  Fuel: one more than the number of
    nodes ever allocated. *)
Fixpoint walk (fuel : nat) (sl : skiplist) (i : nat) (test : N -> bool) (cur : ptr)
  : outcome ptr :=
  match fuel with
  | O => Diverge
  | S f =>
      nx <- next_of sl cur i ;;
      k <- key_of sl nx ;;
      if test k then walk f sl i test nx else Ok cur
  end.

Definition fuel_of (sl : skiplist) : nat := S (sl_fresh sl).

(** Loop of skipListFind, MemoryMap.hpp:101-105 ([i] counts down from m_height). *)
Fixpoint find_loop (sl : skiplist) (key : N) (i : nat) (cur : ptr) : outcome ptr :=
  match i with
  | O => Ok cur
  | S i' =>
      cur' <- walk (fuel_of sl) sl i (fun k => k <=? key) cur ;;
      find_loop sl key i' cur'
  end.

(** skipListFind, MemoryMap.hpp:95-110; [None] is NULL. *)
Definition skip_list_find (sl : skiplist) (key : N) : outcome (option nat) :=
  if key =? max64 then Ok None
  else
    cur <- find_loop sl key (sl_height sl) Head ;;
    match cur with
    | Head => Ok None
    | Nd id => Ok (Some id)
    end.

(** First loop of skipListRemove, MemoryMap.hpp:42-46.  Returns [current] and
    update[1], ..., update[i]. *)
Fixpoint remove_search (sl : skiplist) (key : N) (i : nat) (cur : ptr)
  : outcome (ptr * list ptr) :=
  match i with
  | O => Ok (cur, [])
  | S i' =>
      cur' <- walk (fuel_of sl) sl i (fun k => k <? key) cur ;;
      '(c, ups) <- remove_search sl key i' cur' ;;
      Ok (c, ups ++ [cur'])
  end.

(** Unlinking loop, MemoryMap.hpp:49-53; [ups] = update[i], update[i+1], ... *)
Fixpoint unlink_loop (sl : skiplist) (i : nat) (ups : list ptr) (target : ptr)
  : outcome skiplist :=
  match ups with
  | [] => Ok sl
  | u :: rest =>
      q <- next_of sl u i ;;
      if ptr_eqb q target then
        t <- next_of sl target i ;;
        sl' <- set_next sl u i t ;;
        unlink_loop sl' (S i) rest target
      else Ok sl
  end.

(** while (m_height > 1 && m_head.next[m_height] == &m_head) m_height--;
    (MemoryMap.hpp:57-59) *)
Fixpoint shrink_loop (sl : skiplist) (h : nat) : outcome nat :=
  match h with
  | O => Ok O
  | S h' =>
      if Nat.ltb 1 h then
        q <- next_of sl Head h ;;
        if ptr_eqb q Head then shrink_loop sl h' else Ok h
      else Ok h
  end.

(** skipListRemove, MemoryMap.hpp:38-62. *)
Definition skip_list_remove (sl : skiplist) (key : N) : outcome skiplist :=
  '(cur, ups) <- remove_search sl key (sl_height sl) Head ;;
  target <- next_of sl cur 1 ;;
  k <- key_of sl target ;;
  if k =? key then
    sl1 <- unlink_loop sl 1 ups target ;;
    sl2 <- free_node sl1 target ;;
    h <- shrink_loop sl2 (sl_height sl2) ;;
    Ok (set_height sl2 h)
  else Ok sl.

(** random_level, MemoryMap.hpp:31-36.  [coins n] tells whether the n-th call
    of rand() returns less than RAND_MAX/2; [pos] counts the calls made. *)
Fixpoint random_level_loop (n level : nat) (coins : nat -> bool) (pos : nat) : nat * nat :=
  match n with
  | O => (level, S pos)
  | S n' => if coins pos then random_level_loop n' (S level) coins (S pos)
            else (level, S pos)
  end.
Definition random_level (coins : nat -> bool) (pos : nat) : nat * nat :=
  random_level_loop (max_height - 1) 1 coins pos.

(** Insertion loop, MemoryMap.hpp:81-90. *)
Fixpoint insert_loop (sl : skiplist) (key : N) (new : ptr) (level i : nat) (cur : ptr)
  : outcome skiplist :=
  match i with
  | O => Ok sl
  | S i' =>
      cur' <- walk (fuel_of sl) sl i (fun k => k <? key) cur ;;
      sl' <- (if Nat.leb i level then
                q <- next_of sl cur' i ;;
                sl1 <- set_next sl new i q ;;
                set_next sl1 cur' i new
              else Ok sl) ;;
      insert_loop sl' key new level i' cur'
  end.

(** existing->value = value; (MemoryMap.hpp:67) *)
Definition set_value (sl : skiplist) (id : nat) (v : N) : outcome skiplist :=
  match sl_heap sl id with
  | None => UB UDangling
  | Some n => Ok (mkSL (sl_height sl) (sl_head sl)
                    (heap_set (sl_heap sl) id (Some (mkSnode (sn_key n) v (sn_next n))))
                    (sl_fresh sl))
  end.

(** The else branch of skipListUpdate, MemoryMap.hpp:69-91, for a level
    already drawn. *)
Definition skip_list_insert (sl : skiplist) (key value : N) (level : nat) : outcome skiplist :=
  let grow := Nat.ltb (sl_height sl) level in
  let height := if grow then S (sl_height sl) else sl_height sl in
  let level := if grow then height else level in
  let id := sl_fresh sl in
  let sl1 := mkSL height (sl_head sl)
               (heap_set (sl_heap sl) id (Some (mkSnode key value (repeat None (S level)))))
               (S id) in
  insert_loop sl1 key (Nd id) level height Head.

(** skipListUpdate, MemoryMap.hpp:64-93. *)
Definition skip_list_update (coins : nat -> bool) (sl : skiplist) (pos : nat) (key value : N)
  : outcome (skiplist * nat) :=
  existing <- skip_list_find sl key ;;
  match existing with
  | Some id =>
      k <- key_of sl (Nd id) ;;
      if k =? key then
        sl' <- set_value sl id value ;; Ok (sl', pos)
      else
        let '(level, pos') := random_level coins pos in
        sl' <- skip_list_insert sl key value level ;; Ok (sl', pos')
  | None =>
      let '(level, pos') := random_level coins pos in
      sl' <- skip_list_insert sl key value level ;; Ok (sl', pos')
  end.

(** construct, MemoryMap.hpp:112-119.  The heap and the identity counter are
    those before the call. *)
Definition construct (heap : nat -> option snode) (fresh : nat) : skiplist :=
  mkSL 1 (repeat (Some Head) (S max_height)) heap fresh.

(** Loop of destruct, MemoryMap.hpp:122-128. *)
Fixpoint destruct_loop (fuel : nat) (sl : skiplist) (cur : ptr) : outcome skiplist :=
  match fuel with
  | O => Diverge
  | S f =>
      if ptr_eqb cur Head then Ok sl
      else
        nx <- next_of sl cur 1 ;;
        sl' <- free_node sl cur ;;
        destruct_loop f sl' nx
  end.

(** destruct, MemoryMap.hpp:121-130: returns the remaining heap. *)
Definition destruct_map (sl : skiplist) : outcome (nat -> option snode) :=
  first <- next_of sl Head 1 ;;
  sl' <- destruct_loop (fuel_of sl) sl first ;;
  Ok (sl_heap sl').

(** ** Public interface.  State: the object and the number of rand() calls. *)

Record memory_map := mkMM { mm_sl : skiplist; mm_pos : nat }.

(** MemoryMap(), MemoryMap.hpp:132-134 *)
Definition mm_new (pos : nat) : memory_map :=
  mkMM (construct (fun _ => None) 0) pos.

(** updateMemoryMap, MemoryMap.hpp:150-156 *)
Definition mm_update (coins : nat -> bool) (m : memory_map) (addr size : N)
  : outcome memory_map :=
  if size =? 0 then
    sl <- skip_list_remove (mm_sl m) addr ;; Ok (mkMM sl (mm_pos m))
  else
    '(sl, pos) <- skip_list_update coins (mm_sl m) (mm_pos m) addr size ;;
    Ok (mkMM sl pos).

(** computeBufferSize, MemoryMap.hpp:160-173 *)
Definition mm_compute (m : memory_map) (addr : N) : outcome N :=
  result <- skip_list_find (mm_sl m) addr ;;
  match result with
  | None => Ok max64
  | Some id =>
      match sl_heap (mm_sl m) id with
      | None => UB UDangling
      | Some n =>
          let region_end := add64 (sn_key n) (sn_value n) in
          if addr <=? region_end then Ok (region_end - addr) else Ok max64
      end
  end.

(** clear, MemoryMap.hpp:144-147 *)
Definition mm_clear (m : memory_map) : outcome memory_map :=
  heap <- destruct_map (mm_sl m) ;;
  Ok (mkMM (construct heap (sl_fresh (mm_sl m))) (mm_pos m)).

(** A sequence of updateMemoryMap calls. *)
Fixpoint mm_run (coins : nat -> bool) (m : memory_map) (h : list (N * N)) : outcome memory_map :=
  match h with
  | [] => Ok m
  | (a, s) :: r => m' <- mm_update coins m a s ;; mm_run coins m' r
  end.

(** A sequence of public operations on one map. *)
Inductive mm_op := OpUpdate (addr size : N) | OpClear.
Definition mm_step (coins : nat -> bool) (m : memory_map) (o : mm_op) : outcome memory_map :=
  match o with
  | OpUpdate a s => mm_update coins m a s
  | OpClear => mm_clear m
  end.
Fixpoint mm_ops_run (coins : nat -> bool) (m : memory_map) (l : list mm_op) : outcome memory_map :=
  match l with
  | [] => Ok m
  | o :: r => m' <- mm_step coins m o ;; mm_ops_run coins m' r
  end.
