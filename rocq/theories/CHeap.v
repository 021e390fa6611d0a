(** A heap of C blocks: malloc, calloc, free, loads and stores. *)
From Verif Require Import Base.

Section Heap.
Variable cell : Type.

(** Live blocks by address.  A block is an array of elements; an element that
    has not been written is [None]. *)
Definition block := list (option cell).
Definition heap := list (N * block).

Definition h_find (h : heap) (a : N) : option block :=
  match find (fun e => fst e =? a) h with Some e => Some (snd e) | None => None end.
Definition h_remove (h : heap) (a : N) : heap := filter (fun e => negb (fst e =? a)) h.

(** What malloc does: [ok bytes] says whether a request succeeds, [fresh h]
    which address it returns. *)
Record allocator := mkAlloc { al_ok : N -> bool; al_fresh : heap -> N }.

(** malloc(bytes) of an array with elements of [esize] bytes.  NULL is 0. *)
Definition malloc (al : allocator) (h : heap) (bytes esize : N) : N * heap :=
  if al_ok al bytes then
    (al_fresh al h, (al_fresh al h, repeat None (N.to_nat (bytes / esize))) :: h)
  else (0, h).

(** calloc(n, esize); the zeroes are not modelled (the callers overwrite every
    element before it is read), n * esize is assumed not to overflow. *)
Definition calloc (al : allocator) (h : heap) (n esize : N) : N * heap := malloc al h (n * esize) esize.

Definition free (h : heap) (a : N) : outcome heap :=
  if a =? 0 then Ok h
  else match h_find h a with Some _ => Ok (h_remove h a) | None => UB UBadFree end.

Fixpoint set_nth (b : block) (i : N) (c : cell) : block :=
  match b with
  | [] => []
  | x :: r => if i =? 0 then Some c :: r else x :: set_nth r (N.pred i) c
  end.

Definition h_set (h : heap) (a : N) (b : block) : heap :=
  map (fun e => if fst e =? a then (a, b) else e) h.

(** a[i] = c *)
Definition store (h : heap) (a i : N) (c : cell) : outcome heap :=
  if a =? 0 then UB UNull
  else match h_find h a with
       | None => UB UDangling
       | Some b => if i <? lenN b then Ok (h_set h a (set_nth b i c)) else UB UOob
       end.

(** a[i] *)
Definition load (h : heap) (a i : N) : outcome cell :=
  if a =? 0 then UB UNull
  else match h_find h a with
       | None => UB UDangling
       | Some b => match nthN b i with
                   | None => UB UOob
                   | Some None => UB UUninit
                   | Some (Some c) => Ok c
                   end
       end.

(** An allocator returns an address that is neither NULL nor in use. *)
Definition allocates (al : allocator) : Prop := forall h, al_fresh al h <> 0 /\ h_find h (al_fresh al h) = None.
End Heap.
Arguments h_find {cell}.
Arguments h_remove {cell}.
Arguments h_set {cell}.
Arguments set_nth {cell}.
Arguments malloc {cell}.
Arguments calloc {cell}.
Arguments free {cell}.
Arguments store {cell}.
Arguments load {cell}.
Arguments allocates {cell}.
Arguments al_ok {cell}.
Arguments al_fresh {cell}.
Arguments mkAlloc {cell}.
