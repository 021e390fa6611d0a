(** Model of the Lisp objects that stand for databases (binary-trace-db.lisp:242-303
    and 617-664): their foreign pointers, finalizers, wrappers, storing and restoring
    with cl-store, and the garbage collector.

    Simplified: restoring a stored wrapper is taken to call its own restore method
    (cl-store decides that from a type code).

    Not modelled here: what the queries compute (Lisp.v) and how a file becomes a
    trace (CApi.v).  The collector is one that reclaims any set of unreachable
    objects at any time and then runs their finalizers. *)
From Verif Require Import Base Types CApi CApiSpec Archive.

Section LispObj.
Variable A : Type.            (* metadata *)
Variable ok : N -> bool.      (* allocations while a text is read *)
Variable ver : N.             (* version of the archive library *)
Variable grow : N -> N.

(** binary-trace-db.lisp:242-248 and 617-626: db-pointer, trace-metadata and, for a
    wrapper, file-id and parent-db. *)
Record obj := mkObj { o_ptr : nat; o_meta : list A; o_view : option (N * nat) }.

(** Lisp objects by identity, C++ databases by address, the objects the program
    holds, the objects with a finalizer, and the number of texts that
    serialize_trace_db allocated (no function frees one). *)
Record world := mkW {
  w_obj : nat -> option obj; w_nobj : nat;
  w_db : nat -> option db; w_ndb : nat;
  w_roots : list nat; w_fin : nat -> bool; w_texts : nat
}.
Definition upd {B} (f : nat -> B) (k : nat) (v : B) : nat -> B := fun i => if Nat.eqb i k then v else f i.
Definition empty_world : world := mkW (fun _ => None) 0 (fun _ => None) 0 [] (fun _ => false) 0.

(** What cl-store writes: the text and the metadata, or nothing. *)
Inductive stored := SDb (txt : list byte) (meta : list A) | SNil.
Inductive op :=
| OMake                                            (* (make-instance 'binary-trace-db) *)
| ORestrict (i : nat) (file : N)                   (* restrict-to-file *)
| OAdd (i : nat) (t : option (trace N)) (m : A)    (* add-trace of a file that gives trace t, or none *)
| OPoints (i : nat) (t : trace N) (m : A)          (* add-trace-points of a list that gives trace t *)
| OCount (i : nat)                                 (* n-traces; stands for every function that reads the database *)
| OStore (i : nat)
| ORestore (s : stored)
| ODrop (i : nat)                                  (* the program forgets an object *)
| OCollect (dead : list nat).                      (* garbage collection *)
Inductive result := RObj (i : nat) | RAdded (b : bool) | RCount (n : N) | RStored (s : stored) | RNil | RUnit.

(** the database behind an object; a dangling foreign pointer is undefined behaviour *)
Definition behind (w : world) (i : nat) : outcome (obj * db) :=
  match w_obj w i with
  | Some o => match w_db w (o_ptr o) with Some d => Ok (o, d) | None => UB UDangling end
  | None => UB UDangling
  end.
(** trace-metadata, binary-trace-db.lisp:663-664; [fuel]: wrappers around wrappers *)
Fixpoint metadata (fuel : nat) (w : world) (i : nat) : list A :=
  match fuel with
  | O => []
  | S f =>
      match w_obj w i with
      | None => []
      | Some o => match o_view o, o_meta o with
                  | Some (_, p), [] => metadata f w p
                  | _, m => m
                  end
      end
  end.
Definition meta_of (w : world) (i : nat) : list A := metadata (S (w_nobj w)) w i.

(** a new object, held by the program *)
Definition add_obj (w : world) (o : obj) (fin : bool) : result * world :=
  (RObj (w_nobj w),
   mkW (upd (w_obj w) (w_nobj w) (Some o)) (S (w_nobj w)) (w_db w) (w_ndb w)
       (w_nobj w :: w_roots w) (upd (w_fin w) (w_nobj w) fin) (w_texts w)).
(** create_db / new TraceDB *)
Definition add_db (w : world) (d : db) : nat * world :=
  (w_ndb w, mkW (w_obj w) (w_nobj w) (upd (w_db w) (w_ndb w) (Some d)) (S (w_ndb w)) (w_roots w) (w_fin w) (w_texts w)).
Definition set_db (w : world) (p : nat) (d : option db) : world :=
  mkW (w_obj w) (w_nobj w) (upd (w_db w) p d) (w_ndb w) (w_roots w) (w_fin w) (w_texts w).
Definition set_obj (w : world) (i : nat) (o : option obj) : world :=
  mkW (upd (w_obj w) i o) (w_nobj w) (w_db w) (w_ndb w) (w_roots w) (w_fin w) (w_texts w).

(** initialize-instance, binary-trace-db.lisp:250-254: only an object made without a
    pointer gets a database of its own and a finalizer *)
Definition make (w : world) (p : option nat) (m : list A) : result * world :=
  match p with
  | Some p => add_obj w (mkObj p m None) false
  | None => let '(p, w1) := add_db w create_db in add_obj w1 (mkObj p m None) true
  end.

(** an object is reclaimed; its finalizer, (c-free-db (db-pointer instance)) *)
Definition reclaim (w : world) (i : nat) : outcome world :=
  match w_obj w i with
  | None => Ok w
  | Some o =>
      w1 <- (if w_fin w i then
               match w_db w (o_ptr o) with
               | Some _ => Ok (set_db w (o_ptr o) None)
               | None => UB UBadFree
               end
             else Ok w) ;;
      Ok (mkW (upd (w_obj w1) i None) (w_nobj w1) (w_db w1) (w_ndb w1) (w_roots w1) (upd (w_fin w1) i false) (w_texts w1))
  end.
Fixpoint reclaim_all (w : world) (l : list nat) : outcome world :=
  match l with
  | [] => Ok w
  | i :: r => w1 <- reclaim w i ;; reclaim_all w1 r
  end.

Fixpoint remove_one (i : nat) (l : list nat) : list nat :=
  match l with
  | [] => []
  | x :: r => if Nat.eqb x i then r else x :: remove_one i r
  end.

Definition exec (w : world) (c : op) : outcome (result * world) :=
  match c with
  | OMake => Ok (make w None [])
  | ORestrict i f =>   (* 641-646 *)
      match w_obj w i with
      | Some o => Ok (add_obj w (mkObj (o_ptr o) [] (Some (f, i))) false)
      | None => UB UDangling
      end
  | OAdd i t m =>      (* 285-303 *)
      ' (o, d) <- behind w i ;;
      match t with
      | None => Ok (RAdded false, w)
      | Some tr =>
          let w1 := set_db w (o_ptr o) (Some (push_trace grow d tr)) in
          Ok (RAdded true, set_obj w1 i (Some (mkObj (o_ptr o) (meta_of w i ++ [m]) (o_view o))))
      end
  | OPoints i tr m =>  (* 305-358: the metadata goes to the front *)
      ' (o, d) <- behind w i ;;
      let w1 := set_db w (o_ptr o) (Some (push_trace grow d tr)) in
      Ok (RUnit, set_obj w1 i (Some (mkObj (o_ptr o) (m :: meta_of w i) (o_view o))))
  | OCount i =>        (* 275-277 *)
      ' (o, d) <- behind w i ;; Ok (RCount (lenN (db_traces d)), w)
  | OStore i =>        (* 259-264 and 633-636 *)
      match w_obj w i with
      | Some o =>
          match o_view o with
          | Some _ => Ok (RStored SNil, w)
          | None =>
              ' (o, d) <- behind w i ;;
              Ok (RStored (SDb (serialize_trace_db ver d) (meta_of w i)),
                  mkW (w_obj w) (w_nobj w) (w_db w) (w_ndb w) (w_roots w) (w_fin w) (S (w_texts w)))
          end
      | None => UB UDangling
      end
  | ORestore s =>      (* 266-273 and 638-639 *)
      match s with
      | SNil => Ok (RNil, w)
      | SDb [] m => Ok (make w None m)
      | SDb txt m =>
          d <- deserialize_trace_db ok ver txt ;;
          let '(p, w1) := add_db w d in Ok (make w1 (Some p) m)
      end
  | ODrop i => Ok (RUnit, mkW (w_obj w) (w_nobj w) (w_db w) (w_ndb w) (remove_one i (w_roots w)) (w_fin w) (w_texts w))
  | OCollect dead => w' <- reclaim_all w dead ;; Ok (RUnit, w')
  end.
End LispObj.
Arguments mkObj {A}. Arguments o_ptr {A}. Arguments o_meta {A}. Arguments o_view {A}.
Arguments w_obj {A}. Arguments w_nobj {A}. Arguments w_db {A}. Arguments w_ndb {A}.
Arguments w_roots {A}. Arguments w_fin {A}. Arguments w_texts {A}.
Arguments SDb {A}. Arguments SNil {A}. Arguments OMake {A}. Arguments ORestrict {A}. Arguments OAdd {A}.
Arguments OCount {A}. Arguments OPoints {A}. Arguments OStore {A}. Arguments ORestore {A}. Arguments ODrop {A}. Arguments OCollect {A}.
Arguments RObj {A}. Arguments RAdded {A}. Arguments RCount {A}. Arguments RStored {A}. Arguments RNil {A}. Arguments RUnit {A}.
Arguments upd {B}. Arguments empty_world {A}. Arguments behind {A}. Arguments metadata {A}. Arguments meta_of {A}.
Arguments reclaim {A}. Arguments reclaim_all {A}. Arguments exec {A}. Arguments make {A}. Arguments add_obj {A}.
Arguments add_db {A}. Arguments set_db {A}. Arguments set_obj {A}. Arguments mkW {A}.
