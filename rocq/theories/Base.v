(** Base definitions shared by the whole model: outcomes of C++ code,
    machine words, little-endian coding of words, N-indexed list helpers. *)
From Coq Require Export List Arith NArith ZArith Lia Bool.
From Coq Require Export Init.Byte Strings.Byte.
Export ListNotations.
Open Scope N_scope.

(** ** Outcomes *)

(** Exceptions thrown by the reader.
    [EEof]: TraceEOFError, all others: TraceError (TraceError.hpp) or
    std::bad_alloc.  Messages are represented by distinct constructors. *)
Inductive err : Set :=
| EEof                (* Utils.hpp:24   TraceEOFError *)
| EBadState           (* Utils.hpp:27   "Trace stream in bad state." *)
| EInvalidTag         (* TracePoint.hpp:271,300 *)
| EInvalidFormat      (* TypeDescription.hpp:59, TraceVarInfo.hpp:181 *)
| EInvalidTypeIndex   (* TraceVarInfo.hpp:101 *)
| EInvalidNameIndex   (* TraceVarInfo.hpp:105, TypeDescription.hpp:69 *)
| EInvalidSignedSize  (* TraceVarInfo.hpp:144 *)
| EBadAlloc           (* operator new / vector::reserve *)
| ECannotOpen         (* Utils.hpp:86 *)
| ELisp               (* a condition signalled by the Lisp client, see Lisp.v *)
| EArchive.           (* boost::archive::archive_exception, see Archive.v *)

(** Kinds of undefined behaviour distinguished by the model. *)
Inductive ub : Set :=
| UOob        (* access past the end of an array / object *)
| UUninit     (* use of an uninitialised value as pointer or loop bound *)
| UDangling   (* access to a freed object *)
| UBadFree    (* delete of something that was not allocated with new *)
| UNull.      (* dereference of a null pointer *)

Inductive outcome (A : Type) : Type :=
| Ok (a : A)
| Throw (e : err)
| UB (k : ub)
| Abort             (* failed assert *)
| Diverge.          (* fuel exhausted: the loop does not terminate *)
Arguments Ok {A} a.
Arguments Throw {A} e.
Arguments UB {A} k.
Arguments Abort {A}.
Arguments Diverge {A}.

Definition bind {A B} (o : outcome A) (f : A -> outcome B) : outcome B :=
  match o with
  | Ok a => f a
  | Throw e => Throw e
  | UB k => UB k
  | Abort => Abort
  | Diverge => Diverge
  end.

Notation "x <- o ;; k" := (bind o (fun x => k))
  (at level 61, o at next level, right associativity).
Notation "' p <- o ;; k" := (bind o (fun p => k))
  (at level 61, p pattern, o at next level, right associativity).

Definition is_ok {A} (o : outcome A) : bool :=
  match o with Ok _ => true | _ => false end.

(** ** Machine words *)

Definition two8  : N := 256.
Definition two32 : N := 4294967296.
Definition two63 : N := 9223372036854775808.
Definition two64 : N := 18446744073709551616.
(** UINT64_MAX *)
Definition max64 : N := 18446744073709551615.

(** uint64_t arithmetic wraps. *)
Definition add64 (a b : N) : N := (a + b) mod two64.

(** Interpretation of a 64-bit pattern as int64_t. *)
Definition s64 (u : N) : Z :=
  if u <? two63 then Z.of_N u else (Z.of_N u - Z.of_N two64)%Z.

(** ** Bytes and little-endian words (the modelled machine is x86-64) *)

Definition byte_of_N (n : N) : byte :=
  match Byte.of_N (n mod two8) with Some b => b | None => x00 end.
Definition N_of_byte (b : byte) : N := Byte.to_N b.

(** Little-endian bytes of [x], [n] of them (the low n bytes). *)
Fixpoint le_bytes (n : nat) (x : N) : list byte :=
  match n with
  | O => []
  | S m => byte_of_N x :: le_bytes m (x / two8)
  end.

(** Value of a little-endian byte string. *)
Fixpoint le_val (l : list byte) : N :=
  match l with
  | [] => 0
  | b :: r => N_of_byte b + two8 * le_val r
  end.

(** ** Lists indexed by N *)

Definition lenN {A} (l : list A) : N := N.of_nat (length l).

Fixpoint takeN {A} (n : N) (l : list A) : list A :=
  match l with
  | [] => []
  | x :: r => if n =? 0 then [] else x :: takeN (N.pred n) r
  end.

Fixpoint dropN {A} (n : N) (l : list A) : list A :=
  match l with
  | [] => []
  | x :: r => if n =? 0 then x :: r else dropN (N.pred n) r
  end.

Fixpoint nthN {A} (l : list A) (n : N) : option A :=
  match l with
  | [] => None
  | x :: r => if n =? 0 then Some x else nthN r (N.pred n)
  end.
