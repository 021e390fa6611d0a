(** Model: instrumented programs whose writes fail, for example because the disk is full.
    The code of instrumentation/c-cpp.lisp:125-280 looks at no result of fwrite, fputs,
    fputc or fflush, so that threads go on as in InstrRun.v; what differs is the log. *)
From Verif Require Import Base Types Stream SkipList MemMapSpec Reader FormatSpec Instr InstrRun InstrSpec.

(** The mutex, all bytes handed to the FILE so far, those in its buffer, those in the
    file, whether a write has failed, and what the threads still have to do. *)
Record fstate := mkFS {
  f_lock : option nat;
  f_all : list byte;
  f_buf : list byte;
  f_file : list byte;
  f_failed : bool;
  f_threads : list (list action)
}.

(** A write of the buffer: the first [k] bytes reach the file.  If these are not all, the
    write has failed; the rest is lost (glibc and musl empty the buffer then).  A disk
    that was full may have room again ([back]) or not.  The buffer may be written out at
    any time, also in parts; [whole]: the buffer is so large that it is written out by
    fflush only, and each write succeeds as a whole or not at all. *)
Section Disk.
Variables back whole : bool.

Inductive fstep : fstate -> fstate -> Prop :=
| fs_lock : forall all b f x ths i r,
    nth_error ths i = Some (ALock :: r) ->
    fstep (mkFS None all b f x ths) (mkFS (Some i) all b f x (update ths i r))
| fs_unlock : forall lk all b f x ths i r,
    nth_error ths i = Some (AUnlock :: r) ->
    fstep (mkFS lk all b f x ths) (mkFS None all b f x (update ths i r))
| fs_write : forall lk all b f x ths i bs r,
    nth_error ths i = Some (AWrite bs :: r) ->
    fstep (mkFS lk all b f x ths) (mkFS lk (all ++ bs) (b ++ bs) f x (update ths i r))
| fs_flush : forall lk all b f x ths i r,              (* fflush that succeeds *)
    nth_error ths i = Some (AFlush :: r) -> x = false \/ back = true ->
    fstep (mkFS lk all b f x ths) (mkFS lk all [] (f ++ b) x (update ths i r))
| fs_flush_fails : forall lk all b f x ths i r k,      (* fflush that fails *)
    nth_error ths i = Some (AFlush :: r) -> k < lenN b -> k = 0 \/ (whole = false /\ (x = false \/ back = true)) ->
    fstep (mkFS lk all b f x ths) (mkFS lk all [] (f ++ takeN k b) true (update ths i r))
| fs_flush_nothing : forall lk all f x ths i r,        (* fflush with an empty buffer *)
    nth_error ths i = Some (AFlush :: r) ->
    fstep (mkFS lk all [] f x ths) (mkFS lk all [] f x (update ths i r))
| fs_spill : forall lk all b f x ths k,
    whole = false -> k <= lenN b -> x = false \/ back = true ->
    fstep (mkFS lk all b f x ths) (mkFS lk all (dropN k b) (f ++ takeN k b) x ths)
| fs_spill_fails : forall lk all b f x ths k,
    whole = false -> k < lenN b -> k = 0 \/ x = false \/ back = true ->
    fstep (mkFS lk all b f x ths) (mkFS lk all [] (f ++ takeN k b) true ths).

Inductive fsteps : fstate -> fstate -> Prop :=
| fr_refl : forall s, fsteps s s
| fr_step : forall s s' s'', fsteps s s' -> fstep s' s'' -> fsteps s s''.
End Disk.

(** Start of the program, with the header in the buffer ([rstart] of InstrRun.v). *)
Definition fstart (names : list name) (types : list tdesc) (ths : list (list action)) : fstate :=
  mkFS None (written (write_trace_header names types)) (written (write_trace_header names types)) [] false ths.

(** ** Specification *)

(** Some of the elements of a list, in the same order. *)
Inductive sublist {A} : list A -> list A -> Prop :=
| sub_nil : sublist [] []
| sub_skip : forall x k l, sublist k l -> sublist k (x :: l)
| sub_keep : forall x k l, sublist k l -> sublist (x :: k) (x :: l).

(** The first [n] points that the library reads from [bs] (TraceOptions.h: [max] = [n])
    are the first [n] of the passes [order]. *)
Definition first_passes (sites : list site) (names : list name) (types : list tdesc) (bs : list byte) (n : nat) (order : list event) : Prop :=
  forall ok coins pos t, (forall m, m <= lenN bs -> ok m = true) ->
  exists tr, read_trace ok (skip_map coins pos) (N.of_nat n) (open_stream bs t) = Ok tr /\ tr_names tr = names /\ tr_types tr = types /\
    Forall2 (event_shows sites tr) (firstn n order) (tr_points tr).
