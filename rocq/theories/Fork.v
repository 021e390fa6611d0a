(** Instrumented programs that fork: several processes write to one log.

    Models the effects of instrumentation/c-cpp.lisp:101-283 (the functions that
    write the log) and 299-342 (__bi_setup) when the program calls fork().  The
    FILE that the log is written to has a buffer in each process, the file
    behind it is shared; the mutex lives in the memory of each process.
    glibc's stdio (fully buffered stream) and the system calls fork, write and
    exit are modelled from their documentation. *)
From Verif Require Import Base Types Instr InstrRun.

(** ** The stream *)

(** fputc, fputs, fwrite on a stream with a buffer of [B] bytes that holds
    [buf]: the write(2) calls made, and the new contents of the buffer.  The
    buffer is filled; if not everything fits it is written out, then the whole
    blocks of the rest are written directly, the remainder is kept
    (c-cpp.lisp:142-150, 163-164, 169, 190-248, 264-268, 276-278 call these functions). *)
Definition fput (B : N) (buf bs : list byte) : list (list byte) * list byte :=
  let room := B - lenN buf in
  if lenN bs <=? room then ([], buf ++ bs)
  else
    let rest := dropN room bs in
    let direct := lenN rest - lenN rest mod B in
    ((buf ++ takeN room bs) :: (if direct =? 0 then [] else [takeN direct rest]), dropN direct rest).

(** fflush (c-cpp.lisp:170), and what exit() does to every stream. *)
Definition flush (buf : list byte) : list (list byte) :=
  match buf with [] => [] | _ => [buf] end.

(** ** Processes *)

(** What a thread does: an action of the inserted code, fork() (the child goes
    on with [child]), or exit() / returning from main. *)
Inductive pact :=
| PDo (a : action)
| PFork (child : list pact)
| PExit.

(** A process: the buffer of its FILE, the write(2) calls that a stdio call in
    progress still has to make, the owner of its mutex, its threads. *)
Record proc := mkPr {
  q_buf : list byte;
  q_out : list (list byte);
  q_lock : option nat;
  q_threads : list (list pact)
}.

(** The log file and the processes. *)
Record fstate := mkFs { f_file : list byte; f_procs : list proc }.

(** Who does what: process [i] runs, forks, exits, dies of a signal or _exit. *)
Inductive flabel := LRun (i : nat) | LFork (i : nat) | LExit (i : nat) | LDie (i : nat).

(** One step.  A write(2) of at most [P] bytes is atomic (PIPE_BUF for a pipe),
    a longer one may be split.  A thread in a stdio call keeps the others of its
    process from going on.  fork() copies the calling thread, the buffer and the
    mutex: if another thread owns the mutex, the owner does not exist in the
    child (thread number 1 of a process with one thread).  Simplified: exit()
    stops the other threads at once. *)
Inductive fstep (B P : N) : fstate -> flabel -> fstate -> Prop :=
| fs_write : forall file procs i p w1 w2 ws,
    nth_error procs i = Some p -> q_out p = (w1 ++ w2) :: ws -> w1 <> [] -> (lenN (w1 ++ w2) <= P -> w2 = []) ->
    fstep B P (mkFs file procs) (LRun i)
      (mkFs (file ++ w1) (update procs i (mkPr (q_buf p) (flush w2 ++ ws) (q_lock p) (q_threads p))))
| fs_lock : forall file procs i p j r,
    nth_error procs i = Some p -> q_out p = [] -> nth_error (q_threads p) j = Some (PDo ALock :: r) -> q_lock p = None ->
    fstep B P (mkFs file procs) (LRun i)
      (mkFs file (update procs i (mkPr (q_buf p) [] (Some j) (update (q_threads p) j r))))
| fs_unlock : forall file procs i p j r,
    nth_error procs i = Some p -> q_out p = [] -> nth_error (q_threads p) j = Some (PDo AUnlock :: r) ->
    fstep B P (mkFs file procs) (LRun i)
      (mkFs file (update procs i (mkPr (q_buf p) [] None (update (q_threads p) j r))))
| fs_put : forall file procs i p j bs r,
    nth_error procs i = Some p -> q_out p = [] -> nth_error (q_threads p) j = Some (PDo (AWrite bs) :: r) ->
    fstep B P (mkFs file procs) (LRun i)
      (mkFs file (update procs i (mkPr (snd (fput B (q_buf p) bs)) (fst (fput B (q_buf p) bs)) (q_lock p) (update (q_threads p) j r))))
| fs_flush : forall file procs i p j r,
    nth_error procs i = Some p -> q_out p = [] -> nth_error (q_threads p) j = Some (PDo AFlush :: r) ->
    fstep B P (mkFs file procs) (LRun i)
      (mkFs file (update procs i (mkPr [] (flush (q_buf p)) (q_lock p) (update (q_threads p) j r))))
| fs_fork : forall file procs i p j child r,
    nth_error procs i = Some p -> q_out p = [] -> nth_error (q_threads p) j = Some (PFork child :: r) ->
    fstep B P (mkFs file procs) (LFork i)
      (mkFs file (update procs i (mkPr (q_buf p) [] (q_lock p) (update (q_threads p) j r)) ++
                  [mkPr (q_buf p) [] (match q_lock p with None => None | Some o => Some (if Nat.eqb o j then 0%nat else 1%nat) end) [child]]))
| fs_exit : forall file procs i p j r,
    nth_error procs i = Some p -> q_out p = [] -> nth_error (q_threads p) j = Some (PExit :: r) ->
    fstep B P (mkFs file procs) (LExit i) (mkFs file (update procs i (mkPr [] (flush (q_buf p)) None [])))
| fs_die : forall file procs i p,
    nth_error procs i = Some p ->
    fstep B P (mkFs file procs) (LDie i) (mkFs file (update procs i (mkPr [] [] None []))).

(** __bi_setup (c-cpp.lisp:312-339) runs before main: the header is written to
    the stream, not flushed. *)
Fixpoint feed (B : N) (file buf : list byte) (l : list action) : list byte * list byte :=
  match l with
  | [] => (file, buf)
  | AWrite bs :: r => feed B (file ++ concat (fst (fput B buf bs))) (snd (fput B buf bs)) r
  | _ :: r => feed B file buf r
  end.
Definition fstart (B : N) (names : list name) (types : list tdesc) (ths : list (list pact)) : fstate :=
  let s := feed B [] [] (write_trace_header names types) in
  mkFs (fst s) [mkPr (snd s) [] None ths].
