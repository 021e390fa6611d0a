(** Model of openWithTimeout (Utils.hpp:46-88) and of the opening and closing of
    files in read_trace (trace.cpp:7-28) and add_trace (trace-db.cpp:28-52). *)
From Verif Require Import Base.

(** What the operating system does during one call (parameters of the model). *)
Record os := mkOS {
  os_fd : option N;        (* open(2): a descriptor, or -1 *)
  os_ready : option N;     (* microseconds until the file is readable (or at its end); None: never *)
  os_signal : option N     (* microseconds until select(2) is interrupted by a signal; None: never *)
}.

(** Open descriptors with their O_NONBLOCK flag, and the clock. *)
Record sys := mkSys { s_fds : list (N * bool); s_clock : N }.

Definition second : N := 1000000.

(** FD_SETSIZE *)
Definition fd_setsize : N := 1024.

(** select(fd + 1, &set, NULL, NULL, timeout) with one watched descriptor, or
    with none if fd = -1 (then nfds is 0).  Gives the return value and the time
    it takes; [None]: it never returns.  A negative timeout is EINVAL. *)
Definition earlier (a b : option (N * Z)) : option (N * Z) :=
  match a, b with
  | None, x => x
  | x, None => x
  | Some x, Some y => if fst x <=? fst y then a else b
  end.
Definition select_ (e : os) (timeout : option Z) : option (N * Z) :=
  match timeout with
  | Some t => if (t <? 0)%Z then Some (0, (-1)%Z)
              else earlier (match os_fd e, os_ready e with Some _, Some r => Some (r, 1%Z) | _, _ => None end)
                     (earlier (match os_signal e with Some s => Some (s, (-1)%Z) | None => None end)
                        (Some (Z.to_N t * second, 0%Z)))
  | None => earlier (match os_fd e, os_ready e with Some _, Some r => Some (r, 1%Z) | _, _ => None end)
              (match os_signal e with Some s => Some (s, (-1)%Z) | None => None end)
  end.

(** close(fd); closing -1 has no effect. *)
Definition close_ (fds : list (N * bool)) (fd : option N) : list (N * bool) :=
  match fd with Some n => filter (fun e => negb (fst e =? n)) fds | None => fds end.

(** Conversion of the uint64_t timeout to the (signed 64-bit) tv_sec. *)
Definition tv_sec (timeout : N) : Z := s64 timeout.

(** openWithTimeout, Utils.hpp:46-88.  FD_SET(fd, &set) (line 60) is only
    defined for 0 <= fd < FD_SETSIZE; [lenient] says that FD_SET(-1, &set)
    happens to have no effect on anything relevant.  The result is the
    descriptor owned by the returned stream. *)
Definition open_with_timeout (lenient : bool) (e : os) (s : sys) (timeout : N) : outcome N * sys :=
  let s1 := match os_fd e with Some n => mkSys ((n, true) :: s_fds s) (s_clock s) | None => s end in
  if match os_fd e with Some n => n <? fd_setsize | None => lenient end then
    match select_ e (if timeout =? 0 then None else Some (tv_sec timeout)) with
    | None => (Diverge, s1)
    | Some (dt, result) =>
        let s2 := mkSys (s_fds s1) (s_clock s1 + dt) in
        match os_fd e, result with
        | Some n, 1%Z =>
            (* fcntl(fd, F_SETFL, flags & ~O_NONBLOCK) *)
            (Ok n, mkSys (map (fun x => if fst x =? n then (n, false) else x) (s_fds s2)) (s_clock s2))
        | None, 1%Z => (UB UUninit, s2)     (* a stream on -1; select_ excludes this *)
        | fd, _ => (Throw ECannotOpen, mkSys (close_ (s_fds s2) fd) (s_clock s2))
        end
    end
  else (UB UOob, s1).

(** read_trace and add_trace: open, read the trace, delete the stream buffer
    (which closes the descriptor) whether or not reading throws.  [body]: the
    outcome of reading and what is done with the trace; it takes [dur]. *)
Definition with_file {A} (lenient : bool) (e : os) (s : sys) (timeout : N) (body : outcome A) (dur : N) : outcome (option A) * sys :=
  match open_with_timeout lenient e s timeout with
  | (Ok n, s1) =>
      let s2 := mkSys (s_fds s1) (s_clock s1 + dur) in
      let s3 := mkSys (close_ (s_fds s2) (Some n)) (s_clock s2) in
      match body with
      | Ok x => (Ok (Some x), s3)
      | Throw _ => (Ok None, s3)
      | UB k => (UB k, s2)
      | Abort => (Abort, s2)
      | Diverge => (Diverge, s2)
      end
  | (Throw _, s1) => (Ok None, s1)       (* fpstream is still NULL: nothing to delete *)
  | (UB k, s1) => (UB k, s1)
  | (Abort, s1) => (Abort, s1)
  | (Diverge, s1) => (Diverge, s1)
  end.

(** A sequence of such calls. *)
Fixpoint with_files {A} (lenient : bool) (s : sys) (l : list (os * N * outcome A * N)) : outcome (list (option A)) * sys :=
  match l with
  | [] => (Ok [], s)
  | (e, timeout, body, dur) :: r =>
      match with_file lenient e s timeout body dur with
      | (Ok x, s1) => match with_files lenient s1 r with
                      | (Ok xs, s2) => (Ok (x :: xs), s2)
                      | (Throw k, s2) => (Throw k, s2)
                      | (UB k, s2) => (UB k, s2)
                      | (Abort, s2) => (Abort, s2)
                      | (Diverge, s2) => (Diverge, s2)
                      end
      | (Throw k, s1) => (Throw k, s1)
      | (UB k, s1) => (UB k, s1)
      | (Abort, s1) => (Abort, s1)
      | (Diverge, s1) => (Diverge, s1)
      end
  end.
