(** Model of the opening of files in sexp-trace-db.lisp: open-file-timeout (lines
    86-115), read-sexp-trace (58-63) and add-trace (117-123). *)
From Verif Require Import Base Types CApi Lisp SexpDb.

(** Times are in internal time units since the clock was read first (line 89). *)

(** The thread made at lines 90-96, left alone: when it has a descriptor for the
    file, and when and how it ends, by OPEN returning a stream or by an error,
    which it returns.  [None]: never (nobody writes to the pipe). *)
Inductive ending := GotStream | GotError.
Record opening := mkOp { op_fd : option Z; op_end : option (Z * ending) }.
Definition alive (o : opening) (t : Z) : bool :=
  match op_end o with Some (d, _) => (t <? d)%Z | None => true end.
Definition has_fd (o : opening) (t : Z) : bool :=
  match op_fd o with Some d => (d <=? t)%Z | None => false end.

(** What open-file-timeout does in the end: return the stream, return NIL, signal
    the error of OPEN, or signal the error of destroy-thread. *)
Inductive opened := RStream | RNil | RError | RDead.

(** The loop: about to call thread-alive-p (97), to read the clock (98-102), or
    to call destroy-thread (105); [fd]: a descriptor is open that no stream
    returned stands for.  (An implementation may close it when it collects the
    stream as garbage.) *)
Inductive ostate :=
| PTest (now : Z)
| PClock (now : Z)
| PKill (now : Z)
| PEnd (now : Z) (r : opened) (fd : bool).

Section Open.
Variable o : opening.
Variable timeout : option Z.     (* NIL: none *)
Variable tenth : Z.              (* 0.1 seconds *)
Variable strict : bool.          (* destroy-thread of a thread that has ended signals an error (SBCL) *)
Variable lag : Z.                (* longest time between two actions of the loop *)
Variable over : Z.               (* longest time a sleep takes too long *)

(** lines 98-102 *)
Definition remaining (now : Z) : Z := match timeout with None => tenth | Some t => (t - now)%Z end.

(** join-thread and lines 107-115 *)
Definition joined : opened :=
  match op_end o with Some (_, GotStream) => RStream | Some (_, GotError) => RError | None => RNil end.
Definition is_stream : bool := match op_end o with Some (_, GotStream) => true | _ => false end.

Inductive ostep : ostate -> ostate -> Prop :=
| os_dead : forall t, alive o t = false -> ostep (PTest t) (PEnd t joined false)
| os_alive : forall t t', alive o t = true -> (t <= t' <= t + lag)%Z -> ostep (PTest t) (PClock t')
| os_sleep : forall t t', (0 < remaining t)%Z ->                           (* lines 103-104 *)
    (t + Z.min tenth (remaining t) <= t' <= t + Z.min tenth (remaining t) + over)%Z -> ostep (PClock t) (PTest t')
| os_give_up : forall t t', (remaining t <= 0)%Z -> (t <= t' <= t + lag)%Z -> ostep (PClock t) (PKill t')
| os_kill : forall t, alive o t = true -> ostep (PKill t) (PEnd t RNil (has_fd o t))
| os_late : forall t, alive o t = false ->
    ostep (PKill t) (if strict then PEnd t RDead is_stream else PEnd t joined false).

Inductive osteps : nat -> ostate -> ostate -> Prop :=
| ot_refl : forall s, osteps 0 s s
| ot_step : forall n s s1 s2, ostep s s1 -> osteps n s1 s2 -> osteps (S n) s s2.
(** Between the first reading of the clock and the first test lies the making of
    the thread. *)
Definition polls (n : nat) (s : ostate) : Prop := exists t, (0 <= t <= lag)%Z /\ osteps n (PTest t) s.
End Open.

(** add-trace with a file: the stream that is opened is read (as in SexpDb.v) and
    closed, also if reading fails (lines 61-63); nothing is added for NIL.  The
    boolean: is a descriptor of the file still open. *)
Definition add_file (A : Type) (w : sworld A) (i : nat) (max : option N) (m : A) (r : opened) (fd : bool) (s : list sitem)
  : outcome (sworld A) * bool :=
  match r with
  | RStream => let x := add_stream A w i max s m in (x, match x with Diverge => true | _ => fd end)
  | RNil => (Ok w, fd)
  | RError | RDead => (Throw ELisp, fd)
  end.
