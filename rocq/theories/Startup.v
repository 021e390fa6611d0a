(** Model: how an instrumented program starts and ends.  The setup function
    __bi_setup (instrumentation/c-cpp.lisp:312-339, inserted by
    initialize-tracing, lines 1109-1131) is an ELF constructor; the rest is
    what the C library does with initialisation functions on GNU/Linux. *)
From Coq Require Import Permutation Sorted.
From Verif Require Import Base Types Instr InstrRun InstrSpec.

(** What code does as far as logging is concerned: __bi_setup, a pass through an
    instrumented place.  (The passes of several threads in the order of their
    points in the log, InstrConc.v.) *)
Inductive step := SSetup | SPass (e : event).

(** __attribute__((constructor(101))), line 312 *)
Definition setup_priority : N := 101.

(** An initialisation function: its priority (constructor(n), init_priority(n)),
    none for plain constructors and initialisers of C++ variables; what it does. *)
Record initfn := mkInit { in_priority : option N; in_steps : list step }.
Definition setup_fn : initfn := mkInit (Some setup_priority) [SSetup].

(** The linker sorts functions with priorities (.init_array.N), those without
    come last (.init_array); the order of equal ones depends on the order of
    files on the command line and on the compiler: any order here. *)
Definition not_after (f g : initfn) : Prop :=
  match in_priority f, in_priority g with
  | Some p, Some q => p <= q
  | Some _, None => True
  | None, Some _ => False
  | None, None => True
  end.
Definition init_order (fs o : list initfn) : Prop := Permutation fs o /\ StronglySorted not_after o.

(** A program: what .preinit_array does; the functions of the shared libraries,
    in the order in which these are initialised; the functions of the executable,
    without __bi_setup; main; functions called at exit (atexit, destructors of
    C++ variables, destructor functions), after which the C library flushes
    and closes its streams. *)
Record program := mkProg {
  g_preinit : list step;
  g_libs : list (list initfn);
  g_inits : list initfn;
  g_main : list step;
  g_exit : list step }.

(** What happens when it is run; [o] and [ls]: orders of the initialisation
    functions of the executable and of each library. *)
Definition steps_of (g : program) (ls : list (list initfn)) (o : list initfn) : list step :=
  g_preinit g ++ concat (map (fun l => concat (map in_steps l)) ls) ++ concat (map in_steps o) ++ g_main g ++ g_exit g.
Definition runs (g : program) (s : list step) : Prop :=
  exists ls o, Forall2 init_order (g_libs g) ls /\ init_order (setup_fn :: g_inits g) o /\ s = steps_of g ls o.

(** Running it.  Before __bi_setup the variables for the log and the lock are
    null (lines 309-310): __write_trace_id (lines 156-165) calls
    pthread_mutex_lock with a null pointer.  __bi_setup opens the log and writes
    the header. *)
Fixpoint run (names : list name) (types : list tdesc) (code : list (list istmt)) (log : option (list byte)) (s : list step)
  : outcome (option (list byte)) :=
  match s with
  | [] => Ok log
  | SSetup :: r => run names types code (Some (written (write_trace_header names types))) r
  | SPass e :: r =>
      match log with
      | None => UB UNull
      | Some out => a <- event_run code e ;; run names types code (Some (out ++ written a)) r
      end
  end.
