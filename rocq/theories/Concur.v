(** Model of several threads calling add_trace, and reading, on one database. *)
From Verif Require Import Base Types Stream SkipList Reader.

(** ** Reading a trace with the static variable of TracePoint::read

    TracePoint.hpp:292-298: the variable [value] is static, so it is shared by
    all threads; everything else that reading works on belongs to the thread
    (the pools of shared objects are locked by boost::flyweight, and rand()
    only gives each thread other coins).  A program is what the thread still
    has to do: [Put d] stores the bytes that BINARY_READ got at the front of
    the variable, [Get] loads it for aux.push_back. *)
Inductive rprog (A : Type) : Type :=
| Fin (o : outcome A)
| Put (d : list byte) (k : rprog A)
| Get (k : N -> rprog A).
Arguments Fin {A}.
Arguments Put {A}.
Arguments Get {A}.

Fixpoint rbind {A B} (p : rprog A) (f : A -> rprog B) : rprog B :=
  match p with
  | Fin (Ok a) => f a
  | Fin (Throw e) => Fin (Throw e)
  | Fin (UB u) => Fin (UB u)
  | Fin Abort => Fin Abort
  | Fin Diverge => Fin Diverge
  | Put d k => Put d (rbind k f)
  | Get k => Get (fun v => rbind (k v) f)
  end.

(** The static variable after bytes were stored at its front. *)
Definition overwrite (old : N) (d : list byte) : N := le_val (d ++ dropN (lenN d) (le_bytes 8 old)).

(** One iteration of the loop of TracePoint::read, TracePoint.hpp:263-302: as
    [read_entry], except that an AUXILIARY entry goes through the static
    variable. *)
Definition read_entry_s (ok : alloc) (M : map_ops) (names : list name) (types : list tdesc)
  (map : mo_state M) (acc : pacc) (s : istream) : rprog (bool * pacc * mo_state M * istream) :=
  match binary_read_into [x05] s with
  | Ok (x04 :: _, s1) =>
      if good s1 then
        rbind (Fin (binary_read 8 s1)) (fun '(d, s2) =>
          Put d (Get (fun v =>
            Fin (Ok (true, mkA (a_stmt acc) (a_sizes acc) (a_vars acc) (a_aux acc ++ [v]), map, s2)))))
      else Fin (read_entry ok M names types map acc s)
  | _ => Fin (read_entry ok M names types map acc s)
  end.

(** The loop, TracePoint.hpp:263-302 *)
Fixpoint read_entries_s (fuel : nat) (ok : alloc) (M : map_ops) (names : list name) (types : list tdesc)
  (map : mo_state M) (acc : pacc) (s : istream) : rprog (pacc * mo_state M * istream) :=
  match fuel with
  | O => Fin Diverge
  | S fuel' =>
      rbind (read_entry_s ok M names types map acc s) (fun '(again, acc', map', s') =>
        if (again : bool) then read_entries_s fuel' ok M names types map' acc' s'
        else Fin (Ok (acc', map', s')))
  end.

(** TracePoint::read, TracePoint.hpp:252-311 *)
Definition read_point_s (ok : alloc) (M : map_ops) (counter : N) (names : list name) (types : list tdesc)
  (map : mo_state M) (s : istream) : rprog (point (option N) * mo_state M * istream) :=
  rbind (read_entries_s (S (S (length (s_rest s)))) ok M names types map pacc0 s) (fun '(acc, map', s') =>
    Fin (Ok (mkP counter (a_stmt acc) (a_sizes acc) (a_vars acc) (a_aux acc), map', s'))).

(** Loop over the points, Trace.hpp:85-91 *)
Fixpoint read_points_s (fuel : nat) (ok : alloc) (M : map_ops) (max i : N) (names : list name)
  (types : list tdesc) (map : mo_state M) (s : istream) : rprog (list (point (option N)) * istream) :=
  if good s && ((i <? max) || (max =? 0)) then
    match fuel with
    | O => Fin Diverge
    | S fuel' =>
        rbind (read_point_s ok M i names types map s) (fun '(p, map', s1) =>
          rbind (read_points_s fuel' ok M max (i + 1) names types map' s1) (fun '(ps, s2) =>
            Fin (Ok (if good s1 then p :: ps else ps, s2))))
    end
  else Fin (Ok ([], s)).

(** Trace::read, Trace.hpp:51-98 *)
Definition read_trace_s (ok : alloc) (M : map_ops) (max : N) (s : istream) : rprog (trace (option N)) :=
  rbind (Fin (read_names ok s)) (fun '(names, s1) =>
    rbind (Fin (read_types ok s1)) (fun '(types, s2) =>
      rbind (read_points_s (S (S (length (s_rest s2)))) ok M max 0 names types (mo_new M) s2) (fun '(points, _) =>
        Fin (Ok (mkTr names types points))))).

(** ** The database shared by the threads *)
Definition tr := trace (option N).

(** [sh_static]: the static variable.  [sh_lock]: the thread that holds
    m_mutex.  The rest is m_traces (TraceDB.hpp:26): the buffers allocated so
    far with the elements constructed in them ([None]: deallocated), the index
    of the current one, size and capacity. *)
Record shared := mkSh {
  sh_static : N;
  sh_lock : option nat;
  sh_bufs : list (option (list tr));
  sh_start : nat;
  sh_len : nat;
  sh_cap : nat
}.

(** What a user calls: add_trace (trace-db.cpp:28-52) on a file; or a function
    that looks at the trace with a given index: getTraces()[index]
    (trace-db.cpp:146-162 and TraceDB::query, TraceDB.hpp:62-76). *)
Record input := mkIn {
  in_file : option (list byte * tail_kind);    (* None: openWithTimeout throws *)
  in_max : N;
  in_ok : alloc;
  in_coins : nat -> bool;
  in_pos : nat
}.
Inductive task := CallAdd (c : input) | CallGet (i : nat).

(** The position of a thread.  The trace is the local variable [trace] of
    add_trace (trace-db.cpp:41). *)
Inductive tstate :=
| TRead (p : rprog tr)               (* up to the end of trace-db.cpp:41 *)
| TWait (t : tr)                     (* at lock_guard, TraceDB.hpp:50 *)
| TPush (t : tr)                     (* lock taken; push_back, TraceDB.hpp:51, to be called *)
| TStored (t : tr)                   (* element constructed, end pointer not yet moved *)
| TCopied (t : tr) (b : nat)         (* no room: larger buffer b filled *)
| TFreed (t : tr) (b : nat)          (* old elements destroyed, old buffer deallocated *)
| TUnlock (t : tr)                   (* push_back done, lock still held *)
| TDone (r : option tr)              (* add_trace returned: true having added a trace, or false *)
| TGet (i : nat)                     (* about to look at trace i *)
| TGot (b i : nat)                   (* has checked the size and loaded the pointer to the elements *)
| TSaw (t : tr)                      (* has seen trace i *)
| TCrash (o : outcome unit).         (* undefined behaviour or failed assertion *)

Definition set_nth {A} (l : list A) (i : nat) (x : A) : list A := firstn i l ++ x :: skipn (S i) l.

(** The elements in a buffer. *)
Definition elems (sh : shared) (b : nat) : option (list tr) :=
  match nth_error (sh_bufs sh) b with Some (Some l) => Some l | _ => None end.

(** One step of thread [i]; [None]: it cannot go on (finished, or waiting for
    the mutex).  [grow]: the capacity after a reallocation.  A failing
    allocation of the vector is not modelled. *)
Definition tstep (grow : nat -> nat) (i : nat) (sh : shared) (th : tstate) : option (shared * tstate) :=
  match th with
  | TRead (Fin (Ok t)) => Some (sh, TWait t)
  | TRead (Fin (Throw _)) => Some (sh, TDone None)          (* caught, trace-db.cpp:47-51 *)
  | TRead (Fin (UB u)) => Some (sh, TCrash (UB u))
  | TRead (Fin Abort) => Some (sh, TCrash Abort)
  | TRead (Fin Diverge) => None
  | TRead (Put d k) =>
      Some (mkSh (overwrite (sh_static sh) d) (sh_lock sh) (sh_bufs sh) (sh_start sh) (sh_len sh) (sh_cap sh), TRead k)
  | TRead (Get k) => Some (sh, TRead (k (sh_static sh)))
  | TWait t =>
      match sh_lock sh with
      | None => Some (mkSh (sh_static sh) (Some i) (sh_bufs sh) (sh_start sh) (sh_len sh) (sh_cap sh), TPush t)
      | Some _ => None
      end
  | TPush t =>
      match elems sh (sh_start sh) with
      | Some l =>
          let l' := firstn (sh_len sh) l ++ [t] in
          if Nat.ltb (sh_len sh) (sh_cap sh) then
            Some (mkSh (sh_static sh) (sh_lock sh) (set_nth (sh_bufs sh) (sh_start sh) (Some l')) (sh_start sh) (sh_len sh) (sh_cap sh),
                  TStored t)
          else
            Some (mkSh (sh_static sh) (sh_lock sh) (sh_bufs sh ++ [Some l']) (sh_start sh) (sh_len sh) (sh_cap sh),
                  TCopied t (length (sh_bufs sh)))
      | None => Some (sh, TCrash (UB UDangling))
      end
  | TStored t =>
      Some (mkSh (sh_static sh) (sh_lock sh) (sh_bufs sh) (sh_start sh) (S (sh_len sh)) (sh_cap sh), TUnlock t)
  | TCopied t b =>
      Some (mkSh (sh_static sh) (sh_lock sh) (set_nth (sh_bufs sh) (sh_start sh) None) (sh_start sh) (sh_len sh) (sh_cap sh),
            TFreed t b)
  | TFreed t b =>
      Some (mkSh (sh_static sh) (sh_lock sh) (sh_bufs sh) b (S (sh_len sh)) (grow (sh_cap sh)), TUnlock t)
  | TUnlock t =>
      Some (mkSh (sh_static sh) None (sh_bufs sh) (sh_start sh) (sh_len sh) (sh_cap sh), TDone (Some t))
  | TGet j => if Nat.ltb j (sh_len sh) then Some (sh, TGot (sh_start sh) j) else Some (sh, TCrash Abort)
  | TGot b j =>
      match elems sh b with
      | Some l => match nth_error l j with Some t => Some (sh, TSaw t) | None => Some (sh, TCrash (UB UOob)) end
      | None => Some (sh, TCrash (UB UDangling))
      end
  | TDone _ | TSaw _ | TCrash _ => None
  end.

Definition state : Type := shared * list tstate.

(** Thread i makes a step, if it can. *)
Definition pick_thread (grow : nat -> nat) (i : nat) (st : state) : state :=
  let '(sh, ts) := st in
  match nth_error ts i with
  | None => st
  | Some th => match tstep grow i sh th with
               | None => st
               | Some (sh', th') => (sh', set_nth ts i th')
               end
  end.

(** A schedule says which thread makes the next step. *)
Fixpoint exec (grow : nat -> nat) (sched : list nat) (st : state) : state :=
  match sched with
  | [] => st
  | i :: r => exec grow r (pick_thread grow i st)
  end.

(** The call of add_trace at its start: openWithTimeout (trace-db.cpp:39) and
    the constructor Trace(istream, max) *)
Definition start_input (c : input) : rprog tr :=
  match in_file c with
  | None => Fin (Throw ECannotOpen)
  | Some (bs, t) => read_trace_s (in_ok c) (skip_map (in_coins c) (in_pos c)) (in_max c) (open_stream bs t)
  end.
Definition start_task (c : task) : tstate :=
  match c with CallAdd c => TRead (start_input c) | CallGet i => TGet i end.

(** A database that holds [l], with the given capacity; the static variable
    holds anything (it is zero at first). *)
Definition start_state (static : N) (l : list tr) (cap : nat) (cs : list task) : state :=
  (mkSh static None [Some l] 0 (length l) cap, map start_task cs).

(** m_traces as seen when no call is active *)
Definition contents (sh : shared) : list tr :=
  match elems sh (sh_start sh) with Some l => firstn (sh_len sh) l | None => [] end.
