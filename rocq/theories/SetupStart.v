(** Specification: what the setup code does when a program starts, if all goes
    well.  Where the log goes and how the handshake file is read: Dest.v (C92). *)
From Coq Require Import Strings.String.
From Verif Require Import Base Types PrintPred Instr InstrRun CRead CParse CSem SetupRead SetupSem Dest.

Definition choice_of (g : logfile) : choice :=
  match g with
  | CRead.ToStderr => ToStderr | CRead.ToStdout => ToStdout | CRead.ToFile q => ToFile q | CRead.ToEnv v => ToEnv v | ToHandshake => ToBuffer
  end.
Definition stream_of (d : dest) : stream := match d with DStderr => StdErr | DStdout => StdOut | DFile p => FileOut p end.
(** No NUL in paths and in names and values of environment variables *)
Definition named (g : logfile) : Prop :=
  match g with CRead.ToFile p => ~ In x00 p | CRead.ToEnv v => ~ In x00 v | _ => True end.
Definition clean (env : list byte -> option (list byte)) : Prop := forall x v, env x = Some v -> ~ In x00 v.
(** The files can be opened. *)
Definition log_opens (w : world) (d : dest) : Prop := match d with DFile p => w_opens w p (text "w") = true | _ => True end.
Definition handshake_opens (w : world) (h : name) : Prop := forall p, w_env w h = Some p -> w_opens w p (text "r") = true.

Definition rounds (n : nat) (e : list event) : list event := concat (repeat e n).
(** The handshake: wait until the file is there, open it, try to read a line
    until there is one, remove the file. *)
Definition handshake_events (p : list byte) (k m : nat) : list event :=
  rounds k [EvAccess p; EvSleep] ++ [EvAccess p; EvOpen p (text "r")] ++ rounds (S m) [EvSleep; EvGets p] ++ [EvClose p; EvUnlink p].
Definition handshake_part (w : world) (h : name) (m : nat) : list event :=
  match w_env w h with Some p => handshake_events p (w_waits w) m | None => [] end.
Definition log_opened (d : dest) : list event := match d with DFile q => [EvOpen q (text "w")] | _ => [] end.

Definition static_lock : name := text "__static_lock".
(** The program has started: the variable of the log has the stream; that of the
    lock has a mutex, which was initialised before the header was written to the
    log; nothing else was done. *)
Definition started_right (w : world) (h : name) (d : dest) (header : list action) (m : nat) : started :=
  mkStarted (Some (WStream (stream_of d))) (Some (WMutex static_lock)) [static_lock]
    (handshake_part w h m ++ log_opened d ++ [EvLockInit static_lock; EvWrite (stream_of d) header]).
