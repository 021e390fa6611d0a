(** Specification: what the setup code of SetupRead.v does when it runs (C11,
    POSIX), as a list of calls of the system, and the values that the variables
    of the log and its lock get.  Programs that are not defined, and uses of C
    that this reading does not know, are [UB]. *)
From Coq Require Import Strings.String.
From Verif Require Import Base Types Compare PrintPred Instr InstrRun CRead CParse CSem CTextSpec SetupRead.

(** Streams: standard output and error; a file opened for reading; the log. *)
Inductive stream := StdOut | StdErr | FileIn (path : list byte) | FileOut (path : list byte).
(** Values: null pointer; integers; a string (its bytes, with the NUL); the
    array of a variable; a stream; a mutex; arrays of names and of types. *)
Inductive uval :=
| WNull | WInt (z : Z) | WStr (m : list byte) | WArray (x : name) | WStream (f : stream) | WMutex (x : name)
| WNames (l : list name) | WTypes (l : list tdesc).

(** What the program does to its surroundings. *)
Inductive event :=
| EvAccess (path : list byte) | EvSleep | EvOpen (path mode : list byte) | EvGets (path : list byte)
| EvClose (path : list byte) | EvUnlink (path : list byte) | EvLockInit (x : name)
| EvWrite (f : stream) (acts : list action).

(** The surroundings: environment variables; how often access fails; whether a
    file can be opened; what reading the handshake file yields, read by read
    ([]: at its end); whether fgets fails for good at the end of a file. *)
Record world := mkW {
  w_env : list byte -> option (list byte);
  w_waits : nat;
  w_opens : list byte -> list byte -> bool;
  w_reads : list (list byte);
  w_sticky : bool }.

(** Variables; arrays of characters; initialised mutexes; failures of access to
    come; reads to come; end of file met; events. *)
Record ustate := mkU {
  v_vars : list (name * uval); v_arrays : list (name * list byte); v_ready : list name;
  v_waits : nat; v_reads : list (list byte); v_eof : bool; v_events : list event }.

Fixpoint find_var {A} (x : name) (l : list (name * A)) : option A :=
  match l with
  | [] => None
  | (y, v) :: r => if bytes_eqb x y then Some v else find_var x r
  end.
Fixpoint put_var {A} (x : name) (v : A) (l : list (name * A)) : option (list (name * A)) :=
  match l with
  | [] => None
  | (y, w) :: r => if bytes_eqb x y then Some ((y, v) :: r)
                   else match put_var x v r with Some r => Some ((y, w) :: r) | None => None end
  end.
Definition known {A} (o : option A) : outcome A := match o with Some x => Ok x | None => UB UUninit end.

(** ** Strings *)
(** Characters before the NUL. *)
Fixpoint before_nul (m : list byte) : outcome (list byte) :=
  match m with
  | [] => UB UOob
  | c :: r => if Byte.eqb c x00 then Ok [] else s <- before_nul r ;; Ok (c :: s)
  end.
(** strcspn: the number of characters before the first that is in [set] *)
Fixpoint span_without (set m : list byte) : outcome N :=
  match m with
  | [] => UB UOob
  | c :: r => if Byte.eqb c x00 || existsb (Byte.eqb c) set then Ok 0 else n <- span_without set r ;; Ok (n + 1)
  end.
(** Replace the bytes at a position. *)
Definition overwrite (m : list byte) (at_ : N) (bs : list byte) : outcome (list byte) :=
  if lenN m <? at_ + lenN bs then UB UOob else Ok (takeN at_ m ++ bs ++ dropN (at_ + lenN bs) m).
(** At most [n] characters, up to and with a newline; was that all of a line? *)
Fixpoint first_line (n : nat) (l : list byte) : list byte * bool :=
  match n, l with
  | O, _ => ([], true)
  | S _, [] => ([], false)
  | S n, c :: r => if Byte.eqb c x0a then ([c], true) else let '(q, d) := first_line n r in (c :: q, d)
  end.
(** fgets for [n] characters, of which [acc] have been read: the line (None:
    NULL), the reads to come, and whether the end of the file was met.  Without
    reads to come it does not return. *)
Fixpoint fgets (n : nat) (acc : list byte) (reads : list (list byte)) : outcome (option (list byte) * list (list byte) * bool) :=
  match reads with
  | [] => Diverge
  | [] :: r => Ok (match acc with [] => None | _ => Some acc end, r, true)
  | x :: r =>
      let '(l, stop) := first_line n (acc ++ x) in
      if stop then Ok (Some l, match skipn (List.length l) (acc ++ x) with [] => r | rest => rest :: r end, false)
      else fgets n l r
  end.

(** ** Calls *)
Section Run.
Variable file : cfile.       (* the functions that write the log *)
Variable fuel : nat.         (* rounds of loops *)
Variable w : world.

Definition event_of (e : event) (s : ustate) : ustate :=
  mkU (v_vars s) (v_arrays s) (v_ready s) (v_waits s) (v_reads s) (v_eof s) (v_events s ++ [e]).
Definition with_array (x : name) (m : list byte) (s : ustate) : outcome ustate :=
  a <- known (put_var x m (v_arrays s)) ;;
  Ok (mkU (v_vars s) a (v_ready s) (v_waits s) (v_reads s) (v_eof s) (v_events s)).

(** The memory a pointer to characters points to; the string there. *)
Definition memory (v : uval) (s : ustate) : outcome (list byte) :=
  match v with
  | WStr m => Ok m
  | WArray x => known (find_var x (v_arrays s))
  | WNull => UB UNull
  | _ => UB UUninit
  end.
Definition string_of (v : uval) (s : ustate) : outcome (list byte) := m <- memory v s ;; before_nul m.

(** An array of types in memory *)
Definition type_bytes (t : tdesc) : outcome (list byte) :=
  ms <- known (members (text "__trace_type_description") (c_structs file)) ;;
  ws <- convert_all ms [VI (Z.of_N (t_name t)); VI (Z.of_N (fmt_code (t_fmt t))); VI (Z.of_N (t_size t))] ;;
  struct_bytes ws 0.
Fixpoint types_bytes (l : list tdesc) : outcome (list byte) :=
  match l with [] => Ok [] | t :: r => b <- type_bytes t ;; q <- types_bytes r ;; Ok (b ++ q) end.
(** A null pointer is passed for no names and no types; it is not followed then. *)
Definition names_arg (v : uval) : outcome cval :=
  match v with WNames l => Ok (names_in_memory l) | WNull => Ok (VNames []) | _ => UB UUninit end.
Definition types_arg (v : uval) : outcome cval :=
  match v with
  | WTypes l => bs <- types_bytes l ;; Ok (VP 0 bs)
  | WNull => Ok (VP 0 [])
  | _ => UB UUninit
  end.
Definition is_ready (x : name) (s : ustate) : bool := existsb (bytes_eqb x) (v_ready s).

Definition call_u (f : name) (args : list uval) (s : ustate) : outcome (uval * ustate) :=
  let is (x : string) := bytes_eqb f (text x) in
  match args with
  | [WInt _] => if is "sleep"%string then Ok (WInt 0, event_of EvSleep s) else UB UUninit
  | [WStream (FileIn p)] => if is "fclose"%string then Ok (WInt 0, event_of (EvClose p) s) else UB UUninit
  | [v] =>
      if is "getenv"%string then
        x <- string_of v s ;; Ok (match w_env w x with Some r => WStr (r ++ [x00]) | None => WNull end, s)
      else if is "unlink"%string then p <- string_of v s ;; Ok (WInt 0, event_of (EvUnlink p) s)
      else UB UUninit
  | [v; WInt 0%Z] =>
      if is "access"%string then
        p <- string_of v s ;;
        match v_waits s with
        | O => Ok (WInt 0, event_of (EvAccess p) s)
        | S k => Ok (WInt (-1), event_of (EvAccess p) (mkU (v_vars s) (v_arrays s) (v_ready s) k (v_reads s) (v_eof s) (v_events s)))
        end
      else UB UUninit
  | [WMutex x; WNull] =>
      if is "pthread_mutex_init"%string then
        Ok (WInt 0, event_of (EvLockInit x) (mkU (v_vars s) (v_arrays s) (x :: v_ready s) (v_waits s) (v_reads s) (v_eof s) (v_events s)))
      else UB UUninit
  | [v; WStr m] =>
      if is "fopen"%string then
        p <- string_of v s ;; mode <- before_nul m ;;
        f <- (if bytes_eqb mode (text "r") then Ok (FileIn p) else if bytes_eqb mode (text "w") then Ok (FileOut p) else UB UUninit) ;;
        Ok (if w_opens w p mode then WStream f else WNull, event_of (EvOpen p mode) s)
      else if is "strcspn"%string then
        m' <- memory v s ;; set <- before_nul m ;; n <- span_without set m' ;; Ok (WInt (Z.of_N n), s)
      else UB UUninit
  | [WArray x; WInt n; WStream (FileIn p)] =>
      if is "fgets"%string then
        let s := event_of (EvGets p) s in
        if v_eof s && w_sticky w then Ok (WNull, s)
        else
          ' (l, r, e) <- fgets (Z.to_nat (n - 1)) [] (v_reads s) ;;
          let s := mkU (v_vars s) (v_arrays s) (v_ready s) (v_waits s) r e (v_events s) in
          match l with
          | None => Ok (WNull, s)
          | Some l => m <- known (find_var x (v_arrays s)) ;; m <- overwrite m 0 (l ++ [x00]) ;;
                      s <- with_array x m s ;; Ok (WArray x, s)
          end
      else UB UUninit
  | [WArray _; WInt _; WNull] => UB UNull
  | [out; WMutex x; ns; WInt i; ts; WInt j] =>
      if is "__write_trace_header"%string then
        f <- match out with
             | WStream (FileIn _) => UB UUninit
             | WStream f => Ok f
             | WNull => UB UNull
             | _ => UB UUninit
             end ;;
        if is_ready x s then
          ns <- names_arg ns ;; ts <- types_arg ts ;;
          acts <- call_fun Datatypes.unit (fun _ _ => Abort) fuel file (text "__write_trace_header") [VOut; VLock; ns; VI i; ts; VI j] tt ;;
          Ok (WInt 0, event_of (EvWrite f acts) s)
        else UB UUninit
      else UB UUninit
  | _ => UB UUninit
  end.

(** ** Expressions *)
Definition same (a b : uval) : outcome bool :=
  match a, b with
  | WInt x, WInt y => Ok (x =? y)%Z
  | WNull, WNull => Ok true
  | WNull, (WStr _ | WArray _ | WStream _ | WMutex _) | (WStr _ | WArray _ | WStream _ | WMutex _), WNull => Ok false
  | _, _ => UB UUninit
  end.
Definition int_of (b : bool) : uval := WInt (if b then 1 else 0).
Definition truth_u (v : uval) : outcome bool :=
  match v with
  | WInt z => Ok (negb (z =? 0)%Z)
  | WNull => Ok false
  | WStr _ | WArray _ | WStream _ | WMutex _ => Ok true
  | _ => UB UUninit
  end.
Definition var_u (x : name) (s : ustate) : outcome uval :=
  match find_var x (v_vars s), find_var x (v_arrays s) with
  | Some v, _ => Ok v
  | None, Some _ => Ok (WArray x)
  | None, None => if bytes_eqb x (text "NULL") then Ok WNull
                  else if bytes_eqb x (text "stdout") then Ok (WStream StdOut)
                  else if bytes_eqb x (text "stderr") then Ok (WStream StdErr) else UB UUninit
  end.
Fixpoint eval_u (e : uexpr) (s : ustate) : outcome (uval * ustate) :=
  match e with
  | UVar x => v <- var_u x s ;; Ok (v, s)
  | UNum n => Ok (WInt (Z.of_N n), s)
  | UStr m => Ok (WStr (m ++ [x00]), s)
  | UAddr x => v <- var_u x s ;; match v with WMutex _ => Ok (v, s) | _ => UB UUninit end
  | UCast e => eval_u e s
  | UEq a b => ' (x, s) <- eval_u a s ;; ' (y, s) <- eval_u b s ;; r <- same x y ;; Ok (int_of r, s)
  | UNe a b => ' (x, s) <- eval_u a s ;; ' (y, s) <- eval_u b s ;; r <- same x y ;; Ok (int_of (negb r), s)
  | UCall f l =>
      ' (args, s) <- (fix go (l : list uexpr) (s : ustate) : outcome (list uval * ustate) :=
                        match l with
                        | [] => Ok ([], s)
                        | e :: r => ' (v, s) <- eval_u e s ;; ' (q, s) <- go r s ;; Ok (v :: q, s)
                        end) l s ;;
      call_u f args s
  end.

(** ** Statements *)
Definition declare_u (x : name) (v : uval) (s : ustate) : ustate :=
  mkU ((x, v) :: v_vars s) (v_arrays s) (v_ready s) (v_waits s) (v_reads s) (v_eof s) (v_events s).
(** At most [n] rounds *)
Fixpoint while_u (cond : ustate -> outcome (bool * ustate)) (body : ustate -> outcome ustate) (n : nat) (s : ustate) : outcome ustate :=
  match n with
  | O => Diverge
  | S n => ' (t, s) <- cond s ;; if t then s <- body s ;; while_u cond body n s else Ok s
  end.
Definition cond_u (e : uexpr) (s : ustate) : outcome (bool * ustate) := ' (v, s) <- eval_u e s ;; t <- truth_u v ;; Ok (t, s).

(** (Blocks that declare variables do not occur inside the function.) *)
Fixpoint exec_u (c : ustmt) (s : ustate) : outcome ustate :=
  let block := fix block (l : list ustmt) (s : ustate) : outcome ustate :=
    match l with [] => Ok s | c :: r => s <- exec_u c s ;; block r s end in
  match c with
  | UPointer x e => ' (v, s) <- eval_u e s ;; Ok (declare_u x v s)
  | UMutex x => Ok (declare_u x (WMutex x) s)
  | UBuffer x n m =>
      if n <? lenN m + 1 then UB UUninit
      else Ok (mkU (v_vars s) ((x, m ++ repeat x00 (N.to_nat (n - lenN m))) :: v_arrays s) (v_ready s) (v_waits s) (v_reads s) (v_eof s) (v_events s))
  | UNames x l => Ok (declare_u x (WNames l) s)
  | UTypes x l => Ok (declare_u x (WTypes l) s)
  | USet x e =>
      ' (v, s) <- eval_u e s ;; vars <- known (put_var x v (v_vars s)) ;;
      Ok (mkU vars (v_arrays s) (v_ready s) (v_waits s) (v_reads s) (v_eof s) (v_events s))
  | UStore x i e =>
      ' (i, s) <- eval_u i s ;; ' (v, s) <- eval_u e s ;;
      match i, v with
      | WInt i, WInt z => m <- known (find_var x (v_arrays s)) ;;
                          if (i <? 0)%Z then UB UOob else m <- overwrite m (Z.to_N i) (int_bytes 1 z) ;; with_array x m s
      | _, _ => UB UUninit
      end
  | UExpr e => ' (_, s) <- eval_u e s ;; Ok s
  | UIf e l => ' (t, s) <- cond_u e s ;; if t then block l s else Ok s
  | UWhile e l => while_u (cond_u e) (block l) fuel s
  | UDo l e => s <- block l s ;; while_u (cond_u e) (block l) fuel s
  end.
Fixpoint block_u (l : list ustmt) (s : ustate) : outcome ustate :=
  match l with [] => Ok s | c :: r => s <- exec_u c s ;; block_u r s end.

(** ** The function *)
(** Global variables are null at first. *)
Definition ustate0 (u : unit_) : ustate :=
  mkU (map (fun x => (x, WNull)) (u_globals u)) [] [] (w_waits w) (w_reads w) false [].
(** The variables of the log and of its lock afterwards, the mutexes that are
    initialised, and all that was done. *)
Record started := mkStarted { d_log : option uval; d_lock : option uval; d_ready : list name; d_events : list event }.
Definition run_unit (u : unit_) : outcome started :=
  s <- block_u (u_body u) (ustate0 u) ;;
  Ok (mkStarted (find_var log_var (v_vars s)) (find_var lock_var (v_vars s)) (v_ready s) (v_events s)).
End Run.
