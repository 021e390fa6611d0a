(** Model of trace collection for one test case: collect-test-case-traces of
    binary-traceable objects (traceable.lisp:134-224) running concurrently with
    the executions of the instrumented program that the test case starts
    (__bi_setup, instrumentation/c-cpp.lisp:309-346).

    Not modelled: the contents of the test case apart from the executions of the
    instrumented program it starts, and what happens inside one execution apart
    from the handshake and the writing of its log. *)
From Coq Require Import List Bool Arith Lia.
From Verif Require Import Base.
Import ListNotations.
Open Scope nat_scope.

(** A piece of a log, written by one flush. *)
Definition chunk := list byte.

(** What add_trace makes of the bytes it receives.  [rd_early l]: after the
    pieces [l] it stops reading, the result says whether the trace was added
    (None: it reads on); [rd_eof l]: the same when the log ends after [l]. *)
Record reader := mkR { rd_early : list chunk -> option bool; rd_eof : list chunk -> bool }.

(** Parameters of a run.
    [cf_num]: num-traces (None: infinity, traceable.lisp:148).
    [cf_runs]: the logs of the executions the test case starts, in order.
    [cf_par]: may an execution start before the previous one has ended?
    [cf_die]: may executions, or the test process, die at any moment?
    [cf_tmo]: may the timeouts of traceable.lisp:162-165 and of add_trace expire?
    [cf_sticky]: does fgets keep failing once it has met the end of a file?
    (glibc before 2.28: no)
    [cf_old]: does the handshake file exist before it is created? *)
Record config := mkC {
  cf_num : option nat;
  cf_runs : list (list chunk);
  cf_par : bool;
  cf_die : bool;
  cf_tmo : bool;
  cf_sticky : bool;
  cf_old : bool;
  cf_reader : reader
}.

(** Control state of the collector in iteration i of the loop of
    traceable.lisp:200-207. *)
Inductive cpc :=
| CCreate                   (* before with-output-to-file, line 173 *)
| CWrite (ino : nat)        (* file created, name of the pipe not yet written, line 174-175 *)
| CWait                     (* loop of lines 181-199 *)
| COpen                     (* handshake succeeded, before the open(2) of add_trace *)
| CPoll                     (* select(2) of add_trace *)
| CRead (got : list chunk)  (* add_trace reads *)
| CEnd.                     (* loop left *)

(** Control state of an execution (lines of c-cpp.lisp). *)
Inductive ppc :=
| PAccess                        (* access(handshake_file_path, 0), line 319 *)
| PFopen                         (* fopen, line 320 *)
| PFgets (ino : nat) (eof : bool)(* fgets, line 321; eof: end-of-file indicator *)
| PUnlink (k : nat)              (* read the name of pipe k; before unlink, line 324 *)
| PPipe (k : nat)                (* before fopen(buffer, "w"), line 327 and 1085 *)
| PRun (k : nat) (rest : list chunk)  (* writing to pipe k; [rest] is still to be written *)
| PFile                          (* writing to a file that it created under the name of a pipe that is gone *)
| PEnd (crashed : bool).         (* ended; crashed: fgets was called with NULL *)

(** An execution: its log and its control state. *)
Record exec := mkE { e_log : list chunk; e_pc : ppc }.

Record state := mkSt {
  h_dir : option nat;            (* the handshake file: its inode, if it exists *)
  h_ino : list (option nat);     (* contents of inodes: None: empty, Some k: the name of pipe k *)
  p_buf : list chunk;            (* the pipe of this iteration: written, not yet read *)
  p_rd : bool;                   (* opened for reading by the collector *)
  p_used : bool;                 (* opened for writing by some execution *)
  c_i : nat;                     (* i, traceable.lisp:200; also the number of the pipe *)
  c_pc : cpc;
  c_got : list (list chunk);     (* traces added to the database, oldest first *)
  x_ex : list exec;              (* executions started so far *)
  x_todo : list (list chunk);    (* executions not yet started *)
  x_alive : bool                 (* process-alive-p of the test process *)
}.

Definition more (c : config) (i : nat) : bool :=
  match cf_num c with Some n => i <? n | None => true end.

(** Start of the loop, lines 155-160 and 200. *)
Definition start (c : config) : state :=
  mkSt (if cf_old c then Some 0 else None) (if cf_old c then [None] else [])
    [] false false 0 (if more c 0 then CCreate else CEnd) [] [] (cf_runs c) true.

Definition ended (e : exec) : bool := match e_pc e with PEnd _ => true | _ => false end.
(** does the execution have pipe [k] open for writing? *)
Definition writes_to (k : nat) (e : exec) : bool := match e_pc e with PRun k' _ => k' =? k | _ => false end.

(** The pipe of the current iteration exists until the iteration ends. *)
Definition pipe_exists (k : nat) (s : state) : bool :=
  (k =? c_i s) && match c_pc s with CEnd => false | _ => true end.

Definition with_cpc (pc : cpc) (s : state) : state :=
  mkSt (h_dir s) (h_ino s) (p_buf s) (p_rd s) (p_used s) (c_i s) pc (c_got s) (x_ex s) (x_todo s) (x_alive s).

Definition with_ex (l : list exec) (s : state) : state :=
  mkSt (h_dir s) (h_ino s) (p_buf s) (p_rd s) (p_used s) (c_i s) (c_pc s) (c_got s) l (x_todo s) (x_alive s).

(** End of an iteration (lines 201-207): the pipe is removed; if the trace was
    added the loop goes on with the next [i]. *)
Definition next (c : config) (added : bool) (got : list chunk) (s : state) : state :=
  if added then
    mkSt (h_dir s) (h_ino s) [] false false (S (c_i s))
      (if more c (S (c_i s)) then CCreate else CEnd) (c_got s ++ [got]) (x_ex s) (x_todo s) (x_alive s)
  else mkSt (h_dir s) (h_ino s) [] false false (c_i s) CEnd (c_got s) (x_ex s) (x_todo s) (x_alive s).

(** Replacement of a list element. *)
Definition set_nth {A} (l : list A) (n : nat) (x : A) : list A := firstn n l ++ x :: skipn (S n) l.

(** Steps of the collector.  The sleeps and retries of the loops are no steps. *)
Inductive cstep (c : config) (s : state) : state -> Prop :=
| c_create :                       (* open(O_CREAT|O_EXCL); an error if the file exists, then line 177-179: sleep *)
    c_pc s = CCreate -> h_dir s = None ->
    cstep c s (mkSt (Some (length (h_ino s))) (h_ino s ++ [None]) (p_buf s) (p_rd s) (p_used s) (c_i s)
                 (CWrite (length (h_ino s))) (c_got s) (x_ex s) (x_todo s) (x_alive s))
| c_write : forall n, c_pc s = CWrite n ->
    cstep c s (mkSt (h_dir s) (set_nth (h_ino s) n (Some (c_i s))) (p_buf s) (p_rd s) (p_used s) (c_i s)
                 CWait (c_got s) (x_ex s) (x_todo s) (x_alive s))
| c_gone : c_pc s = CWait -> h_dir s = None -> cstep c s (with_cpc COpen s)           (* line 185-186 *)
| c_exited : c_pc s = CWait -> x_alive s = false -> cstep c s (next c false [] s)      (* line 194-196 *)
| c_timeout : cf_tmo c = true -> In (c_pc s) [CCreate; CWait; CPoll] -> cstep c s (next c false [] s)
| c_open : c_pc s = COpen ->
    cstep c s (mkSt (h_dir s) (h_ino s) (p_buf s) true (p_used s) (c_i s) CPoll (c_got s) (x_ex s) (x_todo s) (x_alive s))
| c_poll :                         (* readable, or at its end because all writers have closed it *)
    c_pc s = CPoll -> p_buf s <> [] \/ (p_used s = true /\ existsb (writes_to (c_i s)) (x_ex s) = false) ->
    cstep c s (with_cpc (CRead []) s)
| c_read : forall got ch r, c_pc s = CRead got -> rd_early (cf_reader c) got = None -> p_buf s = ch :: r ->
    cstep c s (mkSt (h_dir s) (h_ino s) r (p_rd s) (p_used s) (c_i s) (CRead (got ++ [ch])) (c_got s) (x_ex s) (x_todo s) (x_alive s))
| c_early : forall got b, c_pc s = CRead got -> rd_early (cf_reader c) got = Some b -> cstep c s (next c b got s)
| c_eof : forall got, c_pc s = CRead got -> rd_early (cf_reader c) got = None -> p_buf s = [] ->
    existsb (writes_to (c_i s)) (x_ex s) = false -> cstep c s (next c (rd_eof (cf_reader c) got) got s)
| c_cleanup : c_pc s = CEnd -> h_dir s <> None ->    (* with-temporary-file removes the file *)
    cstep c s (mkSt None (h_ino s) (p_buf s) (p_rd s) (p_used s) (c_i s) CEnd (c_got s) (x_ex s) (x_todo s) (x_alive s)).

(** Steps of one execution: its new control state and the new shared state. *)
Inductive pstep (c : config) (s : state) (log : list chunk) : ppc -> ppc -> state -> Prop :=
| p_access : forall n, h_dir s = Some n -> pstep c s log PAccess PFopen s
| p_fopen : forall n, h_dir s = Some n -> pstep c s log PFopen (PFgets n false) s
| p_fopen_null : h_dir s = None -> pstep c s log PFopen (PEnd true) s
| p_fgets : forall n k eof, nth_error (h_ino s) n = Some (Some k) -> (cf_sticky c = true -> eof = false) ->
    pstep c s log (PFgets n eof) (PUnlink k) s
| p_fgets_eof : forall n, nth_error (h_ino s) n = Some None -> pstep c s log (PFgets n false) (PFgets n true) s
| p_unlink : forall k,
    pstep c s log (PUnlink k) (PPipe k)
      (mkSt None (h_ino s) (p_buf s) (p_rd s) (p_used s) (c_i s) (c_pc s) (c_got s) (x_ex s) (x_todo s) (x_alive s))
| p_open : forall k, pipe_exists k s = true -> p_rd s = true ->     (* fopen of a pipe waits for a reader *)
    pstep c s log (PPipe k) (PRun k log)
      (mkSt (h_dir s) (h_ino s) (p_buf s) (p_rd s) true (c_i s) (c_pc s) (c_got s) (x_ex s) (x_todo s) (x_alive s))
| p_open_file : forall k, pipe_exists k s = false -> pstep c s log (PPipe k) PFile s
| p_write : forall k ch r, pipe_exists k s = true ->
    pstep c s log (PRun k (ch :: r)) (PRun k r)
      (mkSt (h_dir s) (h_ino s) (p_buf s ++ [ch]) (p_rd s) (p_used s) (c_i s) (c_pc s) (c_got s) (x_ex s) (x_todo s) (x_alive s))
| p_sigpipe : forall k ch r, pipe_exists k s = false -> pstep c s log (PRun k (ch :: r)) (PEnd false) s
| p_exit : forall k, pstep c s log (PRun k []) (PEnd false) s
| p_exit_file : pstep c s log PFile (PEnd false) s
| p_die : forall pc, cf_die c = true -> (forall b, pc <> PEnd b) -> pstep c s log pc (PEnd false) s.

(** Steps of the whole system. *)
Inductive step (c : config) (s : state) : state -> Prop :=
| st_collector : forall s', cstep c s s' -> step c s s'
| st_exec : forall l1 e l2 pc s', x_ex s = l1 ++ e :: l2 -> pstep c s (e_log e) (e_pc e) pc s' ->
    step c s (with_ex (l1 ++ mkE (e_log e) pc :: l2) s')
| st_start : forall r t, x_todo s = r :: t -> x_alive s = true -> (cf_par c = false -> forallb ended (x_ex s) = true) ->
    step c s (mkSt (h_dir s) (h_ino s) (p_buf s) (p_rd s) (p_used s) (c_i s) (c_pc s) (c_got s)
                (x_ex s ++ [mkE r PAccess]) t (x_alive s))
| st_exit : x_alive s = true -> (cf_die c = false -> x_todo s = [] /\ forallb ended (x_ex s) = true) ->
    step c s (mkSt (h_dir s) (h_ino s) (p_buf s) (p_rd s) (p_used s) (c_i s) (c_pc s) (c_got s)
                (x_ex s) (x_todo s) false).

(** Reachable states. *)
Inductive reach (c : config) : state -> Prop :=
| r_start : reach c (start c)
| r_step : forall s s', reach c s -> step c s s' -> reach c s'.
