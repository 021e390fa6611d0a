(** Model: instrumenting the files of a project with several threads
    (/repo/instrumentation/c-cpp.lisp:551-572): the threads share the tables of
    names, types and type descriptions.  The tables are thread-safe, i.e. each
    gethash, (setf gethash) and hash-table-count is one atomic step; a request
    for an index (get-name-index, lines 973-976, get-type-index, lines 982-992)
    is several such steps. *)
From Coq Require Import Strings.String.
From Verif Require Import Base Types Compare PrintPred Instr InstrRun InstrSpec.

(** A type request: type, format, size, choice about strings. *)
Definition tctx : Type := (ctype * fmt * N * bool)%type.
Definition tctx_key (x : tctx) : tkey := let '(t, _, _, ps) := x in (string_flag t ps, type_trace_string t).

(** What a thread is about to do.  [k]: the type request for which the name is
    requested (line 979). *)
Inductive pc :=
| NGet (n : name) (k : option tctx)          (* gethash name, line 974 *)
| NCount (n : name) (k : option tctx)        (* hash-table-count, line 976 *)
| NPut (n : name) (c : N) (k : option tctx)  (* setf gethash, line 975 *)
| TGet (x : tctx)                            (* gethash type-id, line 986 *)
| TDesc (x : tctx) (ni : N)                  (* setf gethash of type-descriptions, line 989 *)
| TCount (x : tctx)                          (* hash-table-count, line 992 *)
| TPut (x : tctx) (c : N).                   (* setf gethash, line 991 *)

Inductive result := Goes (p : pc) | Done (i : N).

Section Par.
Variable test : name -> name -> bool.

Definition after_name (i : N) (k : option tctx) : result :=
  match k with None => Done i | Some x => Goes (TDesc x i) end.

(** One step of a thread on the tables. *)
Definition mstep (p : pc) (st : istate) : result * istate :=
  match p with
  | NGet n k => match gethash test n (i_names st) with
                | Some i => (after_name i k, st)
                | None => (Goes (NCount n k), st)
                end
  | NCount n k => (Goes (NPut n (lenN (i_names st)) k), st)
  | NPut n c k => (after_name c k, mkI (puthash test n c (i_names st)) (i_types st) (i_descs st))
  | TGet x => match gethash (key_test test) (tctx_key x) (i_types st) with
              | Some i => (Done i, st)
              | None => (Goes (NGet (snd (tctx_key x)) (Some x)), st)
              end
  | TDesc x ni => let '(t, f, size, ps) := x in
                  (Goes (TCount x), mkI (i_names st) (i_types st) (puthash (key_test test) (tctx_key x) (mkT ni f size) (i_descs st)))
  | TCount x => (Goes (TPut x (lenN (i_types st))), st)
  | TPut x c => (Done c, mkI (i_names st) (puthash (key_test test) (tctx_key x) c (i_types st)) (i_descs st))
  end.

(** First step of a request; none for a type that is not logged (line 1005). *)
Definition start (r : request) : option pc :=
  match r with
  | RName n => Some (NGet n None)
  | RType t ps => match type_format_and_size t ps with
                  | Some (f, size) => Some (TGet (t, f, size, ps))
                  | None => None
                  end
  end.

(** A thread: the request it works on, the requests to come, those answered. *)
Record pthread := mkPT { pt_pc : option (request * pc); pt_todo : list request; pt_done : list (request * option N) }.
Record pstate := mkPS { ps_tab : istate; ps_threads : list pthread }.

(** Thread [i] makes a step. *)
Inductive pstep (i : nat) : pstate -> pstate -> Prop :=
| ps_start : forall st ths r q d p, nth_error ths i = Some (mkPT None (r :: q) d) -> start r = Some p ->
    pstep i (mkPS st ths) (mkPS st (update ths i (mkPT (Some (r, p)) q d)))
| ps_skip : forall st ths r q d, nth_error ths i = Some (mkPT None (r :: q) d) -> start r = None ->
    pstep i (mkPS st ths) (mkPS st (update ths i (mkPT None q (d ++ [(r, None)]))))
| ps_goes : forall st ths r p q d p' st', nth_error ths i = Some (mkPT (Some (r, p)) q d) ->
    mstep p st = (Goes p', st') ->
    pstep i (mkPS st ths) (mkPS st' (update ths i (mkPT (Some (r, p')) q d)))
| ps_done : forall st ths r p q d j st', nth_error ths i = Some (mkPT (Some (r, p)) q d) ->
    mstep p st = (Done j, st') ->
    pstep i (mkPS st ths) (mkPS st' (update ths i (mkPT None q (d ++ [(r, Some j)])))).

Inductive psteps : pstate -> pstate -> Prop :=
| pss_refl : forall s, psteps s s
| pss_step : forall s i s' s'', psteps s s' -> pstep i s' s'' -> psteps s s''.

(** Steps while no other thread works on a request. *)
Definition alone (i : nat) (s : pstate) : Prop :=
  forall j t, nth_error (ps_threads s) j = Some t -> j <> i -> pt_pc t = None.
Inductive xsteps : pstate -> pstate -> Prop :=
| xs_refl : forall s, xsteps s s
| xs_step : forall s i s' s'', xsteps s s' -> alone i s' -> pstep i s' s'' -> xsteps s s''.

Definition pstart (reqs : list (list request)) : pstate :=
  mkPS istate0 (map (fun rs => mkPT None rs []) reqs).
Definition finished (s : pstate) : Prop := Forall (fun t => pt_pc t = None /\ pt_todo t = []) (ps_threads s).

End Par.
