(** Specification of logs with buffer sizes: in the order of the log, every
    pointer is logged with what is left of the buffer it points into, according
    to the sizes logged before it. *)
From Coq Require Import Permutation.
From Verif Require Import Base Types MemMapSpec FormatSpec Instr InstrRun InstrSpec InstrSize.

Definition xsite : Type := N * list xgroup.

(** The buffer sizes logged at a place while the variables have the values [env]. *)
Definition sizes_at (gs : list xgroup) (env : name -> rvalue) : history :=
  flat_map (fun g => match g with
                     | XVars _ => []
                     | XBuf a n => match env a, env n with RPtr p _, RInt z => [(p, Z.to_N z)] | _, _ => [] end
                     end) gs.

(** A logged variable shows the value of the variable (InstrSpec.v); a pointer
    (not logged as a string) has the rest of its buffer, after the sizes [h]. *)
Definition xvar_shows (tr : trace (option N)) (env : name -> rvalue) (h : history) (y : bool * name * ctype) (x : var) : Prop :=
  var_shows tr (fst (fst y)) (snd (fst y)) (snd y) (env (snd (fst y))) x /\
  (v_fmt x = POINTER -> exists a s, env (snd (fst y)) = RPtr a s /\ pointer_size h a (v_bsz x) (v_has x)) /\
  (v_fmt x <> POINTER -> v_bsz x = 0 /\ v_has x = 0).

(** The variables of a point, in order; sizes logged between them count for the
    variables that follow. *)
Inductive xvars_show (tr : trace (option N)) (env : name -> rvalue) : history -> list xgroup -> list var -> Prop :=
| xv_nil : forall h, xvars_show tr env h [] []
| xv_vars : forall h g gs l xs ys, site_vars [g] l -> Forall2 (xvar_shows tr env h) l xs ->
    xvars_show tr env h gs ys -> xvars_show tr env h (XVars g :: gs) (xs ++ ys)
| xv_buf : forall h a n gs ys, xvars_show tr env (h ++ sizes_at [XBuf a n] env) gs ys ->
    xvars_show tr env h (XBuf a n :: gs) ys.

Definition xpoint_shows (tr : trace (option N)) (h : history) (s : xsite) (env : name -> rvalue) (p : point (option N)) : Prop :=
  p_stmt p = Some (fst s) /\ p_aux p = [] /\
  p_sizes p = map (fun r => mkB (fst r) (snd r)) (sizes_at (snd s) env) /\
  xvars_show tr env h (snd s) (p_vars p).

(** The points of a trace show these passes; [h]: the sizes logged before. *)
Inductive xpoints_show (sites : list xsite) (tr : trace (option N)) : history -> list event -> list (point (option N)) -> Prop :=
| xp_nil : forall h, xpoints_show sites tr h [] []
| xp_cons : forall h i env s es p ps, nth_error sites i = Some s -> xpoint_shows tr h s env p ->
    xpoints_show sites tr (h ++ sizes_at (snd s) env) es ps ->
    xpoints_show sites tr h ((i, env) :: es) (p :: ps).

(** The sizes logged by these passes. *)
Definition sizes_of (sites : list xsite) (es : list event) : history :=
  flat_map (fun e => match nth_error sites (fst e) with Some s => sizes_at (snd s) (snd e) | None => [] end) es.

(** ** Conditions *)

(** The place without the buffer sizes (conditions of InstrSpec.v). *)
Definition plain (s : xsite) : site :=
  (fst s, flat_map (fun g => match g with XVars g => [g] | XBuf _ _ => [] end) (snd s)).

(** Values: as in InstrSpec.v; sizes of buffers are below 2^64, and no buffer
    starts at the last address. *)
Definition xenv_ok (s : xsite) (env : name -> rvalue) : Prop :=
  env_ok (plain s) env /\
  Forall (fun g => match g with
                   | XVars _ => True
                   | XBuf a n => exists p t z, env a = RPtr p t /\ env n = RInt z /\ p < 2 ^ 64 - 1 /\ (0 <= z < 2 ^ 64)%Z
                   end) (snd s).
Definition xevent_ok (sites : list xsite) (e : event) : Prop :=
  exists s, nth_error sites (fst e) = Some s /\ xenv_ok s (snd e).
Definition xevent_run (code : list (list xstmt)) (e : event) : outcome (list action) :=
  match nth_error code (fst e) with Some c => run_xstmts (snd e) c | None => UB UOob end.

(** The program, as [instrumented]. *)
Definition xinstrumented (test : name -> name -> bool) (sites : list xsite)
  (names : list name) (types : list tdesc) (code : list (list xstmt)) : Prop :=
  exists st nal tal, x_all test sites istate0 = (code, st) /\
    Permutation nal (i_names st) /\ Permutation tal (i_descs st) /\
    names = emit_names nal /\ types = emit_types test (i_types st) tal.

(** ** Buffers of the program *)

(** The sizes logged are those of the buffers [b] (address and size) the program
    has; buffers do not overlap, lie below 2^64 and none starts at 0. *)
Definition kept (h : history) (b : list (N * N)) : Prop :=
  (forall k v, live h k v <-> In (k, v) b) /\
  (forall k v, In (k, v) b -> 0 < k /\ k + v < 2 ^ 64) /\
  (forall k v k' v', In (k, v) b -> In (k', v') b -> k < k' -> k + v <= k').
