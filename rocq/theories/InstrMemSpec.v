(** Specification: which passes through a place that logs are safe. *)
From Verif Require Import Base Types FormatSpec Instr InstrRun InstrSpec InstrMem.

(** Objects do not overlap, none is at address 0. *)
Definition mem_ok (m : memory) : Prop :=
  (forall b, In b m -> 0 < fst b) /\
  forall b c a, In b m -> In c m -> in_block a b = true -> in_block a c = true -> b = c.

(** At address [a] there is the C string [s]: its characters and a NUL, all
    initialised and within one object. *)
Definition c_string_at (m : memory) (a : N) (s : list byte) : Prop :=
  exists base pre post, In (base, pre ++ map Some s ++ Some x00 :: post) m /\
    a = base + lenN pre /\ nul_free s.

(** A pass through a site: memory and contents of the variables. *)
Definition mevent : Type := nat * (memory * (name -> lvalue)).
Definition mevent_run (code : list (list istmt)) (e : mevent) : outcome (list action) :=
  match nth_error code (fst e) with
  | Some c => run_stmts_m (fst (snd e)) (snd (snd e)) c
  | None => UB UOob
  end.

(** The value of an initialised variable; for pointers with the characters up
    to the first NUL it points to, if there are such. *)
Inductive seen (m : memory) : lvalue -> rvalue -> Prop :=
| sn_int : forall z, seen m (LInt z) (RInt z)
| sn_float : forall b, seen m (LFloat b) (RFloat b)
| sn_double : forall b, seen m (LDouble b) (RDouble b)
| sn_string : forall s, seen m (LString s) (RString s)
| sn_cstr : forall a s, c_string_at m a s -> seen m (LPtr a) (RPtr a s)
| sn_ptr : forall a, (forall s, ~ c_string_at m a s) -> seen m (LPtr a) (RPtr a []).

(** Variables have contents of their types, or none; C++ strings are
    constructed. *)
Definition typed (m : memory) (k : kind) (v : lvalue) : Prop :=
  (v = LUninit /\ k <> CString) \/ exists r, seen m v r /\ inhabits k r.
Definition site_typed (s : site) (m : memory) (env : name -> lvalue) : Prop :=
  Forall (fun g => Forall (fun x => forall k, has_kind (snd x) k -> typed m k (env (fst x))) (snd g)) (snd s).

(** The C types of the variables that are logged are initialised, and those
    logged as C strings point to C strings. *)
Definition site_ready (s : site) (m : memory) (env : name -> lvalue) : Prop :=
  forall ps l x k, In (ps, l) (snd s) -> In x l -> has_kind (snd x) k ->
    env (fst x) <> LUninit /\
    (ps = true -> k = CCharPointer -> exists a str, env (fst x) = LPtr a /\ c_string_at m a str).

(** The pass is through a site of the program, with variables of the right
    types, and is ready. *)
Definition mevent_ready (sites : list site) (e : mevent) : Prop :=
  mem_ok (fst (snd e)) /\
  exists s, nth_error sites (fst e) = Some s /\ site_typed s (fst (snd e)) (snd (snd e)) /\
    site_ready s (fst (snd e)) (snd (snd e)).

(** No strings of 4 GiB and no signalling NaNs (see [loggable]). *)
Definition mevent_small (sites : list site) (e : mevent) : Prop :=
  forall s, nth_error sites (fst e) = Some s ->
    Forall (fun g => Forall (fun x => forall k r, has_kind (snd x) k -> seen (fst (snd e)) (snd (snd e) (fst x)) r ->
      inhabits k r -> loggable k r) (snd g)) (snd s).

(** A pass and what its variables are seen to be. *)
Definition event_seen (sites : list site) (e : mevent) (a : event) : Prop :=
  fst a = fst e /\
  forall s ps l x k, nth_error sites (fst e) = Some s -> In (ps, l) (snd s) -> In x l -> has_kind (snd x) k ->
    seen (fst (snd e)) (snd (snd e) (fst x)) (snd a (fst x)).
