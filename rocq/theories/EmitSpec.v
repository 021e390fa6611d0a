(** Specification of the inserted C text: what a C compiler finds in it
    ([CRead.v]), in terms of the variables of the places. *)
From Coq Require Import Strings.String Permutation.
From Verif Require Import Base Types PrintPred Instr InstrSpec CRead Emit.

(** The five arguments that log a variable as a number: index of the name, index
    of the type, size, format, expression. *)
Definition var_arg (names : list name) (types : list tdesc) (ps : bool) (x : name * ctype) (v : vararg) : Prop :=
  va_expr v = fst x /\ nthN names (va_name v) = Some (fst x) /\
  (exists d, nthN types (va_type v) = Some d /\ nthN names (t_name d) = Some (type_text (snd x)) /\
     t_fmt d = va_fmt v /\ t_size d = va_size v) /\
  exists k, has_kind (snd x) k /\ as_string ps k = false /\ log_format ps k (va_fmt v) (va_size v).

(** The four arguments that log a string: strlen and the pointer for C strings,
    length() and c_str() for C++ strings. *)
Definition blob_arg (names : list name) (types : list tdesc) (x : name * ctype) (b : blobarg * access) : Prop :=
  ba_expr (fst b) = fst x /\ nthN names (ba_name (fst b)) = Some (fst x) /\
  (exists d, nthN types (ba_type (fst b)) = Some d /\ nthN names (t_name d) = Some (type_text (snd x)) /\
     t_fmt d = BLOB /\ t_size d = 0) /\
  has_kind (snd x) (match snd b with ByStrlen => CCharPointer | ByLength => CString end).

(** No call if there is nothing to log. *)
Definition vars_call (l : list vararg) : list pstmt := match l with [] => [] | _ => [PVars l] end.
Definition blobs_call (l : list (blobarg * access)) : list pstmt := match l with [] => [] | _ => [PBlobs l] end.

Inductive groups_log (names : list name) (types : list tdesc) : list group -> list pstmt -> Prop :=
| gl_nil : groups_log names types [] []
| gl_cons : forall ps l a b va ba gs r,
    logged_vars ps false l a -> logged_vars ps true l b ->
    Forall2 (var_arg names types ps) a va -> Forall2 (blob_arg names types) b ba ->
    groups_log names types gs r ->
    groups_log names types ((ps, l) :: gs) (vars_call va ++ blobs_call ba ++ r).

(** The statements at a place: its id, the variables, the end of the entry. *)
Definition site_stmts (names : list name) (types : list tdesc) (s : site) (p : list pstmt) : Prop :=
  exists r, p = PId (fst s) :: r ++ [PEnd] /\ groups_log names types (snd s) r.

(** The same statements for [InstrRun.v]. *)
Definition meaning (p : pstmt) : istmt :=
  match p with
  | PId i => IId i
  | PVars l => IVars l
  | PBlobs l => IBlobs (map fst l)
  | PEnd => IEnd
  end.

Definition one_line (s : name) : Prop := ~ In x0a s.
(** Text that means itself in a literal. *)
Definition plain_text (s : name) : Prop := ~ In x0a s /\ ~ In x22 s /\ ~ In x5c s.

(** Where the log goes.  The name of an environment variable must be given with
    its quotes, see C82_environment_refuted. *)
Inductive log_goes : trace_file -> option name -> logfile -> Prop :=
| lg_stderr : forall env, log_goes FStderr env ToStderr
| lg_stdout : forall env, log_goes FStdout env ToStdout
| lg_file : forall p env, one_line p -> log_goes (FName p) env (ToFile p)
| lg_env : forall v, one_line v -> log_goes FNone (Some (lisp_print v)) (ToEnv v)
| lg_handshake : log_goes FNone None ToHandshake.

(** What is found in the setup code: the arrays of names and types, their
    lengths, the log file, the variable of the handshake. *)
Record setup := mkSetup { su_names : list name; su_types : list tdesc; su_counts : N * N; su_log : logfile; su_handshake : name }.
Definition reads_setup (l : list byte) (s : setup) : Prop :=
  exists ts, lex l = Some ts /\ read_names ts = Some (su_names s) /\ read_types ts = Some (su_types s) /\
    read_counts ts = Some (su_counts s) /\ read_log ts = Some (su_log s) /\ read_handshake ts = Some (su_handshake s).

(** The texts written for a program: the setup code and the code of each place.
    The arrays are made from the hash tables in any order of their entries. *)
Definition emits (test : name -> name -> bool) (sites : list site) (handshake : name) (f : trace_file) (env : option name)
  (st_text : name) (texts : list name) : Prop :=
  exists ts nal tal, instrument_all_t test sites tstate0 = (texts, ts) /\
    Permutation nal (t_names ts) /\ Permutation tal (t_descs ts) /\
    st_text = setup_text test ts nal tal handshake f env.

(** Variables are identifiers. *)
Definition identifiers (s : site) : Prop := Forall identifier (site_names s).

(** A program as the compiler reads it. *)
Definition reads_program (st_text : name) (texts : list name) (su : setup) (code : list (list pstmt)) : Prop :=
  reads_setup st_text su /\ Forall2 (fun t p => read_stmts t = Some p) texts code.
