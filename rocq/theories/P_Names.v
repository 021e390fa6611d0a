(** Property C98: names used by the inserted code. *)
From Coq Require Import Strings.String Permutation.
From Verif Require Import BaseProofs Types Compare PrintPred.
From Verif Require Import Instr InstrRun InstrSpec InstrText InstrTable InstrProofs InstrEnd InstrReq P_Instr.
From Verif Require Import CRead Emit EmitSpec EmitProofs EmitProofs2 P_Emit Names NamesSpec NamesProofs.

(** For every program, the code of every place is made of tokens whose names are
    declared at the top of the file, keywords, variables logged there and the
    words of their types, and members of logged C++ strings; or [strlen], only
    where a C string is logged ([uses]). *)
Theorem C98_names : forall test kf sites handshake f env st_text texts,
  Forall (site_ok kf) sites -> Forall identifiers sites -> emits test sites handshake f env st_text texts ->
  Forall2 (fun s t => exists ks, lex t = Some ks /\ forall x, In (KId x) ks -> uses s x) sites texts.
Proof.
  intros test kf sites handshake f env st_text texts SOK ID (ts & nal & tal & E & _).
  pose proof (program_names _ _ _ _ _ _ SOK ID E) as H. eapply F2_impl; [|exact H]. intros s t [X _]. exact X.
Qed.
Print Assumptions C98_names.

(** So where no C string is logged, every name is declared before its use: in
    the program, at the top of the file, or by the language. *)
Theorem C98_declared : forall test kf sites handshake f env st_text texts,
  Forall (site_ok kf) sites -> Forall identifiers sites -> emits test sites handshake f env st_text texts ->
  Forall2 (fun s t => ~ logs_c_string s -> exists ks, lex t = Some ks /\ forall x, In (KId x) ks ->
    In x (declared forward_declarations) \/ In x [text "sizeof"; text "void"] \/
    (exists g n y, In g (snd s) /\ In (n, y) (snd g) /\
       (x = n \/ In x (words y) \/ (fst g = true /\ has_kind y CString /\ In x [text "length"; text "c_str"])))) sites texts.
Proof.
  intros test kf sites handshake f env st_text texts SOK ID EM. eapply F2_impl; [|exact (C98_names _ _ _ _ _ _ _ _ SOK ID EM)].
  intros s t (ks & L & U) NC. exists ks. split; [exact L|]. intros x X.
  destruct (U x X) as [y D|y K|g n y G V|g n y w G V W|g n y w G V P K M|g n y G V P K].
  - left. exact D.
  - right. left. exact K.
  - right. right. exists g, n, y. split; [exact G|]. split; [exact V|]. left. reflexivity.
  - right. right. exists g, n, y. split; [exact G|]. split; [exact V|]. right. left. exact W.
  - right. right. exists g, n, y. split; [exact G|]. split; [exact V|]. right. right. split; [exact P|]. split; [exact K|exact M].
  - exfalso. apply NC. exists g, n, y. split; [exact G|]. split; [exact V|]. split; [exact P|exact K].
Qed.
Print Assumptions C98_declared.

(** Logging a C string uses [strlen], at every such place of every program; the
    declarations do not declare it (nor include string.h; the implementation,
    which does, comes after the program's text).  A file that does not include
    string.h itself uses an undeclared function. *)
Theorem C98_strlen_refuted : forall test kf sites handshake f env st_text texts,
  Forall (site_ok kf) sites -> Forall identifiers sites -> emits test sites handshake f env st_text texts ->
  Forall2 (fun s t => logs_c_string s -> exists ks, lex t = Some ks /\ In (KId (text "strlen")) ks) sites texts /\
  ~ In (text "strlen") (declared forward_declarations).
Proof.
  intros test kf sites handshake f env st_text texts SOK ID (ts & nal & tal & E & _). split; [|exact strlen_undeclared].
  pose proof (program_names _ _ _ _ _ _ SOK ID E) as H. eapply F2_impl; [|exact H]. intros s t [_ X]. exact X.
Qed.
Print Assumptions C98_strlen_refuted.

(** The code of every place is a list of calls, each of a function that is
    declared at the top of the file, with as many arguments as it has parameters
    (with three dots: at least the parameters before them). *)
Theorem C98_calls : forall test kf sites handshake f env st_text texts,
  Forall (site_ok kf) sites -> Forall identifiers sites -> tells_apart test (all_texts sites) ->
  emits test sites handshake f env st_text texts ->
  Forall (fun t => exists ks sts, lex t = Some ks /\ CRead.split x3b 0 [] ks = sts ++ [[]] /\
    Forall (fun st => exists g args ps, call_of st = Some (g, args) /\ In (g, ps) (prototypes forward_declarations) /\
      accepts ps (List.length args)) sts) texts.
Proof.
  intros test kf sites handshake f env st_text texts SOK ID TA (ts & nal & tal & E & _).
  assert (EM : emits test sites [] FStderr None (setup_text test ts (t_names ts) (t_descs ts) [] FStderr None) texts).
  { exists ts, (t_names ts), (t_descs ts). split; [exact E|]. repeat split; apply Permutation_refl. }
  destruct (C82_program test kf sites [] FStderr None _ _ texts SOK ID TA ltac:(repeat split; intros []) (lg_stderr None) EM)
    as (names & types & code & [_ RP] & _). clear -RP.
  induction RP as [|t p texts code R RP IH]; constructor; [|exact IH]. exact (read_calls t p R).
Qed.
Print Assumptions C98_calls.

(** The declarations take no name from the program: all names they declare are
    reserved, so names that programs may define mean what they did. *)
Theorem C98_no_capture : forall x, ~ reserved x -> ~ In x (declared forward_declarations).
Proof. intros x NR I. apply NR. pose proof declared_reserved as F. rewrite Forall_forall in F. exact (F x I). Qed.
Print Assumptions C98_no_capture.

(** What the declarations declare, and a program (that of C82) with a place at
    which a C string is logged and one at which none is. *)
Example C98_ex_declared : declared forward_declarations =
  map text ["__GT_TRACEDB_UNSIGNED"; "__GT_TRACEDB_SIGNED"; "__GT_TRACEDB_FLOAT"; "__GT_TRACEDB_POINTER"; "__GT_TRACEDB_BLOB"; "__GT_TRACEDB_INVALID_FORMAT";
    "__GT_TRACEDB_END_ENTRY"; "__GT_TRACEDB_STATEMENT_ID"; "__GT_TRACEDB_VARIABLE"; "__GT_TRACEDB_BUFFER_SIZE"; "__GT_TRACEDB_AUXILIARY";
    "__GT_TRACEDB_TRACE_TAG_ERROR"; "__GT_TRACEDB_END_OF_TRACE"; "__trace_type_description"; "__trace_buffer_size"; "__sel_trace_file";
    "__sel_trace_file_lock"; "__write_trace_header"; "__write_trace_id"; "__write_end_entry"; "__write_trace_variables"; "__write_trace_blobs"; "__write_buffer_size"]%string.
Proof. vm_compute. reflexivity. Qed.
Example C98_ex_hyps : Forall (site_ok ex_kf) ex_sites /\ Forall identifiers ex_sites /\
  emits equal_test ex_sites (text "SEL_HANDSHAKE_FILE") (FName (text "/tmp/a ""b""\c")) None ex_text (fst (instrument_all_t equal_test ex_sites tstate0)) /\
  logs_c_string (nth 0 ex_sites (0, [])) /\ ~ logs_c_string (nth 1 ex_sites (0, [])).
Proof.
  destruct C82_ex_hyps as (A & B & _ & _ & _ & C). split; auto. split; auto. split; auto.
  split.
  - exists (true, [(text "x", t_int); (text "o", t_struct); (text "s", t_cstr); (text "p", t_ptr)]), (text "s"), t_cstr.
    split; [left; reflexivity|]. split; [right; right; left; reflexivity|]. split; [reflexivity|]. apply has_kind_fn. vm_compute. reflexivity.
  - intros (g & n & t & [<-|[<-|[]]] & _ & P & _); discriminate P.
Qed.
