(** Property C82: the C text that the instrumenter inserts.  A C compiler that
    reads it ([CRead.v]) finds exactly the calls and tables that the variables
    of each place ask for ([EmitSpec.v]). *)
From Coq Require Import Strings.String Permutation.
From Verif Require Import BaseProofs Types Stream SkipList AMap MemMapSpec Reader Compare PrintPred FormatSpec ReaderMore ReaderProps.
From Verif Require Import Instr InstrRun InstrSpec InstrText InstrTable InstrConc InstrProofs InstrEnd InstrReq P_Instr.
From Verif Require Import Dec DecProofs CRead Emit EmitSpec EmitProofs EmitProofs2.

(** For every program (variables with identifiers as names), both hash table
    tests that tell its texts apart, every order in which hash tables are
    listed, every log file and handshake variable: the setup code and the code
    of all places are read without error; the places have the calls for their
    variables, with indices, sizes, formats and expressions that agree with the
    arrays of the setup code; the lengths passed to the header are those of the
    arrays; and the log goes where it should. *)
Theorem C82_program : forall test kf sites handshake f env goes st_text texts,
  Forall (site_ok kf) sites -> Forall identifiers sites -> tells_apart test (all_texts sites) ->
  plain_text handshake -> log_goes f env goes ->
  emits test sites handshake f env st_text texts ->
  exists names types code,
    reads_program st_text texts (mkSetup names types (lenN names, lenN types) goes handshake) code /\
    Forall2 (site_stmts names types) sites code /\
    instrumented test sites names types (map (map meaning) code).
Proof. exact program_lemma. Qed.
Print Assumptions C82_program.

(** So the theorems about logs (C40, C41) hold of the program that the compiler
    reads from the text; the log of all its threads is read back as it ran. *)
Theorem C82_log_read_back : forall test kf sites handshake f env goes st_text texts,
  Forall (site_ok kf) sites -> Forall identifiers sites -> tells_apart test (all_texts sites) ->
  plain_text handshake -> log_goes f env goes ->
  emits test sites handshake f env st_text texts ->
  exists su code, reads_program st_text texts su code /\ su_log su = goes /\ su_handshake su = handshake /\
    su_counts su = (lenN (su_names su), lenN (su_types su)) /\
    (fits (su_names su) (su_types su) ->
     forall ths, Forall (Forall (event_ok sites)) ths ->
     exists acts, Forall2 (Forall2 (fun e a => event_run (map (map meaning) code) e = Ok a)) ths acts /\
       forall s, rsteps (rstart (su_names su) (su_types su) (map (@concat action) acts)) s -> Forall (eq []) (r_threads s) ->
       forall ok coins pos t, (forall n, n <= lenN (r_out s) -> ok n = true) ->
       exists order tr, merge ths order /\ InstrEnd.reads ok coins pos t 0 (r_out s) = Ok tr /\
         tr_names tr = su_names su /\ tr_types tr = su_types su /\ Forall2 (event_shows sites tr) order (tr_points tr)).
Proof.
  intros test kf sites handshake f env goes st_text texts SOK ID TA P L EM.
  destruct (program_lemma _ _ _ _ _ _ _ _ _ SOK ID TA P L EM) as (names & types & code & RP & _ & IN).
  exists (mkSetup names types (lenN names, lenN types) goes handshake), code. cbn [su_names su_types su_counts su_log su_handshake].
  split; auto. split; auto. split; auto. split; auto. intros FT ths TH.
  destruct (C41_log_read_back test kf sites names types _ SOK TA IN FT ths TH) as (acts & EA & H). exists acts. split; auto.
  intros s RS FIN ok coins pos t OK. destruct (H s RS FIN ok coins pos t OK) as (order & tr & M & R & N & T & S & _). exists order, tr. auto.
Qed.
Print Assumptions C82_log_read_back.

(** The name of an environment variable is put into the code without quotes:
    for every identifier the log is opened with getenv of the C variable of that
    name, which the setup code does not declare, and not with the value of the
    environment variable.  (A name with its quotes works, see [lg_env].) *)
Theorem C82_environment_refuted : forall test kf sites handshake e st_text texts,
  Forall (site_ok kf) sites -> Forall identifiers sites -> tells_apart test (all_texts sites) ->
  plain_text handshake -> identifier e ->
  emits test sites handshake FNone (Some e) st_text texts ->
  exists l, lex st_text = Some l /\
    assigned log_var l = Some [KId (text "fopen"); KPunct x28; KId (text "getenv"); KPunct x28; KId e; KPunct x29; KPunct x2c; KStr (text "w"); KPunct x29] /\
    read_log l = None.
Proof. exact env_program. Qed.
Print Assumptions C82_environment_refuted.

(** The handshake variable is put between quotes as it is: a backslash or a
    quote in it changes the code. *)
Theorem C82_handshake_refuted : exists h sites st_text texts, one_line h /\
  emits equal_test sites h FStderr None st_text texts /\
  forall su, reads_setup st_text su -> su_handshake su <> h.
Proof.
  exists (text "a\\b"), [], (setup_text equal_test tstate0 [] [] (text "a\\b") FStderr None), []. split; [|split].
  - intro H. vm_compute in H. intuition discriminate.
  - exists tstate0, [], []. repeat split; constructor.
  - intros su (ts & L & _ & _ & _ & _ & H) E.
    assert (X : match lex (setup_text equal_test tstate0 [] [] (text "a\\b") FStderr None) with Some l => read_handshake l | None => None end = Some (text "a\b"))
      by (vm_compute; reflexivity).
    rewrite L, H, E in X. discriminate X.
Qed.
Print Assumptions C82_handshake_refuted.

(** ** Constants *)

(** The enumerators of enum [x] in C text, in order. *)
Fixpoint enum_of (x : name) (ts : list ctok) : option (list (list ctok)) :=
  match ts with
  | KId y :: r =>
      match r with
      | KPunct x7b :: q => if bytes_eqb x y then option_map (CRead.split x2c 0 []) (inside 0 q) else enum_of x r
      | _ => enum_of x r
      end
  | _ :: r => enum_of x r
  | [] => None
  end.
(** The value of an enumerator; the first may have = 0. *)
Fixpoint position (x : name) (i : N) (l : list (list ctok)) : option N :=
  match l with
  | [] => None
  | e :: r => match e with
              | [KId y] => if bytes_eqb x y then Some i else position x (i + 1) r
              | [KId y; KPunct x3d; KNum z] => match num_value z with
                                               | Some (n, false) => if bytes_eqb x y then Some n else position x (n + 1) r
                                               | _ => None
                                               end
              | _ => None
              end
  end.
Definition enum_value (enum x : name) (l : list byte) : option N :=
  match lex l with Some ts => match enum_of enum ts with Some es => position x 0 es | None => None end | None => None end.

(** The constants by which the inserted code names formats have, in the
    declarations inserted, the values by which the reader knows these formats. *)
Theorem C82_formats : forall x f, fmt_constant x = Some f ->
  enum_value (text "__type_format") x declared_enums = Some (fmt_code f).
Proof.
  intros x f H. unfold fmt_constant in H. destruct (find (fun p : list byte * fmt => bytes_eqb (fst p) x) fmt_constants) as [[y g]|] eqn:F; [|discriminate]. injection H as <-.
  apply find_some in F. destruct F as [I E]. apply beq in E. cbn [fst] in E. subst y. unfold fmt_constants in I. cbn [In] in I.
  repeat (destruct I as [I|I]; [injection I as <- <-; vm_compute; reflexivity|]). destruct I.
Qed.
Print Assumptions C82_formats.
(** All formats have a constant, and the tags are those the reader knows
    (TracePoint.hpp:263-302). *)
Theorem C82_formats_all : forall f, exists x, fmt_constant x = Some f.
Proof.
  intros f. destruct f; [exists (text "__GT_TRACEDB_UNSIGNED")|exists (text "__GT_TRACEDB_SIGNED")|exists (text "__GT_TRACEDB_FLOAT")
    |exists (text "__GT_TRACEDB_POINTER")|exists (text "__GT_TRACEDB_BLOB")|exists (text "__GT_TRACEDB_INVALID_FORMAT")]; vm_compute; reflexivity.
Qed.
Print Assumptions C82_formats_all.
Example C82_tags : map (fun x => enum_value (text "__trace_entry_tag") x declared_enums)
  [text "__GT_TRACEDB_END_ENTRY"; text "__GT_TRACEDB_STATEMENT_ID"; text "__GT_TRACEDB_VARIABLE"; text "__GT_TRACEDB_BUFFER_SIZE"; text "__GT_TRACEDB_AUXILIARY"]
  = [Some 0; Some 1; Some 2; Some 3; Some 4].
Proof. vm_compute. reflexivity. Qed.

(** ** A program *)
Lemma ex_identifiers : Forall identifiers ex_sites.
Proof. repeat constructor. Qed.
Definition ex_text : name := setup_text equal_test (snd (instrument_all_t equal_test ex_sites tstate0))
  (t_names (snd (instrument_all_t equal_test ex_sites tstate0))) (t_descs (snd (instrument_all_t equal_test ex_sites tstate0)))
  (text "SEL_HANDSHAKE_FILE") (FName (text "/tmp/a ""b""\c")) None.
Example C82_ex_hyps : Forall (site_ok ex_kf) ex_sites /\ Forall identifiers ex_sites /\ tells_apart equal_test (all_texts ex_sites) /\
  plain_text (text "SEL_HANDSHAKE_FILE") /\ log_goes (FName (text "/tmp/a ""b""\c")) None (ToFile (text "/tmp/a ""b""\c")) /\
  emits equal_test ex_sites (text "SEL_HANDSHAKE_FILE") (FName (text "/tmp/a ""b""\c")) None ex_text (fst (instrument_all_t equal_test ex_sites tstate0)).
Proof.
  split; [exact ex_sites_ok|]. split; [exact ex_identifiers|]. split; [apply equal_tells|].
  split; [repeat split; intro H; vm_compute in H; intuition discriminate|]. split; [constructor; intro H; vm_compute in H; intuition discriminate|].
  do 3 eexists. split; [apply surjective_pairing|]. repeat split; apply Permutation_refl.
Qed.
(** The text at the first place, and what it is read as. *)
Example C82_ex_text : hd [] (fst (instrument_all_t equal_test ex_sites tstate0)) = text "
__write_trace_id(__sel_trace_file, __sel_trace_file_lock, 5u);__write_trace_variables(__sel_trace_file, 2, 1, 0, sizeof(int), __GT_TRACEDB_SIGNED, x, 5, 2, sizeof(void*), __GT_TRACEDB_POINTER, p);__write_trace_blobs(__sel_trace_file, 1, 3, 1, strlen(s), s);__write_end_entry(__sel_trace_file, __sel_trace_file_lock);
" /\ read_stmts (hd [] (fst (instrument_all_t equal_test ex_sites tstate0))) =
  Some [PId 5; PVars [mkVA 1 0 4 SIGNED (text "x"); mkVA 5 2 8 POINTER (text "p")]; PBlobs [(mkBA 3 1 (text "s"), ByStrlen)]; PEnd].
Proof. split; vm_compute; reflexivity. Qed.
Example C82_ex_setup : match lex ex_text with
  | Some l => read_names l = Some ex_names /\ read_types l = Some ex_types /\ read_counts l = Some (8, 5) /\
              read_log l = Some (ToFile (text "/tmp/a ""b""\c")) /\ read_handshake l = Some (text "SEL_HANDSHAKE_FILE")
  | None => False
  end.
Proof. vm_compute. repeat split; reflexivity. Qed.
