(** Properties C40, C41, C48, C50, C56: programs instrumented by
    instrumentation/c-cpp.lisp, their logs, and reading these logs.
    [instrumented test sites names types code]: instrumenting a program whose
    logging sites are [sites] gives the arrays [names] and [types] and inserts
    [code]; [test] is the test of the hash tables. *)
From Coq Require Import Strings.String Permutation.
From Verif Require Import BaseProofs Types Stream SkipList AMap MemMapSpec Reader Compare PrintPred FormatSpec ReaderMore ReaderProps.
From Verif Require Import Instr InstrRun InstrSpec InstrText InstrFloat InstrTable InstrConc InstrProofs InstrEnd InstrReq InstrPar InstrParProofs.
From Verif Require Import Lisp InstrIds InstrIdsProofs InstrLine.

(** Keeps string literals folded. *)
Ltac crunch := vm_compute; reflexivity.

(** ** C48 *)

(** For any sequence of requests: in the arrays emitted, every name and every
    type requested is found at the index returned, with its text, format and
    size; the names are distinct (so equal names have equal indices and distinct
    names distinct ones); a type requested twice gets the same index. *)
Theorem C48_indices : forall test kf rs is st names types,
  Forall (request_ok kf) rs -> tells_apart test (map request_text rs) ->
  ask_all test rs istate0 = (is, st) -> emitted test st names types ->
  Forall2 (answers names types) rs is /\ NoDup names /\ (forall n, In n names -> In n (map request_text rs)) /\
  (forall j k t ps i i', nth_error rs j = Some (RType t ps) -> nth_error rs k = Some (RType t ps) ->
     nth_error is j = Some (Some i) -> nth_error is k = Some (Some i') -> i = i').
Proof. exact requests_lemma. Qed.
Print Assumptions C48_indices.

(** Equal names, equal indices; distinct names, distinct indices. *)
Theorem C48_names_injective : forall test kf rs is st names types j k n m i i',
  Forall (request_ok kf) rs -> tells_apart test (map request_text rs) ->
  ask_all test rs istate0 = (is, st) -> emitted test st names types ->
  nth_error rs j = Some (RName n) -> nth_error rs k = Some (RName m) ->
  nth_error is j = Some i -> nth_error is k = Some i' -> (i = i' <-> n = m).
Proof.
  intros test kf rs is st names types j k n m i i' OK TA E EM Hj Hk Ij Ik.
  destruct (requests_lemma _ _ _ _ _ _ _ OK TA E EM) as (A & ND & _).
  destruct (Forall2_nth _ _ _ _ _ A _ _ Hj) as (x & X1 & X2). destruct (Forall2_nth _ _ _ _ _ A _ _ Hk) as (y & Y1 & Y2).
  rewrite Ij in X1. injection X1 as <-. rewrite Ik in Y1. injection Y1 as <-.
  destruct i as [i|], i' as [i'|]; cbn in X2, Y2; try contradiction. split.
  - intros H. injection H as <-. congruence.
  - intros <-. f_equal. rewrite nthN_nth_error in X2, Y2. apply N2Nat.inj. eapply (proj1 (NoDup_nth_error _) ND); [apply nth_error_Some|]; congruence.
Qed.
Print Assumptions C48_names_injective.

(** A single file: the tables use [equal], which tells all texts apart. *)
Theorem C48_single_file : forall texts, tells_apart equal_test texts.
Proof. exact equal_tells. Qed.
Print Assumptions C48_single_file.

(** A project: [equalp] ignores case; it tells apart texts no two of which
    differ only in case, ... *)
Theorem C48_project : forall texts,
  (forall a b, In a texts -> In b texts -> map upcase a = map upcase b -> a = b) -> tells_apart equalp_test texts.
Proof. exact equalp_tells. Qed.
Print Assumptions C48_project.

(** ... but variables foo and Foo get the same index, and the log calls both foo. *)
Theorem C48_project_refuted : exists a b is st, a <> b /\
  ask_all equalp_test [RName a; RName b] istate0 = (is, st) /\ is = [Some 0; Some 0] /\
  (forall names types, emitted equalp_test st names types -> names = [a]).
Proof.
  exists (text "foo"), (text "Foo"), [Some 0; Some 0], (mkI [(text "foo", 0)] [] []). split; [intro H; discriminate (f_equal (hd x00) H)|].
  split; [crunch|]. split; [reflexivity|]. intros names types (nal & tal & P1 & _ & -> & _). cbn [i_names] in P1.
  symmetry in P1. apply Permutation_length_1_inv in P1. subst. crunch.
Qed.
Print Assumptions C48_project_refuted.

(** The names are emitted as string literals: C reads back each name that
    contains no newline (identifiers do not; see the next theorem for types). *)
Theorem C48_literals : forall s rest, ~ In x0a s -> c_literal (lisp_print s ++ rest) = Some (s, rest).
Proof. exact literal_lemma. Qed.
Print Assumptions C48_literals.
Theorem C48_type_texts : forall kf t, type_ok kf t -> ~ In x0a (type_text t) /\ ~ In x00 (type_text t).
Proof. intros kf t OK. split; intros H; destruct (text_chars _ _ _ OK H); congruence. Qed.
Print Assumptions C48_type_texts.

(** For any texts of specifiers, also definitions of structures over several
    lines: the text of a type is one line without blanks at its ends, so it
    is emitted as a literal that C reads back. *)
Theorem C48_one_line : forall t,
  ~ In x0a (type_trace_string t) /\
  (forall b r, type_trace_string t = b :: r \/ type_trace_string t = r ++ [b] -> ~ In b [x20; x09; x0a; x0c; x0d]) /\
  (forall rest, c_literal (lisp_print (type_trace_string t) ++ rest) = Some (type_trace_string t, rest)).
Proof.
  intros t. destruct (trace_string_line t) as [H1 H2]. split; [auto|]. split; [|intros; now apply literal_lemma].
  intros b r E X. specialize (H2 b r E). cbn in X. repeat destruct X as [<-|X]; try discriminate H2. contradiction.
Qed.
Print Assumptions C48_one_line.

(** A pointer to a structure defined in place, [head { newline ...], is called
    [*head]. *)
Theorem C48_struct_pointer : forall n k head s s' rest sp, head <> [] ->
  (forall b r, head = b :: r \/ head = r ++ [b] -> ~ In b [x20; x09; x0a; x0c; x0d]) -> ~ In x0a head ->
  Forall (fun b => b = x20 \/ b = x09) s -> Forall (fun b => b = x20 \/ b = x09) s' ->
  type_trace_string (mkC (repeat DPointer n) (mkSpec k (head ++ s ++ x7b :: s' ++ x0a :: rest) :: sp)) = repeat x2a n ++ head.
Proof.
  intros n k head s s' rest sp NE E NL F F'.
  assert (B : forall l, Forall (fun b => b = x20 \/ b = x09) l -> ~ In x0a l /\ Forall (fun b => is_space b = true) l).
  { intros l G. split.
    - intros X. rewrite Forall_forall in G. destruct (G _ X); discriminate.
    - eapply Forall_impl; [|exact G]. intros b [->| ->]; reflexivity. }
  destruct (B _ F), (B _ F'). apply struct_line; auto.
  intros b r Hb. specialize (E b r Hb). destruct (is_space b) eqn:S; [|reflexivity]. exfalso. apply E.
  destruct b; try discriminate S; cbn; auto 6.
Qed.
Print Assumptions C48_struct_pointer.
Example C48_struct_ex : type_trace_string (mkC [DPointer] [mkSpec KOther (text "struct foo {" ++ x0a :: text "  int x;" ++ x0a :: text "}")]) = text "*struct foo".
Proof. crunch. Qed.

Definition t_int := mkC [] [mkSpec KOther (text "int")].
Definition t_cstr := mkC [DPointer] [mkSpec KQualifier (text "const"); mkSpec KOther (text "char")].
Definition t_ptr := mkC [DPointer] [mkSpec KOther (text "int")].
Definition t_float := mkC [] [mkSpec KOther (text "float")].
Definition t_struct := mkC [] [mkSpec KOther (text "foo_t")].
Definition ex_kf (w : name) : skind := if bytes_eqb w (text "const") then KQualifier else KOther.
Lemma ex_type_ok : Forall (type_ok ex_kf) [t_int; t_cstr; t_ptr; t_float; t_struct].
Proof.
  assert (W : forall s, forallb word_char (text s) = true -> text s <> [] -> word (text s)) by (split; auto).
  repeat constructor; try (intro H; discriminate H); try crunch; intro H; vm_compute in H; discriminate H.
Qed.

(** Two names, one requested twice, a type in between. *)
Example C48_ex : exists st,
  ask_all equal_test [RName (text "x"); RType t_int true; RType t_cstr true; RType t_cstr false; RName (text "y"); RName (text "x"); RType t_struct true] istate0
  = ([Some 0; Some 0; Some 1; Some 2; Some 3; Some 0; None], st) /\
  emitted equal_test st [text "x"; text "int"; text "*const char"; text "y"] [mkT 1 SIGNED 4; mkT 2 BLOB 0; mkT 2 POINTER 8].
Proof.
  eexists. split; [crunch|]. do 2 eexists. split; [apply Permutation_refl|]. split; [apply Permutation_refl|]. split; crunch.
Qed.

(** ** C40, C41 *)

(** The program of the examples: two sites. *)
Definition ex_sites : list site :=
  [(5, [(true, [(text "x", t_int); (text "o", t_struct); (text "s", t_cstr); (text "p", t_ptr)])]);
   (9, [(false, [(text "f", t_float); (text "s", t_cstr)]); (false, [(text "x", t_int)])])].
Definition ex_env (x : Z) (n : name) : rvalue :=
  if bytes_eqb n (text "x") then RInt x
  else if bytes_eqb n (text "s") then RPtr 4096 (text "hi")
  else if bytes_eqb n (text "f") then RFloat 1065353216
  else RPtr 64 [].
Definition ex_threads : list (list event) :=
  [[(0%nat, ex_env (-3)); (1%nat, ex_env 7)]; [(1%nat, ex_env 8)]].

Lemma ex_sites_ok : Forall (site_ok ex_kf) ex_sites.
Proof.
  pose proof ex_type_ok as T. inversion T as [|? ? T1 R1]; subst. inversion R1 as [|? ? T2 R2]; subst. inversion R2 as [|? ? T3 R3]; subst.
  inversion R3 as [|? ? T4 R4]; subst. inversion R4 as [|? ? T5 _]; subst. clear T R1 R2 R3 R4.
  assert (NF : forall l, existsb (Byte.eqb x00) l = false -> nul_free l).
  { intros l E H. assert (X : existsb (Byte.eqb x00) l = true) by (apply existsb_exists; exists x00; split; [auto|reflexivity]). congruence. }
  assert (W : forall t, c_decl t = [] \/ words t <> [text "string"] /\ words t <> [text "std::string"] ->
    c_decl t <> [] -> words t <> [text "string"] /\ words t <> [text "std::string"]) by (intros t [H|H] X; [congruence|exact H]).
  constructor; [|constructor; [|constructor]]; (split; [reflexivity|split; [|split]]).
  - repeat (constructor; [apply NF; crunch|]). constructor.
  - repeat (constructor; [assumption|]). constructor.
  - constructor; [|constructor]. intros _. cbn [fst snd].
    repeat (constructor; [apply W; first [left; reflexivity | right; split; intro X; vm_compute in X; discriminate X]|]). constructor.
  - repeat (constructor; [apply NF; crunch|]). constructor.
  - repeat (constructor; [assumption|]). constructor.
  - repeat (constructor; [intro X; discriminate X|]). constructor.
Qed.

Lemma ex_events_ok : Forall (Forall (event_ok ex_sites)) ex_threads.
Proof.
  assert (K : forall t k k', kind_fn t = Some k' -> has_kind t k -> k = k') by (intros t k k' E H; apply has_kind_fn in H; congruence).
  assert (K0 : forall t k, kind_fn t = None -> has_kind t k -> False) by (intros t k E H; apply has_kind_fn in H; congruence).
  assert (S : forall k v x, (kind_fn t_int = Some (CInt true 4)) /\ (kind_fn t_cstr = Some CCharPointer) /\ (kind_fn t_ptr = Some CPointer) /\
     kind_fn t_float = Some CFloat /\ kind_fn t_struct = None /\
     ex_env x (text "x") = RInt x /\ ex_env x (text "s") = RPtr 4096 (text "hi") /\ ex_env x (text "f") = RFloat 1065353216 /\ ex_env x (text "p") = RPtr 64 [] /\ k = v \/ k <> v :> N).
  { intros k v x. destruct (N.eq_dec k v); [left|right; auto]. conj_split; auto; crunch. }
  destruct (S 0 0 0%Z) as [(S1 & S2 & S3 & S4 & S5 & _)|X]; [|congruence].
  assert (E1 : forall x, (-10 <= x < 10)%Z -> env_ok (nth 0 ex_sites (0, [])) (ex_env x)).
  { intros x Hx. destruct (S 0 0 x) as [(_ & _ & _ & _ & _ & V1 & V2 & V3 & V4 & _)|X]; [|congruence].
    constructor; [|constructor]. constructor; [|constructor; [|constructor; [|constructor; [|constructor]]]]; cbn [fst snd]; intros k HK.
    - rewrite (K _ _ _ S1 HK), V1. split; [cbn; lia|exact I].
    - destruct (K0 _ _ S5 HK).
    - rewrite (K _ _ _ S2 HK), V2. split; [split; [reflexivity|]|reflexivity]. intro H. vm_compute in H. intuition discriminate.
    - rewrite (K _ _ _ S3 HK), V4. split; [reflexivity|exact I]. }
  assert (E2 : forall x, (-10 <= x < 10)%Z -> env_ok (nth 1 ex_sites (0, [])) (ex_env x)).
  { intros x Hx. destruct (S 0 0 x) as [(_ & _ & _ & _ & _ & V1 & V2 & V3 & V4 & _)|X]; [|congruence].
    cbn [nth ex_sites]. unfold env_ok. cbn [snd].
    apply Forall_cons; [apply Forall_cons; [|apply Forall_cons; [|apply Forall_nil]]|apply Forall_cons; [apply Forall_cons; [|apply Forall_nil]|apply Forall_nil]]; cbn [fst snd]; intros k HK.
    - rewrite (K _ _ _ S4 HK), V3. split; [reflexivity|]. intros (H & _). vm_compute in H. discriminate H.
    - rewrite (K _ _ _ S2 HK), V2. split; [split; [reflexivity|]|reflexivity]. intro H. vm_compute in H. intuition discriminate.
    - rewrite (K _ _ _ S1 HK), V1. split; [cbn; lia|exact I]. }
  apply Forall_cons; [apply Forall_cons; [|apply Forall_cons; [|apply Forall_nil]]|apply Forall_cons; [apply Forall_cons; [|apply Forall_nil]|apply Forall_nil]]; eexists; (split; [reflexivity|]).
  - apply E1. lia.
  - apply E2. lia.
  - apply E2. lia.
Qed.

Definition ex_names : list name := [text "int"; text "x"; text "*const char"; text "s"; text "*int"; text "p"; text "float"; text "f"].
Definition ex_types : list tdesc := [mkT 0 SIGNED 4; mkT 2 BLOB 0; mkT 4 POINTER 8; mkT 6 FLOAT 4; mkT 2 POINTER 8].
Definition ex_code : list (list istmt) := Eval vm_compute in fst (instrument_all equal_test ex_sites istate0).
Example ex_instrumented : instrumented equal_test ex_sites ex_names ex_types ex_code /\ fits ex_names ex_types.
Proof.
  split; [|split; [|split]; crunch]. do 3 eexists. split; [crunch|]. split; [apply Permutation_refl|]. split; [apply Permutation_refl|]. split; crunch.
Qed.

(** C41.  All passes of all threads through sites run without error, and once
    the program has finished (whatever the schedule), reading its log yields
    exactly the passes, in an order that respects each thread's order, with
    the statement ids, and for each pass the variables logged, each with its
    name, the text of its type and its value.  [ok]: allocations up to the
    size of the log succeed. *)
Theorem C41_log_read_back : forall test kf sites names types code,
  Forall (site_ok kf) sites -> tells_apart test (all_texts sites) ->
  instrumented test sites names types code -> fits names types ->
  forall ths, Forall (Forall (event_ok sites)) ths ->
  exists acts, Forall2 (Forall2 (fun e a => event_run code e = Ok a)) ths acts /\
    forall s, rsteps (rstart names types (map (@concat action) acts)) s -> Forall (eq []) (r_threads s) ->
    forall ok coins pos t, (forall n, n <= lenN (r_out s) -> ok n = true) ->
    exists order tr, merge ths order /\ reads ok coins pos t 0 (r_out s) = Ok tr /\
      tr_names tr = names /\ tr_types tr = types /\ Forall2 (event_shows sites tr) order (tr_points tr) /\
      (order <> [] -> r_disk s = lenN (r_out s)).
Proof. intros test kf sites names types code S T. exact (end_lemma test kf sites S T names types code). Qed.
Print Assumptions C41_log_read_back.
Example C41_hyps : Forall (site_ok ex_kf) ex_sites /\ tells_apart equal_test (all_texts ex_sites) /\
  instrumented equal_test ex_sites ex_names ex_types ex_code /\ fits ex_names ex_types /\
  Forall (Forall (event_ok ex_sites)) ex_threads.
Proof. exact (conj ex_sites_ok (conj (equal_tells _) (conj (proj1 ex_instrumented) (conj (proj2 ex_instrumented) ex_events_ok)))). Qed.
Example C41_ex : exists a b tr, event_run ex_code (0%nat, ex_env (-3)) = Ok a /\ event_run ex_code (1%nat, ex_env 7) = Ok b /\
  (forall coins pos t, reads (fun _ => true) coins pos t 0 (written (write_trace_header ex_names ex_types) ++ written a ++ written b) = Ok tr) /\
  tr_points tr = [mkP 0 (Some 5) [] [mkV (VBits (2 ^ 64 - 3)) 1 0 SIGNED 4 0 0; mkV (VBits 64) 5 2 POINTER 8 0 0; mkV (VBlob (text "hi")) 3 1 BLOB 2 0 0] [];
                  mkP 1 (Some 9) [] [mkV (VBits 1065353216) 7 3 FLOAT 4 0 0; mkV (VBits 4096) 3 4 POINTER 8 0 0; mkV (VBits 7) 1 0 SIGNED 4 0 0] []].
Proof.
  do 2 eexists. exists (mkTr ex_names ex_types [mkP 0 (Some 5) [] [mkV (VBits (2 ^ 64 - 3)) 1 0 SIGNED 4 0 0; mkV (VBits 64) 5 2 POINTER 8 0 0; mkV (VBlob (text "hi")) 3 1 BLOB 2 0 0] [];
                  mkP 1 (Some 9) [] [mkV (VBits 1065353216) 7 3 FLOAT 4 0 0; mkV (VBits 4096) 3 4 POINTER 8 0 0; mkV (VBits 7) 1 0 SIGNED 4 0 0] []]).
  split; [crunch|]. split; [crunch|]. split; [|reflexivity]. intros. unfold reads. rewrite read_trace_transfer. destruct t; crunch.
Qed.

(** A signalling float NaN is logged as a quiet NaN: passing a float to a
    variadic function converts it to double. *)
Theorem C41_signalling_refuted : exists sites names types code env a tr,
  Forall (site_ok ex_kf) sites /\ instrumented equal_test sites names types code /\
  inhabits CFloat (env (text "f")) /\ env (text "f") = RFloat (2 ^ 31 - 2 ^ 23 + 1) /\
  event_run code (0%nat, env) = Ok a /\
  (forall coins pos t, reads (fun _ => true) coins pos t 0 (written (write_trace_header names types) ++ written a) = Ok tr) /\
  tr_points tr = [mkP 0 (Some 3) [] [mkV (VBits (2 ^ 31 - 2 ^ 22 + 1)) 1 0 FLOAT 4 0 0] []].
Proof.
  exists [(3, [(false, [(text "f", t_float)])])], [text "float"; text "f"], [mkT 0 FLOAT 4].
  exists [[IId 3; IVars [mkVA 1 0 4 FLOAT (text "f")]; IEnd]], (fun _ => RFloat (2 ^ 31 - 2 ^ 23 + 1)).
  eexists. exists (mkTr [text "float"; text "f"] [mkT 0 FLOAT 4] [mkP 0 (Some 3) [] [mkV (VBits (2 ^ 31 - 2 ^ 22 + 1)) 1 0 FLOAT 4 0 0] []]).
  split; [|split; [|split; [|split; [|split; [|split]]]]].
  - constructor; [|constructor]. pose proof ex_type_ok as T. inversion T as [|? ? T1 R1]; subst. inversion R1 as [|? ? T2 R2]; subst.
    inversion R2 as [|? ? T3 R3]; subst. inversion R3 as [|? ? T4 R4]; subst. clear -T4.
    split; [reflexivity|]. split; [|split]; cbn.
    + constructor; [|constructor]. intro H. vm_compute in H. intuition discriminate.
    + constructor; [exact T4|constructor].
    + constructor; [intro H; discriminate H|constructor].
  - do 3 eexists. split; [crunch|]. split; [apply Permutation_refl|]. split; [apply Permutation_refl|]. split; crunch.
  - reflexivity.
  - reflexivity.
  - crunch.
  - intros. unfold reads. rewrite read_trace_transfer. destruct t; crunch.
  - reflexivity.
Qed.
Print Assumptions C41_signalling_refuted.

(** C40.  At any moment of any schedule the bytes written are the header, whole
    points of passes in an order that respects each thread's order, and at most
    one unfinished point, of the thread that holds the lock; after a crash
    reading what had reached the file, limited to the points finished, yields
    exactly these. *)
Theorem C40_whole_points : forall test kf sites names types code,
  Forall (site_ok kf) sites -> tells_apart test (all_texts sites) ->
  instrumented test sites names types code -> fits names types ->
  forall ths, Forall (Forall (event_ok sites)) ths ->
  exists acts, Forall2 (Forall2 (fun e a => event_run code e = Ok a)) ths acts /\
    forall s, rsteps (rstart names types (map (@concat action) acts)) s ->
    exists order rest done part, merge ths (order ++ rest) /\
      Forall2 (fun e a => event_run code e = Ok a) order done /\
      r_out s = enc_header names types ++ concat (map written done) ++ part /\
      (r_lock s = None -> part = []) /\
      (part <> [] -> exists e rest' a more, rest = e :: rest' /\ event_run code e = Ok a /\ written a = part ++ more) /\
      (order <> [] ->
       forall ok coins pos t, (forall n, n <= lenN (r_out s) -> ok n = true) ->
       exists tr, reads ok coins pos t (lenN order) (takeN (r_disk s) (r_out s)) = Ok tr /\
         tr_names tr = names /\ tr_types tr = types /\ Forall2 (event_shows sites tr) order (tr_points tr)).
Proof. intros test kf sites names types code S T. exact (crash_lemma test kf sites S T names types code). Qed.
Print Assumptions C40_whole_points.
(* [C41_hyps] meets the hypotheses. *)

(** No deadlock: from every reachable state the program can run to its end, ... *)
Theorem C40_finishes : forall test kf sites names types code,
  Forall (site_ok kf) sites -> tells_apart test (all_texts sites) ->
  instrumented test sites names types code -> fits names types ->
  forall ths acts, Forall (Forall (event_ok sites)) ths ->
  Forall2 (Forall2 (fun e a => event_run code e = Ok a)) ths acts ->
  forall s, rsteps (rstart names types (map (@concat action) acts)) s ->
  exists s', rsteps s s' /\ Forall (eq []) (r_threads s').
Proof. intros test kf sites names types code S T. exact (finish_lemma test kf sites S T names types code). Qed.
Print Assumptions C40_finishes.
(** ... and some thread can always make a step (so no thread waits for ever). *)
Theorem C40_progress : forall test kf sites names types code,
  Forall (site_ok kf) sites -> tells_apart test (all_texts sites) ->
  instrumented test sites names types code -> fits names types ->
  forall ths acts, Forall (Forall (event_ok sites)) ths ->
  Forall2 (Forall2 (fun e a => event_run code e = Ok a)) ths acts ->
  forall s, rsteps (rstart names types (map (@concat action) acts)) s -> ~ Forall (eq []) (r_threads s) ->
  exists s', rstep s s' /\ length (concat (r_threads s)) = S (length (concat (r_threads s'))).
Proof. intros test kf sites names types code S T. exact (live_lemma test kf sites S T names types code). Qed.
Print Assumptions C40_progress.

(** ** C50 *)

(** Requests of several threads that do not overlap in time are answered
    consistently, ... *)
Theorem C50_no_overlap : forall test kf reqs s names types,
  Forall (request_ok kf) (concat reqs) -> tells_apart test (map request_text (concat reqs)) ->
  xsteps test (pstart reqs) s -> finished s -> emitted test (ps_tab s) names types ->
  map (fun t => map fst (pt_done t)) (ps_threads s) = reqs /\ NoDup names /\
  forall t r i, In t (ps_threads s) -> In (r, i) (pt_done t) -> answers names types r i.
Proof. exact exclusive_lemma. Qed.
Print Assumptions C50_no_overlap.

(** ... in particular those of a single thread, whatever it does. *)
Theorem C50_one_thread : forall test kf rs s names types,
  Forall (request_ok kf) rs -> tells_apart test (map request_text rs) ->
  psteps test (pstart [rs]) s -> finished s -> emitted test (ps_tab s) names types ->
  forall t r i, In t (ps_threads s) -> In (r, i) (pt_done t) -> answers names types r i.
Proof.
  intros test kf rs s names types OK TA R F EM. destruct (one_alone _ _ _ R) as [X _].
  assert (C : concat [rs] = rs) by (cbn; apply app_nil_r).
  apply (exclusive_lemma test kf [rs] s names types); auto; rewrite C; auto.
Qed.
Print Assumptions C50_one_thread.

Ltac pgo := first [eapply ps_start; [reflexivity|crunch] | eapply ps_goes; [reflexivity|crunch] | eapply ps_done; [reflexivity|crunch]].

Lemma pss_pre : forall test i s s' s'', pstep test i s s' -> psteps test s' s'' -> psteps test s s''.
Proof. intros test i s s' s'' S R. induction R as [s'|s' j a b R IH X]; [eapply pss_step; [apply pss_refl|eauto]|eapply pss_step; eauto]. Qed.
Lemma xs_pre : forall test i s s' s'', alone i s -> pstep test i s s' -> xsteps test s' s'' -> xsteps test s s''.
Proof. intros test i s s' s'' A S R. induction R as [s'|s' j a b R IH Y X]; [eapply xs_step; [apply xs_refl|eauto|eauto]|eapply xs_step; eauto]. Qed.

(** Two threads, requests one after the other: the hypotheses of C50_no_overlap are met. *)
Example C50_ex : exists s, xsteps equal_test (pstart [[RName (text "a")]; [RName (text "b")]]) s /\ finished s /\
  map pt_done (ps_threads s) = [[(RName (text "a"), Some 0)]; [(RName (text "b"), Some 1)]].
Proof.
  eexists. split; [|split].
  - assert (A0 : forall st r0 r1 p d0 d1, alone 0 (mkPS st [mkPT p r0 d0; mkPT None r1 d1])).
    { intros st r0 r1 p d0 d1 [|[|[|j]]] t H N; cbn in H; try discriminate; try congruence. injection H as <-. reflexivity. }
    assert (A1 : forall st r0 r1 p d0 d1, alone 1 (mkPS st [mkPT None r0 d0; mkPT p r1 d1])).
    { intros st r0 r1 p d0 d1 [|[|[|j]]] t H N; cbn in H; try discriminate; try congruence. injection H as <-. reflexivity. }
    eapply (xs_pre _ 0); [apply A0|pgo|]. eapply (xs_pre _ 0); [apply A0|pgo|]. eapply (xs_pre _ 0); [apply A0|pgo|]. eapply (xs_pre _ 0); [apply A0|pgo|].
    eapply (xs_pre _ 1); [apply A1|pgo|]. eapply (xs_pre _ 1); [apply A1|pgo|]. eapply (xs_pre _ 1); [apply A1|pgo|]. eapply (xs_pre _ 1); [apply A1|pgo|].
    apply xs_refl.
  - repeat constructor.
  - reflexivity.
Qed.

(** Overlapping requests: two different names get the same index, so that one
    variable is logged under the name of the other, ... *)
Theorem C50_overlap_refuted : exists a b s, a <> b /\ psteps equal_test (pstart [[RName a]; [RName b]]) s /\ finished s /\
  map pt_done (ps_threads s) = [[(RName a, Some 0)]; [(RName b, Some 0)]] /\
  forall names types, ~ (answers names types (RName a) (Some 0) /\ answers names types (RName b) (Some 0)).
Proof.
  exists (text "a"), (text "b"). eexists. split; [intro H; discriminate (f_equal (hd x00) H)|]. split; [|split; [|split]].
  - eapply (pss_pre _ 0); [pgo|]. eapply (pss_pre _ 0); [pgo|]. eapply (pss_pre _ 0); [pgo|].
    eapply (pss_pre _ 1); [pgo|]. eapply (pss_pre _ 1); [pgo|]. eapply (pss_pre _ 1); [pgo|].
    eapply (pss_pre _ 0); [pgo|]. eapply (pss_pre _ 1); [pgo|]. apply pss_refl.
  - repeat constructor.
  - reflexivity.
  - intros names types [H1 H2]. cbn in H1, H2. rewrite H1 in H2. injection H2 as H2. discriminate H2.
Qed.
Print Assumptions C50_overlap_refuted.

(** ... and the same name requested by two threads can get an index outside the
    array of names; a log of that variable is rejected by the reader. *)
Theorem C50_lost_index_refuted : exists a s, psteps equal_test (pstart [[RName a]; [RName a]]) s /\ finished s /\
  map pt_done (ps_threads s) = [[(RName a, Some 0)]; [(RName a, Some 1)]] /\
  (forall names types, emitted equal_test (ps_tab s) names types -> names = [a]) /\
  (forall coins pos t, reads (fun _ => true) coins pos t 0
     (enc_file (mkF [a] [mkT 0 SIGNED 4] [[EStmt 1; EVar 1 0 (le_bytes 4 7)]])) = Throw EInvalidNameIndex).
Proof.
  exists (text "a"). eexists. split; [|split; [|split; [|split]]].
  - eapply (pss_pre _ 0); [pgo|]. eapply (pss_pre _ 1); [pgo|]. eapply (pss_pre _ 0); [pgo|]. eapply (pss_pre _ 1); [pgo|].
    eapply (pss_pre _ 0); [pgo|]. eapply (pss_pre _ 0); [pgo|]. eapply (pss_pre _ 1); [pgo|]. eapply (pss_pre _ 1); [pgo|]. apply pss_refl.
  - repeat constructor.
  - reflexivity.
  - intros names types (nal & tal & P1 & _ & -> & _). cbn in P1.
    symmetry in P1. apply Permutation_length_1_inv in P1. subst. crunch.
  - intros. unfold reads. rewrite read_trace_transfer. destruct t; crunch.
Qed.
Print Assumptions C50_lost_index_refuted.

(** ** C56 *)

(** When a project is instrumented, all statements of all files get different
    64-bit ids, and the Lisp client decodes the id of statement i of the k-th
    file (in the order of instrumentation-files) to file k and statement i. *)
Theorem C56_project_ids_distinct : forall fs, lenN fs <= 2 ^ 23 -> Forall (fun f => pf_asts f <= 2 ^ 40) fs ->
  NoDup (concat (project_ids fs)) /\ length (project_ids fs) = length fs.
Proof. intros. split; [apply project_nodup; auto|apply project_length]. Qed.
Print Assumptions C56_project_ids_distinct.
Theorem C56_project_ids_decoded : forall fs k i ids id, lenN fs <= 2 ^ 23 -> Forall (fun f => pf_asts f <= 2 ^ 40) fs ->
  nth_error (project_ids fs) k = Some ids -> nth_error ids i = Some id ->
  id < 2 ^ 64 /\ unpack_f id = Some (N.of_nat k) /\ unpack_c id = N.of_nat i.
Proof. exact project_decode. Qed.
Print Assumptions C56_project_ids_decoded.
Theorem C56_files_in_order : forall fs k ids, nth_error (project_ids fs) k = Some ids ->
  exists f, nth_error (instrumentation_files fs) k = Some f /\ lenN ids = pf_asts f.
Proof.
  intros fs k ids H. rewrite project_ids_eq, nth_error_map in H. destruct (nth_error (numbered_files _) k) as [[j f]|] eqn:E; [|discriminate].
  apply some_inj in H. subst ids. unfold numbered_files in E. apply combine_nth_inv in E. exists f. split; [apply E|].
  unfold get_ast_ids, lenN. rewrite map_length, upfrom_length. cbn. lia.
Qed.
Print Assumptions C56_files_in_order.
Example C56_ex : project_ids [mkPF true 2; mkPF false 3] = [[2 ^ 63; 2 ^ 63 + 1; 2 ^ 63 + 2]; [2 ^ 63 + 2 ^ 40; 2 ^ 63 + 2 ^ 40 + 1]].
Proof. crunch. Qed.
