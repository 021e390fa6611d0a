(** Property C80: what a query says about a run of the instrumented program.
    The whole way: the program logs, add_trace reads the log, query_trace
    answers; the answers are stated in terms of the values the variables of the
    program had (EndSpec.v). *)
From Coq Require Import Strings.String Permutation.
From Verif Require Import BaseProofs Types Stream Reader SkipList FormatSpec AMap ReaderProps Compare PrintPred Predicate PredSpec Query QuerySpec MemMapSpec ReaderMore CApi CApiSpec.
From Verif Require Import Instr InstrRun InstrSpec InstrText InstrTable InstrConc InstrProofs InstrEnd InstrReq P_Instr EndSpec EndProofs EndProofs2 EndProofs3.
From Verif Require Splice SpliceSpec SpliceTrace P_Splice.

(** C80.  Whatever the schedule, once the program has finished its log can be
    added to any database, and there is an order of the events of the run,
    respecting each thread's order, such that every query about values of
    variables returns exactly the choices of logged variables that made the
    condition true: for each event at a wanted statement, in the order of the
    run, and for each event once per choice, in ascending order. *)
Theorem C80_answers : forall test kf sites names types code,
  Forall (site_ok kf) sites -> tells_apart test (all_texts sites) ->
  instrumented test sites names types code -> InstrSpec.fits names types ->
  forall ths, Forall (Forall (event_ok sites)) ths ->
  exists acts, Forall2 (Forall2 (fun e a => event_run code e = Ok a)) ths acts /\
    forall s, rsteps (rstart names types (map (@concat action) acts)) s -> Forall (eq []) (r_threads s) ->
    forall ok, (forall n, n <= lenN (r_out s) -> ok n = true) -> (forall n, n < 2 ^ 64 -> ok n = true) ->
    exists order, merge ths order /\
      forall coins pos t garbage grow d, exists d',
        add_trace ok (skip_map coins pos) garbage grow d (Ok (r_out s, t)) 0 = Ok (true, d') /\
        forall O pick hash W e q, question names types W e q -> no_floats sites W e -> few_choices sites W ->
        exists rs d'', query_trace unit (direct O) ok pick hash d' tt (lenN (db_traces d)) q = Ok (rs, d'', tt) /\
          answers_run names types sites W e (cq_mask q) (cq_stmt q) order rs.
Proof.
  intros test kf sites names types code S T I F ths EV.
  destruct (C41_log_read_back test kf sites names types code S T I F ths EV) as (acts & A1 & A2). exists acts. split; [exact A1|].
  intros s R FIN ok OK MEM.
  destruct (A2 s R FIN ok (fun _ => true) 0%nat TailEof OK) as (order & tr & M & RD & N1 & N2 & SH & _).
  exists order. split; [exact M|]. pose proof (merge_Forall _ _ _ _ M EV) as EO.
  intros coins pos t garbage grow d.
  assert (RD' : read_trace ok (skip_map coins pos) 0 (open_stream (r_out s) t) = Ok tr).
  { unfold reads in RD. apply read_iff in RD. apply read_iff. exact RD. }
  exists (push_trace grow d (settle garbage tr)). split; [unfold add_trace; cbn [bind]; rewrite RD'; reflexivity|].
  intros O pick hash W e q Q NF FC. rewrite <- N1, <- N2 in Q |- *.
  destruct (library_answers O ok coins pos pick hash garbage grow d t 0 (r_out s) tr sites order W e q RD' SH EO MEM NF FC Q) as (d' & E & rs & d'' & X).
  unfold add_trace in E. cbn [bind] in E. rewrite RD' in E. inversion E; subst d'. eauto.
Qed.
Print Assumptions C80_answers.

(** In short: a query finds something iff it happened. *)
Theorem C80_found : forall names types sites W e mask stmt order rs,
  answers_run names types sites W e mask stmt order rs -> (rs <> [] <-> happened sites W e mask stmt order).
Proof. exact found_happened. Qed.
Print Assumptions C80_found.

(** Every condition on values can be asked. *)
Theorem C80_askable : forall names types W e mask stmt, W <> [] -> on_values (lenN W) e -> expressible e ->
  exists q, question names types W e q /\ cq_mask q = mask /\ cq_stmt q = stmt.
Proof. exact askable. Qed.
Print Assumptions C80_askable.

(** After a crash: what had reached the file, limited to the points that were
    finished, answers about the events that had happened. *)
Theorem C80_crash : forall test kf sites names types code,
  Forall (site_ok kf) sites -> tells_apart test (all_texts sites) ->
  instrumented test sites names types code -> InstrSpec.fits names types ->
  forall ths, Forall (Forall (event_ok sites)) ths ->
  exists acts, Forall2 (Forall2 (fun e a => event_run code e = Ok a)) ths acts /\
    forall s, rsteps (rstart names types (map (@concat action) acts)) s ->
    forall ok, (forall n, n <= lenN (r_out s) -> ok n = true) -> (forall n, n < 2 ^ 64 -> ok n = true) ->
    exists order rest, merge ths (order ++ rest) /\ (order <> [] ->
      forall coins pos t garbage grow d, exists d',
        add_trace ok (skip_map coins pos) garbage grow d (Ok (takeN (r_disk s) (r_out s), t)) (lenN order) = Ok (true, d') /\
        forall O pick hash W e q, question names types W e q -> no_floats sites W e -> few_choices sites W ->
        exists rs d'', query_trace unit (direct O) ok pick hash d' tt (lenN (db_traces d)) q = Ok (rs, d'', tt) /\
          answers_run names types sites W e (cq_mask q) (cq_stmt q) order rs).
Proof.
  intros test kf sites names types code S T I F ths EV.
  destruct (C40_whole_points test kf sites names types code S T I F ths EV) as (acts & A1 & A2). exists acts. split; [exact A1|].
  intros s R ok OK MEM. destruct (A2 s R) as (order & rest & done & part & M & _ & _ & _ & _ & X).
  exists order, rest. split; [exact M|]. intros NE.
  destruct (X NE ok (fun _ => true) 0%nat TailEof OK) as (tr & RD & N1 & N2 & SH).
  assert (EO : Forall (event_ok sites) order) by (pose proof (merge_Forall _ _ _ _ M EV) as EO; apply Forall_app in EO; apply EO).
  intros coins pos t garbage grow d.
  assert (RD' : read_trace ok (skip_map coins pos) (lenN order) (open_stream (takeN (r_disk s) (r_out s)) t) = Ok tr).
  { unfold reads in RD. apply read_iff in RD. apply read_iff. exact RD. }
  exists (push_trace grow d (settle garbage tr)). split; [unfold add_trace; cbn [bind]; rewrite RD'; reflexivity|].
  intros O pick hash W e q Q NF FC. rewrite <- N1, <- N2 in Q |- *.
  destruct (library_answers O ok coins pos pick hash garbage grow d t _ _ tr sites order W e q RD' SH EO MEM NF FC Q) as (d' & E & rs & d'' & Y).
  unfold add_trace in E. cbn [bind] in E. rewrite RD' in E. inversion E; subst d'. eauto.
Qed.
Print Assumptions C80_crash.

(** The example program (P_Instr.v): "an int below 8 and a char pointer that is
    not null", at statements whose id has lowest bit 1. *)
Definition ex_W : list (list name) := [[text "int"]; [text "*const char"]].
Definition ex_e : bexp := BAnd [BCmp CLt (IValue 0) (IConst 8); BNot (BCmp CEq (IValue 1) (IConst 0))].
Definition ex_q : cquery :=
  mkCQ [[0]; [1; 4]]
    (Some (client (Pred AND 2 [Pred LESS_THAN 2 [Pred VAR_VALUE 1 [Pred VAR_REFERENCE 0 []]; Pred UNSIGNED_VALUE 8 []];
                               Pred NOT 1 [Pred EQUAL 2 [Pred VAR_VALUE 1 [Pred VAR_REFERENCE 1 []]; Pred UNSIGNED_VALUE 0 []]]])))
    [] 0 1 1 1.
Definition ex_l0 : list lvar := [(true, text "x", t_int); (true, text "p", t_ptr); (true, text "s", t_cstr)].
Definition ex_l1 : list lvar := [(false, text "f", t_float); (false, text "s", t_cstr); (false, text "x", t_int)].

Lemma ex_kinds : has_kind t_int (CInt true 4) /\ has_kind t_cstr CCharPointer /\ has_kind t_ptr CPointer /\ has_kind t_float CFloat /\
  forall k, ~ has_kind t_struct k.
Proof. split; [|split; [|split; [|split]]]; try (apply has_kind_fn; vm_compute; reflexivity). intros k H. apply has_kind_fn in H. vm_compute in H. discriminate H. Qed.
Lemma ex_vars0 : site_vars (snd (nth 0 ex_sites (0, []))) ex_l0.
Proof.
  destruct ex_kinds as (K1 & K2 & K3 & K4 & K5).
  apply (sv_cons true _ [(text "x", t_int); (text "p", t_ptr)] [(text "s", t_cstr)] [] []); [| |constructor].
  - eapply lv_take; [exact K1|discriminate|reflexivity|]. eapply lv_none; [intros k H; destruct (K5 _ H)|]. eapply lv_other; [exact K2|reflexivity|].
    eapply lv_take; [exact K3|discriminate|reflexivity|]. constructor.
  - eapply lv_other; [exact K1|reflexivity|]. eapply lv_none; [intros k H; destruct (K5 _ H)|]. eapply lv_take; [exact K2|discriminate|reflexivity|].
    eapply lv_other; [exact K3|reflexivity|]. constructor.
Qed.
Lemma ex_vars1 : site_vars (snd (nth 1 ex_sites (0, []))) ex_l1.
Proof.
  destruct ex_kinds as (K1 & K2 & K3 & K4 & K5).
  apply (sv_cons false _ [(text "f", t_float); (text "s", t_cstr)] [] _ [(false, text "x", t_int)]).
  - eapply lv_take; [exact K4|discriminate|reflexivity|]. eapply lv_take; [exact K2|discriminate|reflexivity|]. constructor.
  - eapply lv_other; [exact K4|reflexivity|]. eapply lv_other; [exact K2|reflexivity|]. constructor.
  - apply (sv_cons false _ [(text "x", t_int)] [] [] []); [| |constructor].
    + eapply lv_take; [exact K1|discriminate|reflexivity|]. constructor.
    + eapply lv_other; [exact K1|reflexivity|]. constructor.
Qed.

Example C80_hyps : question ex_names ex_types ex_W ex_e ex_q /\ no_floats ex_sites ex_W ex_e /\ few_choices ex_sites ex_W /\
  happened ex_sites ex_W ex_e 1 1 (concat ex_threads).
Proof.
  assert (SITES : forall s l, In s ex_sites -> site_vars (snd s) l -> l = ex_l0 \/ l = ex_l1).
  { intros s l [<-|[<-|[]]] SV; [left; exact (site_det _ _ SV _ ex_vars0)|right; exact (site_det _ _ SV _ ex_vars1)]. }
  split; [|split; [|split]].
  - unfold question. split; [discriminate|]. split; [cbn; conj_split; auto; reflexivity|]. split.
    + constructor; [|constructor; [|constructor]]; intros i d nm D NM.
      * repeat (destruct i as [|i]; [vm_compute in D; inversion D; subst; vm_compute in NM; inversion NM; subst; cbn [In]; intuition (try discriminate; auto)|]); idtac.
        assert (B : N.pos i < 5) by (apply nthN_Some_lt in D; exact D). assert (X : i = 1%positive \/ i = 2%positive \/ i = 3%positive \/ i = 4%positive) by lia.
        destruct X as [->|[->|[->| ->]]]; vm_compute in D; inversion D; subst; vm_compute in NM; inversion NM; subst; cbn [In]; (split; [intros [X|[]]; discriminate X|intros [X|[]]; vm_compute in X; discriminate X]).
      * repeat (destruct i as [|i]; [vm_compute in D; inversion D; subst; vm_compute in NM; inversion NM; subst; cbn [In]; (split; [intros [X|[X|[]]]; discriminate X|intros [X|[]]; vm_compute in X; discriminate X])|]).
        assert (B : N.pos i < 5) by (apply nthN_Some_lt in D; exact D). assert (X : i = 1%positive \/ i = 2%positive \/ i = 3%positive \/ i = 4%positive) by lia.
        destruct X as [->|[->|[->| ->]]]; vm_compute in D; inversion D; subst; vm_compute in NM; inversion NM; subst; cbn [In];
          first [split; [intros _; left; vm_compute; reflexivity|intros _; auto]|split; [intros [X|[X|[]]]; discriminate X|intros [X|[]]; vm_compute in X; discriminate X]].
    + split; [|conj_split; auto; discriminate]. eexists. split; [|split; [|reflexivity]].
      * apply rb_and. constructor; [|constructor; [|constructor]].
        -- apply (rb_cmp CLt); [constructor|]. apply (ri_unsigned 8). reflexivity.
        -- apply rb_not. apply (rb_cmp CEq); [constructor|]. apply (ri_unsigned 0). reflexivity.
      * cbn; intuition (try congruence; try (vm_compute; reflexivity)).
  - intros s l i w y HS SV U Hw Hy Ht. destruct ex_kinds as (K1 & K2 & K3 & K4 & K5).
    assert (NF : lv_type y = t_int \/ lv_type y = t_cstr).
    { assert (Hin : In w ex_W) by (eapply nthN_In; exact Hw).
      destruct (SITES _ _ HS SV) as [->| ->]; destruct Hy as [<-|[<-|[<-|[]]]]; auto; exfalso;
        destruct Hin as [<-|[<-|[]]]; destruct Ht as [X|[]]; vm_compute in X; discriminate X. }
    destruct NF as [-> | ->]; split; intros X; [pose proof (kinds_agree _ _ _ K1 X)|pose proof (kinds_agree _ _ _ K1 X)|pose proof (kinds_agree _ _ _ K2 X)|pose proof (kinds_agree _ _ _ K2 X)]; discriminate.
  - intros s l HS SV. destruct (SITES _ _ HS SV) as [->| ->]; vm_compute; reflexivity.
  - destruct ex_kinds as (K1 & K2 & K3 & K4 & K5).
    exists (1%nat, ex_env 7), (nth 1 ex_sites (0, [])), ex_l1, [2; 1]. split; [right; left; reflexivity|]. split; [reflexivity|]. split; [reflexivity|].
    split; [exact ex_vars1|]. split.
    + constructor; [|constructor; [|constructor]]; eexists; (split; [reflexivity|left; vm_compute; reflexivity]).
    + split; [|split; [|exact Logic.I]].
      * exists 7%Z, 8%Z. split; [|split; [constructor|reflexivity]]. eapply vi_value; [exists 2; split; reflexivity|]. eapply io_int; [exact K1|vm_compute; reflexivity].
      * intros (x & z & V1 & V2 & E). inversion V2; subst. inversion V1 as [|? y ? (b & B1 & B2) IO| | |]; subst. vm_compute in B1. inversion B1; subst. vm_compute in B2. inversion B2; subst.
        cbn in E. subst. inversion IO as [? ? ? K EV|? ? K EV|? ? K PS EV Z0]; subst; vm_compute in EV; inversion EV; subst; discriminate.
Qed.
(** The answers for the log of C41_ex (x = -3 at statement 5 with s logged as a
    string, then x = 7 at statement 9): the string has no address to compare, so
    the comparison with null is not true, and its negation is. *)
Example C80_ex : exists a b d, event_run ex_code (0%nat, ex_env (-3)) = Ok a /\ event_run ex_code (1%nat, ex_env 7) = Ok b /\
  (forall coins pos garbage, add_trace (fun _ => true) (skip_map coins pos) garbage (fun n => 2 * n + 1) create_db
     (Ok (written (write_trace_header ex_names ex_types) ++ written a ++ written b, TailEof)) 0 = Ok (true, d)) /\
  exists d', query_trace unit (direct FloatQ.qops) (fun _ => true) (fun _ _ => 0) (fun _ => 0) d tt 0 ex_q =
    Ok ([mkP 0 5 [] [mkV (VBits (2 ^ 64 - 3)) 1 0 SIGNED 4 0 0; mkV (VBlob (text "hi")) 3 1 BLOB 2 0 0] [];
         mkP 1 9 [] [mkV (VBits 7) 1 0 SIGNED 4 0 0; mkV (VBits 4096) 3 4 POINTER 8 0 0] []], d', tt).
Proof.
  do 2 eexists.
  exists (mkDB [(mkTr ex_names ex_types [mkP 0 5 [] [mkV (VBits (2 ^ 64 - 3)) 1 0 SIGNED 4 0 0; mkV (VBits 64) 5 2 POINTER 8 0 0; mkV (VBlob (text "hi")) 3 1 BLOB 2 0 0] [];
                  mkP 1 9 [] [mkV (VBits 1065353216) 7 3 FLOAT 4 0 0; mkV (VBits 4096) 3 4 POINTER 8 0 0; mkV (VBits 7) 1 0 SIGNED 4 0 0] []], [])] 1 1).
  split; [crunch|]. split; [crunch|]. split.
  - intros. unfold add_trace. cbn [bind]. rewrite read_trace_transfer. crunch.
  - eexists. vm_compute. reflexivity.
Qed.

(** Together with C70: the answers are about the run of the original program.
    [events vals site_of passes] are the passes of its statements. *)
Theorem C80_program : forall struct_like else_like keep is_main mac o kf test sites names types code site_of,
  SpliceSpec.well_formed mac (Splice.sw_genome o) ->
  let marked := SpliceSpec.mark (SpliceSpec.selected (Splice.chosen struct_like else_like keep (Splice.sw_genome o))) [] (Splice.sw_genome o) in
  (forall f s, SpliceSpec.program mac marked f = Some s -> SpliceSpec.tidy s = true) ->
  Forall (site_ok kf) sites -> tells_apart test (all_texts sites) ->
  instrumented test sites names types code -> InstrSpec.fits names types ->
  let bef := SpliceTrace.calls_at code site_of false in
  let aft := SpliceTrace.calls_at code site_of true in
  forall State act tst init step select (vals : State -> name -> rvalue) dp n f s,
  exists b s' passes lg,
    (forall bef aft, SpliceSpec.call act tst init step select bef aft (SpliceSpec.program mac (Splice.sw_genome o)) dp n f s = (b, s', [])) /\
    (forall bef aft, SpliceSpec.call act tst init step select bef aft (SpliceSpec.program mac marked) dp n f s =
                     (b, s', flat_map (SpliceTrace.passed bef aft) passes)) /\
    SpliceSpec.call act tst init step select bef aft
      (SpliceSpec.program mac (Splice.sw_genome (Splice.instrument struct_like else_like keep bef aft is_main o))) dp n f s = (b, s', lg) /\
    (Forall (event_ok sites) (SpliceTrace.events vals site_of passes) ->
     exists a, SpliceTrace.log_actions vals lg = Ok a /\
       forall r, rsteps (rstart names types [a]) r -> Forall (eq []) (r_threads r) ->
       forall ok, (forall n, n <= lenN (r_out r) -> ok n = true) -> (forall n, n < 2 ^ 64 -> ok n = true) ->
       forall coins pos t garbage grow d, exists d',
         add_trace ok (skip_map coins pos) garbage grow d (Ok (r_out r, t)) 0 = Ok (true, d') /\
         forall O pick hash W e q, question names types W e q -> no_floats sites W e -> few_choices sites W ->
         exists rs d'', query_trace unit (direct O) ok pick hash d' tt (lenN (db_traces d)) q = Ok (rs, d'', tt) /\
           answers_run names types sites W e (cq_mask q) (cq_stmt q) (SpliceTrace.events vals site_of passes) rs).
Proof.
  intros sl el keep is_main mac o kf test sites names types code site_of WF marked TD S1 S2 I F bef aft State act tst init step select vals dp n f s.
  destruct (P_Splice.C70_trace sl el keep is_main mac o kf test sites names types code site_of WF TD S1 S2 I F State act tst init step select vals dp n f s)
    as (b & s' & passes & A1 & A2 & lg & A3 & A4).
  exists b, s', passes, lg. split; [exact A1|]. split; [exact A2|]. split; [exact A3|].
  intros EO. destruct (A4 EO) as (a & L & A5). exists a. split; [exact L|].
  intros r R FIN ok OK MEM coins pos t garbage grow d.
  destruct (A5 r R FIN ok coins pos t OK) as (tr & RD & N1 & N2 & SH).
  exists (push_trace grow d (settle garbage tr)). split; [unfold add_trace; cbn [bind]; unfold reads in RD; rewrite RD; reflexivity|].
  intros O pick hash W e q Q NF FC. rewrite <- N1, <- N2 in Q |- *.
  destruct (library_answers O ok coins pos pick hash garbage grow d t 0 (r_out r) tr sites _ W e q RD SH EO MEM NF FC Q) as (d' & E & rs & d'' & Y).
  unfold add_trace in E. cbn [bind] in E. unfold reads in RD. rewrite RD in E. inversion E; subst d'. eauto.
Qed.
Print Assumptions C80_program.

(** The same for several threads: the answers are about an interleaving of the
    runs of the threads. *)
Theorem C80_threads : forall struct_like else_like keep is_main mac o kf test sites names types code site_of,
  SpliceSpec.well_formed mac (Splice.sw_genome o) ->
  let marked := SpliceSpec.mark (SpliceSpec.selected (Splice.chosen struct_like else_like keep (Splice.sw_genome o))) [] (Splice.sw_genome o) in
  (forall f s, SpliceSpec.program mac marked f = Some s -> SpliceSpec.tidy s = true) ->
  Forall (site_ok kf) sites -> tells_apart test (all_texts sites) ->
  instrumented test sites names types code -> InstrSpec.fits names types ->
  let bef := SpliceTrace.calls_at code site_of false in
  let aft := SpliceTrace.calls_at code site_of true in
  forall State act tst init step select (vals : State -> name -> rvalue) dp n threads,
  exists runs logs,
    Forall2 (fun th r => let '(f, s) := th in let '(b, s', passes) := r in
      (forall bef aft, SpliceSpec.call act tst init step select bef aft (SpliceSpec.program mac (Splice.sw_genome o)) dp n f s = (b, s', [])) /\
      (forall bef aft, SpliceSpec.call act tst init step select bef aft (SpliceSpec.program mac marked) dp n f s =
                       (b, s', flat_map (SpliceTrace.passed bef aft) passes))) threads runs /\
    Forall2 (fun th r => let '(f, s) := th in let '(b, s', lg) := r in
      SpliceSpec.call act tst init step select bef aft
        (SpliceSpec.program mac (Splice.sw_genome (Splice.instrument struct_like else_like keep bef aft is_main o))) dp n f s = (b, s', lg)) threads logs /\
    (Forall (fun r => Forall (event_ok sites) (SpliceTrace.events vals site_of (snd r))) runs ->
     exists acts, Forall2 (fun lg a => SpliceTrace.log_actions vals (snd lg) = Ok a) logs acts /\
       forall r, rsteps (rstart names types acts) r -> Forall (eq []) (r_threads r) ->
       forall ok, (forall n, n <= lenN (r_out r) -> ok n = true) -> (forall n, n < 2 ^ 64 -> ok n = true) ->
       forall coins pos t garbage grow d, exists order d',
         merge (map (fun r => SpliceTrace.events vals site_of (snd r)) runs) order /\
         add_trace ok (skip_map coins pos) garbage grow d (Ok (r_out r, t)) 0 = Ok (true, d') /\
         forall O pick hash W e q, question names types W e q -> no_floats sites W e -> few_choices sites W ->
         exists rs d'', query_trace unit (direct O) ok pick hash d' tt (lenN (db_traces d)) q = Ok (rs, d'', tt) /\
           answers_run names types sites W e (cq_mask q) (cq_stmt q) order rs).
Proof.
  intros sl el keep is_main mac o kf test sites names types code site_of WF marked TD S1 S2 I F bef aft State act tst init step select vals dp n threads.
  destruct (P_Splice.C70_threads sl el keep is_main mac o kf test sites names types code site_of WF TD S1 S2 I F State act tst init step select vals dp n threads)
    as (runs & logs & A1 & A2 & _ & A4).
  exists runs, logs. split; [exact A1|]. split; [exact A2|].
  intros EO. destruct (A4 EO) as (acts & L & A5). exists acts. split; [exact L|].
  intros r R FIN ok OK MEM coins pos t garbage grow d.
  destruct (A5 r R FIN ok coins pos t OK) as (order & tr & M & RD & N1 & N2 & SH).
  exists order, (push_trace grow d (settle garbage tr)). split; [exact M|].
  split; [unfold add_trace; cbn [bind]; unfold reads in RD; rewrite RD; reflexivity|].
  assert (EO' : Forall (event_ok sites) order).
  { apply (merge_Forall _ _ _ _ M). rewrite Forall_map. exact EO. }
  intros O pick hash W e q Q NF FC. rewrite <- N1, <- N2 in Q |- *.
  destruct (library_answers O ok coins pos pick hash garbage grow d t 0 (r_out r) tr sites _ W e q RD SH EO' MEM NF FC Q) as (d' & E & rs & d'' & Y).
  unfold add_trace in E. cbn [bind] in E. unfold reads in RD. rewrite RD in E. inversion E; subst d'. eauto.
Qed.
Print Assumptions C80_threads.
(* [C70_sites], [C70_values] and [ex_well_formed] (P_Splice.v) meet the hypotheses. *)
