(** Properties C67-C70: what the calls inserted by instrumentation/c-cpp.lisp do to
    the program, which statements are logged, removing the instrumentation, and
    the trace of a run.

    [program mac root f] is the body of function [f] as a compiler parses the text
    of [root]; [call act test init step select bef aft prog d n f s] runs it
    (SpliceSpec.v): the meaning of headers and simple statements is arbitrary, they
    may call functions of the program.  [mark (selected (chosen ...)) [] root] is
    the original program with a weightless mark at each chosen statement: passing
    the mark of the statement at [p] logs [bef p], normal completion logs [aft p]. *)
From Coq Require Import Strings.String List Bool Arith NArith ZArith Lia Permutation.
From Verif Require Import Base Types Stream PrintPred FormatSpec ReaderProps Instr InstrRun InstrSpec InstrText InstrTable InstrConc InstrProofs InstrEnd InstrReq.
From Verif Require Import Splice SpliceSpec SpliceTrace SpliceProofs1 SpliceProofs4 SpliceProofs6 SpliceProofs8 SpliceProofs9.
Import ListNotations.
Open Scope nat_scope.

(** ** The program of the examples

      void f1() {                           void f2() {
        s10;   // calls f2                    s30;
        if (c20) s11; else L5: s12;         }
        while (c21) { s13; ; }
        do s14; while (c22);
        switch (c23) { case 1: s15; s16;  // break
                       case 2: s17; }
        for (h24) if (c25) s18;           // goto L5
      }                                                                     *)
Definition txt (k : cls) (a : N) (ks : list ast) : ast := Node k (Txt a) false [] ks [].
Definition e_ (a : N) : ast := txt KExpr a [].
Definition s_ (a : N) : ast := txt KSimple a [e_ a].
Definition b_ (l : list ast) : ast := txt KCompound 0 l.
Definition f_ (n : N) (l : list ast) : ast := txt KFunction n [e_ n; b_ l].
Definition ex_body : list ast :=
  [s_ 10; txt KIf 0 [e_ 20; s_ 11; txt KLabel 5 [s_ 12]];
   txt KLoop 0 [e_ 21; b_ [s_ 13; txt KEmpty 0 []]];
   txt KDo 0 [s_ 14; e_ 22];
   txt KSwitch 0 [e_ 23; b_ [txt KCase 0 [e_ 1; s_ 15; s_ 16]; txt KCase 0 [e_ 2; s_ 17]]];
   txt KLoop 0 [e_ 24; txt KIf 0 [e_ 25; s_ 18]]].
Definition ex_root : ast := txt KRoot 0 [f_ 1 ex_body; f_ 2 [s_ 30]].
Definition ex_o : software := mkSW ex_root [7%N].

Definition no_ast (t : ast) : bool := false.
Definition all_asts (p : path) (t : ast) : bool := true.
Definition no_macro (a : N) : bool := false.

(** States are lists of the statements executed. *)
Definition ex_act (a : N) (s : list N) : comp (list N) jump :=
  let s' := s ++ [a] in
  match a with
  | 10%N => Call _ _ 2%N s' (fun s => Done _ _ JNext s)
  | 16%N => Done _ _ JBreak s'
  | 18%N => Done _ _ (JGoto 5) s'
  | _ => Done _ _ JNext s'
  end.
Definition ex_test (c : N) (s : list N) : comp (list N) bool :=
  Done _ _ (match c with
            | 21%N => length s <? 6
            | 22%N => length s <? 8
            | 24%N | 25%N => length s <? 12
            | _ => true
            end) s.
Definition ex_unit (c : N) (s : list N) : comp (list N) unit := Done _ _ tt s.
Definition ex_select (c : N) (l : list N) (s : list N) : comp (list N) (option nat) := Done _ _ (Some 0) s.
Definition ex_bef (p : path) : list istmt := [IId (Npos (enc p)); IEnd].
Definition ex_aft (p : path) : list istmt := [].

Definition no_find l : find_body l (n_kids ex_root) = None \/ (l = 1%N \/ l = 2%N).
Proof.
  cbn. destruct (l =? 1)%N eqn:E1; [apply N.eqb_eq in E1; auto|].
  destruct (l =? 2)%N eqn:E2; [apply N.eqb_eq in E2; auto|]. auto.
Defined.
Example ex_well_formed : well_formed no_macro ex_root.
Proof.
  split; [reflexivity|]. split; [reflexivity|]. intros f b E.
  destruct (no_find f) as [H|[ -> | -> ]]; [congruence| |]; vm_compute in E; injection E as <-; eexists; vm_compute; reflexivity.
Qed.
Example ex_braced : forall f s, program no_macro ex_root f = Some s -> braced s = true.
Proof.
  intros f s E. destruct (no_find f) as [H|[ -> | -> ]].
  - unfold program in E. rewrite H in E. discriminate.
  - vm_compute in E. injection E as <-. reflexivity.
  - vm_compute in E. injection E as <-. reflexivity.
Qed.

(** ** C67 *)

(** Running a function of the instrumented program gives the same end, the same
    state and the same log as running the original with marks.  [keep] is the
    filter of the user; [tidy]: it does not drop a label directly under an if, a
    loop or a switch while keeping the statement behind it. *)
Theorem C67_run : forall struct_like else_like keep bef aft is_main mac o,
  well_formed mac (sw_genome o) ->
  let marked := mark (selected (chosen struct_like else_like keep (sw_genome o))) [] (sw_genome o) in
  (forall f s, program mac marked f = Some s -> tidy s = true) ->
  forall State act test init step select d n f (s : State),
    call act test init step select bef aft
      (program mac (sw_genome (instrument struct_like else_like keep bef aft is_main o))) d n f s =
    call act test init step select bef aft (program mac marked) d n f s.
Proof. intros. apply instrumented_run; assumption. Qed.
Print Assumptions C67_run.

(** Marks change neither the end nor the state; without them nothing is logged. *)
Theorem C67_marks : forall struct_like else_like keep bef aft mac root,
  well_formed mac root ->
  let marked := mark (selected (chosen struct_like else_like keep root)) [] root in
  forall State act test init step select d n f (s : State),
    call act test init step select bef aft (program mac root) d n f s =
    let '(b, s', _) := call act test init step select bef aft (program mac marked) d n f s in (b, s', []).
Proof. intros. apply original_run. assumption. Qed.
Print Assumptions C67_marks.

(** Without a filter, for programs whose switches have bodies in braces:
    instrumentation changes neither the end nor the state. *)
Theorem C67_transparent : forall struct_like else_like bef aft is_main mac o,
  well_formed mac (sw_genome o) ->
  (forall f s, program mac (sw_genome o) f = Some s -> braced s = true) ->
  forall State act test init step select d n f (s : State),
    let '(b, s', _) := call act test init step select bef aft
      (program mac (sw_genome (instrument struct_like else_like (fun _ _ => true) bef aft is_main o))) d n f s in
    call act test init step select bef aft (program mac (sw_genome o)) d n f s = (b, s', []).
Proof.
  intros sl el bef aft is_main mac o W B State act test init step select d n f s.
  rewrite instrumented_run; [|exact W|exact (marks_tidy sl el (fun _ _ => true) bef aft mac _ W (fun _ _ => eq_refl) B)].
  rewrite (original_run sl el (fun _ _ => true) bef aft mac State act test init step select _ W).
  destruct (call _ _ _ _ _ _ _ _ _ _ _ _) as [[b s'] lg]. reflexivity.
Qed.
Print Assumptions C67_transparent.

(** The example: calls, loops, switch, goto into the else branch; 15 simple statements
    run, with the ifs, the loops and the switch 25 entries are logged. *)
Example C67_example : exists lg,
  call ex_act ex_test ex_unit ex_unit ex_select ex_bef ex_aft
    (program no_macro (sw_genome (instrument no_ast no_ast all_asts ex_bef ex_aft no_ast ex_o))) 9 50 1%N [] =
    (true, [10; 30; 11; 13; 13; 13; 14; 14; 15; 16; 18; 12; 14; 15; 16]%N, lg) /\
  call ex_act ex_test ex_unit ex_unit ex_select ex_bef ex_aft (program no_macro ex_root) 9 50 1%N [] =
    (true, [10; 30; 11; 13; 13; 13; 14; 14; 15; 16; 18; 12; 14; 15; 16]%N, []) /\
  length lg = 50 /\ firstn 6 lg = [(IId (Npos (enc [0; 1; 0])), []); (IEnd, []);
    (IId (Npos (enc [1; 1; 0])), [10%N]); (IEnd, [10%N]); (IId (Npos (enc [0; 1; 1])), [10; 30]%N); (IEnd, [10; 30]%N)].
Proof. eexists. vm_compute. auto. Qed.

(** switch (c20) case 1: s10;   becomes   switch (c20) case 1: trace(); s10;
    and s10 runs although no case is selected. *)
Definition sw_root : ast := txt KRoot 0 [f_ 1 [txt KSwitch 0 [e_ 20; txt KCase 0 [e_ 1; s_ 11]]]].
Theorem C67_switch_refuted : exists root, well_formed no_macro root /\
  call ex_act ex_test ex_unit ex_unit (fun _ _ s => Done _ _ None s) ex_bef ex_aft (program no_macro root) 9 9 1%N [] =
    (true, [], []) /\
  fst (call ex_act ex_test ex_unit ex_unit (fun _ _ s => Done _ _ None s) ex_bef ex_aft
    (program no_macro (sw_genome (instrument no_ast no_ast all_asts ex_bef ex_aft no_ast (mkSW root [])))) 9 9 1%N []) =
    (true, [11%N]).
Proof.
  exists sw_root. split; [|vm_compute; auto].
  split; [reflexivity|]. split; [reflexivity|]. intros f b E. cbn in E. destruct (f =? 1)%N; [|discriminate].
  injection E as <-. eexists. vm_compute. reflexivity.
Qed.
Print Assumptions C67_switch_refuted.

(** A filter that drops labels: if (c20) L5: s11;   becomes   if (c20) L5: trace(); s11;
    and s11 runs whatever the condition; with an else the program does not parse. *)
Definition no_labels (p : path) (t : ast) : bool := negb (cls_eqb (n_cls t) KLabel).
Definition la_root (r : list ast) : ast := txt KRoot 0 [f_ 1 [txt KIf 0 ([e_ 20; txt KLabel 5 [s_ 11]] ++ r)]].
Theorem C67_filter_refuted : exists root root', well_formed no_macro root /\ well_formed no_macro root' /\
  call ex_act (fun _ s => Done _ _ false s) ex_unit ex_unit ex_select ex_bef ex_aft (program no_macro root) 9 9 1%N [] =
    (true, [], []) /\
  fst (call ex_act (fun _ s => Done _ _ false s) ex_unit ex_unit ex_select ex_bef ex_aft
    (program no_macro (sw_genome (instrument no_ast no_ast no_labels ex_bef ex_aft no_ast (mkSW root [])))) 9 9 1%N []) =
    (true, [11%N]) /\
  program no_macro root' 1%N <> None /\
  program no_macro (sw_genome (instrument no_ast no_ast no_labels ex_bef ex_aft no_ast (mkSW root' []))) 1%N = None.
Proof.
  exists (la_root []), (la_root [s_ 12]).
  assert (W : forall r l, forallb original r = true ->
    statement_of no_macro (b_ [txt KIf 0 ([e_ 20; txt KLabel 5 [s_ 11]] ++ r)]) = Some (CBlock l) ->
    well_formed no_macro (la_root r)).
  { intros r l H S. split; [reflexivity|]. split; [cbn in *; rewrite H; reflexivity|]. intros f b E. cbn in E.
    destruct (f =? 1)%N; [|discriminate]. injection E as <-. exists l. exact S. }
  split; [eapply W; vm_compute; reflexivity|]. split; [eapply W; vm_compute; reflexivity|].
  vm_compute. repeat split; auto. discriminate.
Qed.
Print Assumptions C67_filter_refuted.

(** ** C68 *)

(** In a file without preprocessor directives and parse errors, in which no
    function is called struct, enum, ... and no statement starts with "else", and
    whose switches have bodies in braces: every statement that is not a block, a
    label or ";" has a mark, at its position. *)
Theorem C68_marked : forall struct_like else_like mac root,
  well_formed mac root -> no_directives root = true ->
  (forall f s, program mac root f = Some s -> braced s = true) ->
  (forall q, In q (asts struct_like ctx0 root) -> x_odd (pl_ctx q) = false /\ else_like (pl_ast q) = false) ->
  let marked := mark (selected (chosen struct_like else_like (fun _ _ => true) root)) [] root in
  forall f s, program mac marked f = Some s -> covered (simple_at root) None s = true.
Proof. intros. eapply marks_covered; eassumption. Qed.
Print Assumptions C68_marked.

(** The log names exactly the simple statements executed, in their order: if
    [read] finds, in the calls inserted before the statement at [p], the text of
    this statement if it is a simple one and nothing otherwise, then what it finds
    in the log is what was executed.  The states remember the simple statements
    executed ([h_act] etc.); this does not change the run ([C68_ghost]). *)
Theorem C68_executed : forall struct_like else_like bef aft is_main mac o read,
  well_formed mac (sw_genome o) -> no_directives (sw_genome o) = true ->
  (forall f s, program mac (sw_genome o) f = Some s -> braced s = true) ->
  (forall q, In q (asts struct_like ctx0 (sw_genome o)) -> x_odd (pl_ctx q) = false /\ else_like (pl_ast q) = false) ->
  (forall p, flat_map read (bef p) = match simple_at (sw_genome o) p with Some a => [a] | None => [] end) ->
  (forall p, flat_map read (aft p) = []) ->
  forall State act test init step select d n f (s : State) h,
    let '(_, (_, h'), lg) :=
      call (h_act act) (h_do test) (h_do init) (h_do step) (h_select select) bef aft
        (program mac (sw_genome (instrument struct_like else_like (fun _ _ => true) bef aft is_main o))) d n f (s, h) in
    h' = h ++ flat_map (fun e => read (fst e)) lg.
Proof.
  intros sl el bef aft is_main mac o read W D B R H1 H2 State act test init step select d n f s h.
  rewrite instrumented_run; [|exact W|exact (marks_tidy sl el (fun _ _ => true) bef aft mac _ W (fun _ _ => eq_refl) B)].
  apply (call_texts State act test init step select bef aft (simple_at (sw_genome o)) read H1 H2).
  exact (marks_covered sl el mac _ W D B R).
Qed.
Print Assumptions C68_executed.

Theorem C68_ghost : forall mac root,
  well_formed mac root ->
  forall State act test init step select bef aft d n f (s : State) h,
    (let '(b, (s', _), lg) :=
       call (h_act act) (h_do test) (h_do init) (h_do step) (h_select select) bef aft (program mac root) d n f (s, h) in
     (b, s', map (fun e => (fst e, fst (snd e))) lg)) =
    call act test init step select bef aft (program mac root) d n f s.
Proof.
  intros mac root W State act test init step select bef aft d n f s h.
  assert (Pl : forall f x, program mac root f = Some x -> plain x = true).
  { intros g x E. pose proof (programs (fun _ => false) (fun _ => false) (fun _ _ => false) bef aft mac root W g) as H.
    destruct (program mac (marked _ _ _ _) g) as [y|]; [|destruct H; congruence].
    destruct H as (E' & Py & _). rewrite E in E'. injection E' as ->.
    clear -Py. induction y as [st|p y IH|l IH|c y IH|c y z IHy IHz|c y IH|y c IH|c y IH|v y IH|l y IH] using SpliceProofs2.cstmt_rect'; cbn in *; auto.
    - induction IH as [|y r Hy _ IHr]; cbn in *; [reflexivity|]. apply andb_prop in Py. destruct Py as [P1 P2].
      rewrite (Hy P1), (IHr P2). reflexivity.
    - apply andb_prop in Py. destruct Py as [P1 P2]. rewrite (IHy P1), (IHz P2). reflexivity. }
  rewrite <- (call_forget act test init step select bef aft (program mac root) n Pl d f s h).
  destruct (call _ _ _ _ _ _ _ _ _ _ _ _) as [[b [s' h']] lg]. reflexivity.
Qed.
Print Assumptions C68_ghost.

Definition ex_read (i : istmt) : list N :=
  match i with
  | IId (Npos q) => match simple_at ex_root (dec 0 q) with Some a => [a] | None => [] end
  | _ => []
  end.
Example C68_hyps : no_directives ex_root = true /\
  (forall q, In q (asts no_ast ctx0 ex_root) -> x_odd (pl_ctx q) = false /\ no_ast (pl_ast q) = false) /\
  (forall p, flat_map ex_read (ex_bef p) = match simple_at ex_root p with Some a => [a] | None => [] end) /\
  (forall p, flat_map ex_read (ex_aft p) = []).
Proof.
  split; [reflexivity|]. split; [|split].
  - intros q H. split; [|reflexivity]. vm_compute in H. repeat (destruct H as [<-|H]; [reflexivity|]). destruct H.
  - intros p. cbn [ex_bef flat_map ex_read app]. rewrite dec_enc, app_nil_r. reflexivity.
  - reflexivity.
Qed.
Example C68_example : exists lg,
  snd (call ex_act ex_test ex_unit ex_unit ex_select ex_bef ex_aft
    (program no_macro (sw_genome (instrument no_ast no_ast all_asts ex_bef ex_aft no_ast ex_o))) 9 50 1%N []) = lg /\
  flat_map (fun e => ex_read (fst e)) lg = [10; 30; 11; 13; 13; 13; 14; 14; 15; 16; 18; 12; 14; 15; 16]%N.
Proof. eexists. vm_compute. auto. Qed.

(** After an #if that does not end in a statement, and next to parse errors,
    statements are not logged.    #if c40 ... #endif s10; *)
Definition in_root : ast := txt KRoot 0 [f_ 1 [txt KPreIf 40 [e_ 1]; s_ 11]].
Theorem C68_directives_refuted : exists root, well_formed no_macro root /\
  call ex_act ex_test ex_unit ex_unit ex_select ex_bef ex_aft
    (program no_macro (sw_genome (instrument no_ast no_ast all_asts ex_bef ex_aft no_ast (mkSW root [])))) 9 9 1%N [] =
    (true, [11%N], []).
Proof.
  exists in_root. split; [|vm_compute; reflexivity].
  split; [reflexivity|]. split; [reflexivity|]. intros f b E. cbn in E. destruct (f =? 1)%N; [|discriminate].
  injection E as <-. eexists. vm_compute. reflexivity.
Qed.
Print Assumptions C68_directives_refuted.

(** ** C69 *)

(** Removing the instrumentation restores the program, whatever was instrumented. *)
Theorem C69_restored : forall struct_like else_like keep bef aft is_main o,
  clean (sw_genome o) = true ->
  sw_genome (uninstrument (instrument struct_like else_like keep bef aft is_main o)) = sw_genome o.
Proof. intros. apply uninstrument_genome. assumption. Qed.
Print Assumptions C69_restored.
Example C69_example : clean ex_root = true /\
  sw_genome (instrument no_ast no_ast all_asts ex_bef ex_aft (fun t => cls_eqb (n_cls t) KFunction) ex_o) <> ex_root.
Proof. split; [reflexivity|]. vm_compute. discriminate. Qed.

(** But the flag -lpthread stays. *)
Theorem C69_flags_refuted : forall struct_like else_like keep bef aft is_main o,
  sw_flags (uninstrument (instrument struct_like else_like keep bef aft is_main o)) = sw_flags o ++ [lpthread] /\
  uninstrument (instrument struct_like else_like keep bef aft is_main o) <> o.
Proof.
  intros. split; [reflexivity|]. intros H. apply (f_equal sw_flags) in H. cbn in H.
  apply (f_equal (@length N)) in H. rewrite app_length in H. cbn in H. lia.
Qed.
Print Assumptions C69_flags_refuted.

(** ** C70 *)

(** From the program to the trace.  Let the calls at the statements be those the
    instrumenter generates for its sites (P_Instr.v), [site_of after p] the number
    of the site before (after) the statement at [p].  Running the instrumented
    program does what the original does; the run passes marks of the original; and
    reading the log file gives one trace point for each pass of a site, in order,
    with the statement id of the site and the values its variables had ([vals]). *)
Theorem C70_trace : forall struct_like else_like keep is_main mac o kf test sites names types code site_of,
  well_formed mac (sw_genome o) ->
  let marked := mark (selected (chosen struct_like else_like keep (sw_genome o))) [] (sw_genome o) in
  (forall f s, program mac marked f = Some s -> tidy s = true) ->
  Forall (site_ok kf) sites -> tells_apart test (all_texts sites) ->
  instrumented test sites names types code -> fits names types ->
  let bef := calls_at code site_of false in
  let aft := calls_at code site_of true in
  forall State act tst init step select (vals : State -> name -> rvalue) d n f s,
  exists b s' passes,
    (forall bef aft, call act tst init step select bef aft (program mac (sw_genome o)) d n f s = (b, s', [])) /\
    (forall bef aft, call act tst init step select bef aft (program mac marked) d n f s =
                     (b, s', flat_map (passed bef aft) passes)) /\
    exists lg,
      call act tst init step select bef aft
        (program mac (sw_genome (instrument struct_like else_like keep bef aft is_main o))) d n f s = (b, s', lg) /\
      (Forall (event_ok sites) (events vals site_of passes) ->
       exists a, log_actions vals lg = Ok a /\
         forall r, rsteps (rstart names types [a]) r -> Forall (eq []) (r_threads r) ->
         forall ok coins pos t, (forall n, (n <= lenN (r_out r))%N -> ok n = true) ->
         exists tr, InstrEnd.reads ok coins pos t 0 (r_out r) = Ok tr /\ tr_names tr = names /\ tr_types tr = types /\
           Forall2 (event_shows sites tr) (events vals site_of passes) (tr_points tr)).
Proof.
  intros sl el keep is_main mac o kf test sites names types code site_of W marked T S1 S2 I F bef aft
    State act tst init step select vals d n f s.
  destruct (call_passes act tst init step select (program mac marked) n (marks_plain sl el keep bef aft mac _ W) d f s)
    as (b & s' & passes & P).
  exists b, s', passes. split; [|split; [exact P|]].
  - intros bef' aft'. rewrite (original_run sl el keep bef' aft' mac State act tst init step select _ W). fold marked. rewrite P. reflexivity.
  - exists (flat_map (passed bef aft) passes). split.
    + rewrite instrumented_run; [|exact W|exact T]. apply P.
    + intros E. exact (trace_lemma kf test sites names types code vals site_of passes S1 S2 I F E).
Qed.
Print Assumptions C70_trace.

(** The same for a program that is run by several threads, each from its own
    function and state (what a thread finds of the others' doing is part of its
    state): every thread does what it does in the original program, and for
    every interleaving of the logging calls the trace shows the passes of all
    threads, those of each thread in order. *)
Theorem C70_threads : forall struct_like else_like keep is_main mac o kf test sites names types code site_of,
  well_formed mac (sw_genome o) ->
  let marked := mark (selected (chosen struct_like else_like keep (sw_genome o))) [] (sw_genome o) in
  (forall f s, program mac marked f = Some s -> tidy s = true) ->
  Forall (site_ok kf) sites -> tells_apart test (all_texts sites) ->
  instrumented test sites names types code -> fits names types ->
  let bef := calls_at code site_of false in
  let aft := calls_at code site_of true in
  forall State act tst init step select (vals : State -> name -> rvalue) d n threads,
  exists runs logs,
    Forall2 (fun th r => let '(f, s) := th in let '(b, s', passes) := r in
      (forall bef aft, call act tst init step select bef aft (program mac (sw_genome o)) d n f s = (b, s', [])) /\
      (forall bef aft, call act tst init step select bef aft (program mac marked) d n f s =
                       (b, s', flat_map (passed bef aft) passes))) threads runs /\
    Forall2 (fun th r => let '(f, s) := th in let '(b, s', lg) := r in
      call act tst init step select bef aft
        (program mac (sw_genome (instrument struct_like else_like keep bef aft is_main o))) d n f s = (b, s', lg)) threads logs /\
    map fst runs = map fst logs /\
    (Forall (fun r => Forall (event_ok sites) (events vals site_of (snd r))) runs ->
     exists acts, Forall2 (fun lg a => log_actions vals (snd lg) = Ok a) logs acts /\
       forall r, rsteps (rstart names types acts) r -> Forall (eq []) (r_threads r) ->
       forall ok coins pos t, (forall n, (n <= lenN (r_out r))%N -> ok n = true) ->
       exists order tr, merge (map (fun r => events vals site_of (snd r)) runs) order /\
         InstrEnd.reads ok coins pos t 0 (r_out r) = Ok tr /\ tr_names tr = names /\ tr_types tr = types /\
         Forall2 (event_shows sites tr) order (tr_points tr)).
Proof.
  intros sl el keep is_main mac o kf test sites names types code site_of W marked T S1 S2 I F bef aft
    State act tst init step select vals d n threads.
  assert (R : exists runs : list (_ * _ * list (bool * path * State)), Forall2 (fun th r => let '(f, s) := th in let '(b, s', passes) := r in
      forall bef aft, call act tst init step select bef aft (program mac marked) d n f s =
                       (b, s', flat_map (passed bef aft) passes)) threads runs).
  { induction threads as [|[f s] threads [runs IH]]; [exists []; constructor|].
    destruct (call_passes act tst init step select (program mac marked) n (marks_plain sl el keep bef aft mac _ W) d f s)
      as (b & s' & passes & P).
    exists ((b, s', passes) :: runs). constructor; auto. }
  destruct R as (runs & R). exists runs, (map (fun r => (fst r, flat_map (passed bef aft) (snd r))) runs). split; [|split; [|split]].
  - eapply F2_imp; [|exact R]. intros [f s] [[b s'] passes] P. split; [|exact P].
    intros bef' aft'. rewrite (original_run sl el keep bef' aft' mac State act tst init step select _ W). fold marked. rewrite P. reflexivity.
  - apply F2_map_r. eapply F2_imp; [|exact R]. intros [f s] [[b s'] passes] P. cbn [fst snd].
    rewrite instrumented_run; [|exact W|exact T]. apply P.
  - rewrite map_map. reflexivity.
  - intros E.
    destruct (threads_lemma kf test sites names types code vals site_of (map snd runs) S1 S2 I F ltac:(now apply Forall_map)) as (acts & A & H).
    exists acts. split.
    + clear -A. revert acts A. induction runs as [|r runs IH]; intros acts A; inversion A; subst; constructor; auto.
    + rewrite map_map in H. exact H.
Qed.
Print Assumptions C70_threads.

(** The example: one site for each chosen statement, logging variable x. *)
Definition ex_chosen : list path := map pl_path (chosen no_ast no_ast all_asts ex_root).
Fixpoint index_of (p : path) (l : list path) : option nat :=
  match l with
  | [] => None
  | q :: r => if path_eqb p q then Some 0 else option_map S (index_of p r)
  end.
Definition ex_site_of (after : bool) (p : path) : option nat := if after then None else index_of p ex_chosen.
Definition x_int : ctype := mkC [] [mkSpec KOther (text "int")].
Definition ex_splice_sites : list site :=
  map (fun p => (Npos (enc p), [(false, [(text "x", x_int)])])) ex_chosen.
Definition ex_vals (s : list N) (n : name) : rvalue := RInt (Z.of_nat (Nat.min 100 (length s))).
Definition ex_splice_code : list (list istmt) :=
  map (fun p => [IId (Npos (enc p)); IVars [mkVA 1 0 4 SIGNED (text "x")]; IEnd]) ex_chosen.

Example C70_sites : length ex_chosen = 17 /\ Forall (site_ok (fun _ => KOther)) ex_splice_sites /\
  tells_apart equal_test (all_texts ex_splice_sites) /\
  instrumented equal_test ex_splice_sites [text "int"; text "x"] [mkT 0 SIGNED 4] ex_splice_code /\
  fits [text "int"; text "x"] [mkT 0 SIGNED 4].
Proof.
  split; [vm_compute; reflexivity|].
  assert (K : type_ok (fun _ => KOther) x_int).
  { split; [discriminate|]. constructor; [|constructor]. split; [split; [discriminate|vm_compute; reflexivity]|reflexivity]. }
  split; [|split; [exact (equal_tells _)|split; [|split; [|split]; vm_compute; reflexivity]]].
  - assert (G : Forall (fun p => (Npos (enc p) < 2 ^ 64)%N) ex_chosen).
    { apply Forall_forall. assert (B : forallb (fun p => (Npos (enc p) <? 2 ^ 64)%N) ex_chosen = true) by (vm_compute; reflexivity).
      intros p Hp. apply N.ltb_lt. exact (proj1 (forallb_forall _ _) B p Hp). }
    unfold ex_splice_sites. induction G as [|p l Hp _ IH]; cbn [map]; constructor; [|exact IH].
    split; [exact Hp|]. split; [|split].
    + constructor; [|constructor]. intros H. vm_compute in H. intuition discriminate.
    + constructor; [exact K|constructor].
    + constructor; [|constructor]. intros E. discriminate E.
  - do 3 eexists. split; [vm_compute; reflexivity|]. split; [apply Permutation_refl|]. split; [apply Permutation_refl|].
    split; vm_compute; reflexivity.
Qed.
Example C70_values : forall passes, Forall (event_ok ex_splice_sites) (events ex_vals ex_site_of passes).
Proof.
  assert (L : forall l p i, index_of p l = Some i -> exists q, nth_error l i = Some q).
  { induction l as [|q l IH]; intros p i E; cbn in E; [discriminate|].
    destruct (path_eqb p q); [injection E as <-; exists q; reflexivity|].
    destruct (index_of p l) as [j|] eqn:Ej; [|discriminate]. injection E as <-. exact (IH _ _ Ej). }
  induction passes as [|[[a p] s] l IH]; [constructor|]. unfold events. cbn [flat_map]. apply Forall_app. split; [|exact IH].
  destruct (ex_site_of a p) as [i|] eqn:E; [|constructor]. constructor; [|constructor].
  destruct a; [discriminate|]. destruct (L _ _ _ E) as (q & Hq).
  eexists. split; [cbn [fst]; unfold ex_splice_sites; rewrite nth_error_map, Hq; reflexivity|].
  constructor; [|constructor]. constructor; [|constructor]. cbn [fst snd]. intros k HK. apply has_kind_fn in HK.
  replace (kind_fn x_int) with (Some (CInt true 4)) in HK by (vm_compute; reflexivity). injection HK as <-.
  split; [|exact I]. unfold ex_vals. cbn [inhabits].
  pose proof (Nat.le_min_l 100 (length s)). split; [apply Z.le_trans with 0%Z; [vm_compute; discriminate|lia]|].
  apply Z.le_lt_trans with 100%Z; [lia|vm_compute; reflexivity].
Qed.
