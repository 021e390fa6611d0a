(** Proofs about Splice.v, part 9: the results put together. *)
From Coq Require Import List Bool Arith NArith Lia Permutation.
From Verif Require Import Base Types Stream FormatSpec ReaderProps Instr InstrRun InstrSpec InstrConc InstrProofs InstrEnd.
From Verif Require Import Splice SpliceSpec SpliceTrace SpliceProofs1 SpliceProofs2 SpliceProofs3 SpliceProofs4 SpliceProofs5 SpliceProofs6 SpliceProofs7 SpliceProofs8.
Import ListNotations.
Open Scope nat_scope.

Section File.
Variable struct_like else_like : ast -> bool.
Variable keep : path -> ast -> bool.
Variable bef aft : path -> list istmt.
Variable is_main : ast -> bool.
Variable mac : N -> bool.
Notation marks root := (mark (selected (chosen struct_like else_like keep root)) [] root).
Notation instrument := (instrument struct_like else_like keep bef aft is_main).

Section Run.
Variable State : Type.
Variable act : N -> State -> comp State jump.
Variable test : N -> State -> comp State bool.
Variable init step : N -> State -> comp State unit.
Variable select : N -> list N -> State -> comp State (option nat).

Lemma instrumented_run o : well_formed mac (sw_genome o) ->
  (forall f s, program mac (marks (sw_genome o)) f = Some s -> tidy s = true) ->
  forall d n f s, call act test init step select bef aft (program mac (sw_genome (instrument o))) d n f s =
                  call act test init step select bef aft (program mac (marks (sw_genome o))) d n f s.
Proof.
  intros W T d n f s. apply call_expand. intros g. rewrite instrument_program.
  pose proof (programs struct_like else_like keep bef aft mac _ W g) as H. unfold marked in H.
  destruct (program mac (marks (sw_genome o)) g) as [x|] eqn:E; [|apply H].
  destruct H as (_ & _ & H & _). apply H, (T _ _ E).
Qed.
Lemma original_run root : well_formed mac root ->
  forall d n f s, call act test init step select bef aft (program mac root) d n f s =
    let '(b, s', _) := call act test init step select bef aft (program mac (marks root)) d n f s in (b, s', []).
Proof.
  intros W d n f s. rewrite (call_quiet bef aft State act test init step select (program mac (marks root)) (program mac root)).
  - reflexivity.
  - intros g. pose proof (programs struct_like else_like keep bef aft mac _ W g) as H. unfold marked in H.
    destruct (program mac (marks root) g); apply H.
  - intros g x E. pose proof (programs struct_like else_like keep bef aft mac _ W g) as H. unfold marked in H.
    rewrite E in H. apply H.
Qed.
End Run.

Lemma marks_plain root : well_formed mac root -> forall f x, program mac (marks root) f = Some x -> plain x = true.
Proof.
  intros W f x E. pose proof (programs struct_like else_like keep bef aft mac _ W f) as H. unfold marked in H.
  rewrite E in H. apply H.
Qed.
Lemma marks_tidy root : well_formed mac root -> (forall p t, keep p t = true) ->
  (forall f s, program mac root f = Some s -> braced s = true) ->
  forall f s, program mac (marks root) f = Some s -> tidy s = true.
Proof.
  intros W K B f s E. pose proof (programs struct_like else_like keep bef aft mac _ W f) as H. unfold marked in H.
  rewrite E in H. destruct H as (E' & _ & _ & H). apply H; [exact K|]. exact (B _ _ E').
Qed.
End File.

Lemma marks_covered struct_like else_like mac root : well_formed mac root -> no_directives root = true ->
  (forall f s, program mac root f = Some s -> braced s = true) ->
  (forall q, In q (asts struct_like ctx0 root) -> x_odd (pl_ctx q) = false /\ else_like (pl_ast q) = false) ->
  forall f s, program mac (mark (selected (chosen struct_like else_like (fun _ _ => true) root)) [] root) f = Some s ->
  covered (simple_at root) None s = true.
Proof.
  intros W D B R f s E.
  apply (coverage struct_like else_like mac (simple_at root) root W D) with (f := f); [|exact E|].
  - intros q Hq. destruct (R q Hq) as [R1 R2]. split; [exact R1|]. split; [exact R2|].
    unfold simple_at. rewrite (desc_lookup struct_like root ctx0 q); [reflexivity|].
    apply (Permutation_in _ (asts_desc struct_like root ctx0)). exact Hq.
  - pose proof (programs struct_like else_like (fun _ _ => true) (fun _ => []) (fun _ => []) mac _ W f) as H. unfold marked in H.
    rewrite E in H. apply (B f). apply H.
Qed.

Lemma merge_one {A} (l : list A) : forall o, merge [l] o -> o = l.
Proof.
  induction l as [|x l IH]; intros o M; inversion M as [? F|? i y r l' E M']; subst.
  - reflexivity.
  - destruct i as [|[|]]; discriminate.
  - inversion F as [|? ? C]; subst. discriminate C.
  - destruct i as [|[|]]; cbn in E; try discriminate. injection E as <- <-. f_equal. apply IH. exact M'.
Qed.

Lemma log_actions_app {State} (vals : State -> name -> rvalue) a b x y :
  log_actions vals a = Ok x -> log_actions vals b = Ok y -> log_actions vals (a ++ b) = Ok (x ++ y).
Proof. apply mapC_app. Qed.
Lemma log_actions_note {State} (vals : State -> name -> rvalue) c s : log_actions vals (note State c s) = run_stmts (vals s) c.
Proof.
  unfold log_actions, run_stmts, note. induction c as [|i c IH]; cbn [map mapC fst snd]; [reflexivity|].
  rewrite IH. reflexivity.
Qed.

Lemma events_actions {State} code (vals : State -> name -> rvalue) site_of l a1 :
  Forall2 (fun e a => event_run code e = Ok a) (events vals site_of l) a1 ->
  log_actions vals (flat_map (passed (calls_at code site_of false) (calls_at code site_of true)) l) = Ok (concat a1).
Proof.
  intros A1. remember (events vals site_of l) as es eqn:Ee. revert l Ee.
  induction A1 as [|e x es a1 X _ IH]; intros l Ee.
  - induction l as [|[[b p] s] l IHl]; [reflexivity|]. cbn [events flat_map] in Ee.
    destruct (site_of b p) as [i|] eqn:Es; [discriminate Ee|].
    cbn [flat_map passed]. unfold calls_at at 1 2. destruct b; rewrite Es; apply IHl, Ee.
  - induction l as [|[[b p] s] l IHl]; [discriminate Ee|]. cbn [events flat_map] in Ee.
    destruct (site_of b p) as [i|] eqn:Es.
    + injection Ee as -> Ee. cbn [flat_map concat].
      apply log_actions_app; [|apply IH; exact Ee].
      unfold event_run in X. cbn [fst snd] in X. destruct (nth_error code i) as [c|] eqn:Ec; [|discriminate].
      assert (Hc : (if b then calls_at code site_of true p else calls_at code site_of false p) = c).
      { unfold calls_at. destruct b; rewrite Es, Ec; reflexivity. }
      cbn [passed]. rewrite Hc, log_actions_note. exact X.
    + cbn [flat_map passed]. unfold calls_at at 1 2. destruct b; rewrite Es; apply IHl, Ee.
Qed.

(** Several threads. *)
Lemma threads_lemma {State} kf test sites names types code (vals : State -> name -> rvalue) site_of ls :
  Forall (site_ok kf) sites -> tells_apart test (all_texts sites) ->
  instrumented test sites names types code -> fits names types ->
  Forall (fun l => Forall (event_ok sites) (events vals site_of l)) ls ->
  exists acts, Forall2 (fun l a => log_actions vals (flat_map (passed (calls_at code site_of false) (calls_at code site_of true)) l) = Ok a) ls acts /\
    forall s, rsteps (rstart names types acts) s -> Forall (eq []) (r_threads s) ->
    forall ok coins pos t, (forall n, (n <= lenN (r_out s))%N -> ok n = true) ->
    exists order tr, merge (map (events vals site_of) ls) order /\
      reads ok coins pos t 0 (r_out s) = Ok tr /\ tr_names tr = names /\ tr_types tr = types /\
      Forall2 (event_shows sites tr) order (tr_points tr).
Proof.
  intros S T I F E.
  destruct (end_lemma test kf sites S T names types code I F (map (events vals site_of) ls)) as (acts & A & H).
  { now apply Forall_map. }
  exists (map (@concat action) acts). split.
  - clear -A. revert acts A. induction ls as [|l ls IH]; intros acts A; inversion A; subst; constructor; auto.
    now apply events_actions.
  - intros s R Fin ok coins pos t OK. destruct (H s R Fin ok coins pos t OK) as (order & tr & M & R1 & R2 & R3 & R4 & _).
    exists order, tr. auto.
Qed.

Lemma trace_lemma {State} kf test sites names types code (vals : State -> name -> rvalue) site_of l :
  Forall (site_ok kf) sites -> tells_apart test (all_texts sites) ->
  instrumented test sites names types code -> fits names types ->
  Forall (event_ok sites) (events vals site_of l) ->
  exists a, log_actions vals (flat_map (passed (calls_at code site_of false) (calls_at code site_of true)) l) = Ok a /\
    forall s, rsteps (rstart names types [a]) s -> Forall (eq []) (r_threads s) ->
    forall ok coins pos t, (forall n, (n <= lenN (r_out s))%N -> ok n = true) ->
    exists tr, reads ok coins pos t 0 (r_out s) = Ok tr /\ tr_names tr = names /\ tr_types tr = types /\
      Forall2 (event_shows sites tr) (events vals site_of l) (tr_points tr).
Proof.
  intros S T I F E.
  destruct (end_lemma test kf sites S T names types code I F [events vals site_of l]) as (acts & A & H).
  { constructor; [exact E|constructor]. }
  inversion A as [|? a1 ? ? A1 A2]; subst. inversion A2; subst. cbn [map] in H.
  exists (concat a1). split.
  - now apply events_actions.
  - intros s R Fin ok coins pos t OK. destruct (H s R Fin ok coins pos t OK) as (order & tr & M & R1 & R2 & R3 & R4 & _).
    apply merge_one in M. subst order. exists tr. auto.
Qed.

Lemma F2_imp {A B} (R S : A -> B -> Prop) (I : forall a b, R a b -> S a b) l m : Forall2 R l m -> Forall2 S l m.
Proof. intros F. induction F; constructor; auto. Qed.
Lemma F2_map_r {A B C} (f : B -> C) (R : A -> C -> Prop) l m : Forall2 (fun a b => R a (f b)) l m -> Forall2 R l (map f m).
Proof. intros F. induction F; constructor; auto. Qed.
