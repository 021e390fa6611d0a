(** Property C78: the support code of an instrumented file is complete and in place
    (instrumentation/c-cpp.lisp:499-505, 1181-1213).

    [texts t]: the pieces of text of a file from top to bottom; [source_file]: a file
    as it was read; [recognises is_main m]: the declarators of main are the ASTs whose
    text [m] accepts; [mains]: their number. *)
From Coq Require Import List Bool Arith NArith Lia.
From Verif Require Import Base Types Instr Splice SetupSpec SetupProofs SetupProofs2 SetupProofs3.
Import ListNotations.
Open Scope nat_scope.

(** Whatever is instrumented: from top to bottom the file has text of the program (the
    headers of enclosing parse errors), the declarations, then the program with the
    calls, then the implementation, directly followed by the initialisation if the file
    has a main.  So the declarations come before every call, no support code occurs
    twice, and there is one entry macro for each declarator of main. *)
Theorem C78_complete : forall struct_like else_like keep bef aft is_main m o,
  recognises is_main m -> source_file (sw_genome o) ->
  exists front middle back,
    texts (sw_genome (instrument struct_like else_like keep bef aft is_main o)) =
      front ++ declarations :: middle ++ implementation ::
        (if mains is_main (sw_genome o) =? 0 then [] else [initialisation]) ++ back /\
    Forall of_program front /\ Forall of_program back /\
    Forall (fun c => of_program c \/ a_call c \/ c = entry_macro) middle /\
    length (filter (fun c => match c with Setup n => N.eqb 3 n | _ => false end) middle) = mains is_main (sw_genome o).
Proof. intros sl el keep bef aft im m o R S. exact (support_code sl el keep bef aft im m R o S). Qed.
Print Assumptions C78_complete.

(** Each entry macro stands directly before the text of a declarator of main. *)
Theorem C78_entry : forall struct_like else_like keep bef aft is_main m o,
  recognises is_main m -> source_file (sw_genome o) ->
  forall above below,
    texts (sw_genome (instrument struct_like else_like keep bef aft is_main o)) = above ++ entry_macro :: below ->
    exists c below', below = c :: below' /\ m c = true.
Proof.
  intros sl el keep bef aft im m o R S above below E.
  destruct (support sl el keep bef aft im m R o S) as (_ & _ & A & _). exact (adj_spec m _ A _ _ E).
Qed.
Print Assumptions C78_entry.

(** Consequence: whatever stands above a call includes the declarations and not the
    implementation. *)
Theorem C78_declared : forall struct_like else_like keep bef aft is_main m o,
  recognises is_main m -> source_file (sw_genome o) ->
  forall above i below,
    texts (sw_genome (instrument struct_like else_like keep bef aft is_main o)) = above ++ Ins i :: below ->
    In declarations above /\ ~ In declarations below /\ In implementation below /\ ~ In implementation above.
Proof.
  intros sl el keep bef aft im m o R S above i below E.
  destruct (support_code sl el keep bef aft im m R o S) as (A & M & Y & E1 & FA & FY & FM & _).
  unfold ending in E1. set (e := if _ =? 0 then [] else [Setup 4]) in *.
  assert (Fe : Forall (fun c => c = Setup 4) e) by (unfold e; destruct (_ =? 0); repeat constructor).
  rewrite E in E1. clearbody e. clear E S R o.
  assert (NT : forall l n, Forall of_program l -> ~ In (Setup n) l) by (intros l n F H; rewrite Forall_forall in F; exact (F _ H)).
  assert (NI : forall l j, Forall of_program l -> ~ In (Ins j) l) by (intros l j F H; rewrite Forall_forall in F; exact (F _ H)).
  (* the call is in the middle *)
  assert (X : exists M1 M2, M = M1 ++ Ins i :: M2 /\ above = A ++ Setup 1 :: M1 /\ below = M2 ++ Setup 2 :: e ++ Y).
  { revert above E1 FA. induction A as [|x A IH]; intros above E1 FA.
    - destruct above as [|y above]; [discriminate|]. cbn in E1. injection E1 as -> E1.
      revert above E1. clear FA NT. induction M as [|z M IHM]; intros above E1.
      + exfalso. destruct above as [|y above]; [discriminate|]. cbn in E1. injection E1 as _ E1.
        assert (I : In (Ins i) (e ++ Y)) by (rewrite <- E1; apply in_or_app; right; left; reflexivity).
        apply in_app_or in I. destruct I as [I|I]; [rewrite Forall_forall in Fe; specialize (Fe _ I); discriminate|exact (NI _ _ FY I)].
      + destruct above as [|y above]; cbn in E1.
        * injection E1 as <- E1. exists [], M. auto.
        * injection E1 as -> E1. destruct (IHM (Forall_inv_tail FM) above E1) as (M1 & M2 & -> & E2 & ->).
          cbn in E2. injection E2 as ->. exists (z :: M1), M2. auto.
    - destruct above as [|y above]; cbn in E1.
      + injection E1 as <- _. apply Forall_inv in FA. destruct FA.
      + injection E1 as -> E1. destruct (IH above E1 (Forall_inv_tail FA)) as (M1 & M2 & -> & -> & ->). exists M1, M2. auto. }
  destruct X as (M1 & M2 & -> & -> & ->). apply Forall_app in FM. destruct FM as [F1 F2]. apply Forall_inv_tail in F2.
  assert (NM : forall l n, Forall (fun c => of_program c \/ a_call c \/ c = Setup 3) l -> n <> 3%N -> ~ In (Setup n) l).
  { intros l n F Hn H. rewrite Forall_forall in F. destruct (F _ H) as [[]|[[]|D]]. injection D. exact Hn. }
  assert (Ne : forall n, n <> 4%N -> ~ In (Setup n) (e ++ Y)).
  { intros n Hn H. apply in_app_or in H. destruct H as [H|H]; [rewrite Forall_forall in Fe; specialize (Fe _ H); congruence|exact (NT _ _ FY H)]. }
  unfold declarations, implementation. repeat split.
  - apply in_or_app. right. left. reflexivity.
  - intros H. apply in_app_or in H. destruct H as [H|[H|H]]; [exact (NM _ 1%N F2 ltac:(discriminate) H)|discriminate|exact (Ne 1%N ltac:(discriminate) H)].
  - apply in_or_app. right. left. reflexivity.
  - intros H. apply in_app_or in H. destruct H as [H|[H|H]]; [exact (NT _ _ FA H)|discriminate|exact (NM _ 2%N F1 ltac:(discriminate) H)].
Qed.
Print Assumptions C78_declared.

(** A file without any text has no support code, and no calls either. *)
Theorem C78_empty : forall struct_like else_like keep bef aft is_main k c b af fl,
  is_main (Node k c false b [] af) = false ->
  sw_genome (instrument struct_like else_like keep bef aft is_main (mkSW (Node k c false b [] af) fl)) = Node k c false b [] af.
Proof.
  intros sl el keep bef aft im k c b af fl M. unfold instrument. cbn [sw_genome].
  assert (E : instrument_genome sl el keep bef aft (Node k c false b [] af) = Node k c false b [] af).
  { unfold instrument_genome, chosen. cbn [asts filter pl_ctx pl_ast].
    replace (can_be_made_traceable_p el ctx0 (Node k c false b [] af)) with false; [reflexivity|].
    unfold can_be_made_traceable_p, traceable_stmt_p. cbn. rewrite !andb_false_r. reflexivity. }
  rewrite E. unfold main_paths. cbn [setup_path pick_first pick_last n_kids rev inject_opt asts filter pl_ast].
  cbn. rewrite M. reflexivity.
Qed.
Print Assumptions C78_empty.

(** The example:   ??? (parse error around) int g;   void f() { s; }   int main() { s; s; }   *)
Definition t_ (k : cls) (a : N) (ks : list ast) : ast := Node k (Txt a) false [] ks [].
Definition fn (n : N) (l : list ast) : ast := t_ KFunction n [t_ KExpr n []; t_ KCompound 0 l].
Definition file78 : ast :=
  t_ KRoot 0 [t_ KError 1 [t_ KSimple 2 []]; fn 8 [t_ KSimple 3 []]; fn 9 [t_ KSimple 4 []; t_ KIf 5 [t_ KExpr 6 []; t_ KSimple 7 []]]].
Definition is_main78 (t : ast) : bool := cls_eqb (n_cls t) KExpr && match n_content t with Txt 9 => true | _ => false end.
Example C78_hyps : recognises is_main78 (fun c => match c with Txt 9 => true | _ => false end) /\ source_file file78 /\ mains is_main78 file78 = 1.
Proof.
  split; [split; [reflexivity|intros [a| | |] H; try discriminate; exact Logic.I]|]. split; [|reflexivity].
  split; [reflexivity|]. split; [discriminate|]. cbn. repeat constructor.
Qed.
Example C78_example :
  texts (sw_genome (instrument (fun _ => false) (fun _ => false) (fun _ _ => true) (fun p => [IEnd]) (fun _ => []) is_main78 (mkSW file78 []))) =
  [Txt 0; Txt 1; Setup 1; Txt 2; Txt 8; Txt 8; Txt 0; Ins IEnd; Txt 3; Txt 9; Setup 3; Txt 9; Txt 0; Ins IEnd; Txt 4;
   Ins IEnd; Txt 5; Txt 6; Txt 0; Ins IEnd; Txt 7; Setup 2; Setup 4].
Proof. vm_compute. reflexivity. Qed.
