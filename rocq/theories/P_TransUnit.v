(** Property C97: what the compiler sees of an instrumented project: the support code of
    each translation unit is declared and defined once, and the setup code is there
    exactly once in each executable (instrumentation/c-cpp.lisp:31-97, 100-102, 291-341,
    434-512, 1059-1213: "The goal is to insert this exactly once in each executable
    while avoiding link problems").

    [expand coin files n f ps0 = Some s]: file [f], with the files it includes, nested
    less than [n] deep, and conditions decided as [coin] says, is preprocessed to
    [p_out s]; [p_files s] are the files entered.  [many p l]: how many elements of
    [l] satisfy [p]. *)
From Coq Require Import List Bool Arith NArith Lia.
From Verif Require Import Base Types Instr Splice SetupSpec TransUnit TransUnitSpec TransUnitProofs1 TransUnitProofs2.
Import ListNotations.
Open Scope nat_scope.

(** Whatever is included by whatever and however the conditions come out: in a unit with
    instrumented files the declarations and the implementation appear exactly once,
    every call and the implementation stand below the declarations, and the
    initialisation below the implementation; other units have none of it. *)
Theorem C97_once : forall struct_like else_like keep bef aft is_main m directives src,
  project is_main m directives src ->
  forall coin n f s,
    expand coin (instrumented struct_like else_like keep bef aft is_main m directives src) n f ps0 = Some s ->
    (if existsb (is_instrumented src) (p_files s)
     then many is_decl (p_out s) = 1 /\ many is_impl (p_out s) = 1
     else many (fun t => is_decl t || is_impl t || is_init t || is_call t) (p_out s) = 0) /\
    (forall above t below, p_out s = above ++ t :: below -> is_call t = true \/ t = TImpl -> In TDecl above) /\
    (forall above below, p_out s = above ++ TInit :: below -> In TImpl above).
Proof.
  intros sl el keep bef aft im m ds src P coin n f s E.
  assert (I0 : inv ps0).
  { split; try reflexivity; cbn; try discriminate; intros [|x a]; discriminate. }
  destruct (expand_inv sl el keep bef aft im m ds src P coin n f ps0 s I0 E) as (I & (new & G1 & G2 & G3) & _).
  cbn in G1, G2, G3. subst new. split; [|split; [exact (i_use s I)|exact (i_init s I)]].
  destruct (existsb (is_instrumented src) (p_files s)).
  - rewrite (i_decl s I), (i_impl s I), G2, G3. auto.
  - pose proof (i_decl s I) as D. pose proof (i_impl s I) as M. rewrite G2 in D. rewrite G3 in M. cbn in D, M.
    unfold many. destruct (filter _ (p_out s)) as [|t r] eqn:F; [reflexivity|]. exfalso.
    pose proof (or_introl eq_refl : In t (t :: r)) as H. rewrite <- F in H. apply filter_In in H.
    destruct H as [H T]. destruct (in_split _ _ H) as (a & b & Ht).
    assert (Z1 : ~ In TDecl (p_out s)).
    { intros X. unfold many in D. assert (Y : In TDecl (filter is_decl (p_out s))) by (apply filter_In; auto). destruct (filter is_decl (p_out s)); [destruct Y|discriminate]. }
    assert (Z2 : ~ In TImpl (p_out s)).
    { intros X. unfold many in M. assert (Y : In TImpl (filter is_impl (p_out s))) by (apply filter_In; auto). destruct (filter is_impl (p_out s)); [destruct Y|discriminate]. }
    destruct t; cbn in T; try discriminate.
    + apply Z1. rewrite Ht. apply in_or_app. left. eapply (i_use s I); [exact Ht|left; reflexivity].
    + apply Z1, H.
    + apply Z2, H.
    + apply Z2. rewrite Ht. apply in_or_app. left. eapply (i_init s I). exact Ht.
Qed.
Print Assumptions C97_once.

(** The program's own text, the files entered and the conditions met are those of the
    project before instrumentation; and a unit is well-formed if it was before. *)
Theorem C97_text : forall struct_like else_like keep bef aft is_main m directives src,
  project is_main m directives src ->
  forall coin n f,
    match expand coin (instrumented struct_like else_like keep bef aft is_main m directives src) n f ps0,
          expand coin (original m directives src) n f ps0 with
    | Some s, Some s0 =>
        filter own (p_out s) = filter own (p_out s0) /\ p_files s = p_files s0 /\ p_coins s = p_coins s0
    | None, None => True
    | _, _ => False
    end.
Proof.
  intros sl el keep bef aft im m ds src P coin n f.
  pose proof (expand_same sl el keep bef aft im m ds src P coin n f ps0 ps0 (conj eq_refl (conj eq_refl eq_refl))) as X.
  unfold osame in X. destruct (expand _ _ n f ps0), (expand _ _ n f ps0); try contradiction; [|exact Logic.I].
  destruct X as (A & B & C). auto.
Qed.
Print Assumptions C97_text.

(** If files with declarators of main are instrumented, and a unit enters at most one of
    them, once: it contains the setup code exactly once if a declarator of main is
    among its text, and not at all otherwise. *)
Theorem C97_setup : forall struct_like else_like keep bef aft is_main m directives src,
  project is_main m directives src ->
  (forall f, has_main m src f = true -> is_instrumented src f = true) ->
  forall coin n f s,
    expand coin (instrumented struct_like else_like keep bef aft is_main m directives src) n f ps0 = Some s ->
    length (filter (has_main m src) (p_files s)) <= 1 ->
    many is_init (p_out s) = if existsb is_entry (p_out s) then 1 else 0.
Proof.
  intros sl el keep bef aft im m ds src P Hm coin n f s E L.
  destruct (expand_eff sl el keep bef aft im m ds src P coin Hm n f ps0 s E) as (new & G & A & B).
  cbn in G. subst new. cbn [ps0 p_out many filter length p_entry] in A, B.
  assert (X : existsb is_entry (p_out s) = (0 <? many is_entry (p_out s))).
  { unfold many. clear. induction (p_out s) as [|t l IH]; [reflexivity|]. cbn. destruct (is_entry t); [reflexivity|exact IH]. }
  rewrite X. assert (D : length (filter (has_main m src) (p_files s)) = 0 \/ length (filter (has_main m src) (p_files s)) = 1) by lia.
  destruct D as [D|D].
  - destruct (A D) as (_ & -> & ->). reflexivity.
  - destruct (B D eq_refl) as (_ & -> & _). reflexivity.
Qed.
Print Assumptions C97_setup.

(** The executable: over all its units, there is one setup for each unit that contained
    a declarator of main before instrumentation; so exactly one if exactly one did. *)
Theorem C97_program : forall struct_like else_like keep bef aft is_main m directives src,
  project is_main m directives src ->
  (forall f, has_main m src f = true -> is_instrumented src f = true) ->
  forall units outs,
    Forall2 (fun u s => let '(coin, n, f) := u in
      expand coin (instrumented struct_like else_like keep bef aft is_main m directives src) n f ps0 = Some s /\
      length (filter (has_main m src) (p_files s)) <= 1) units outs ->
    exists before,
      Forall2 (fun u s => let '(coin, n, f) := u in expand coin (original m directives src) n f ps0 = Some s) units before /\
      many is_init (flat_map p_out outs) = length (filter (fun s => existsb is_entry (p_out s)) before).
Proof.
  intros sl el keep bef aft im m ds src P Hm units outs F.
  induction F as [|[[coin n] f] s us ss [E L] F (before & IH1 & IH2)]; [exists []; split; [constructor|reflexivity]|].
  pose proof (C97_text sl el keep bef aft im m ds src P coin n f) as T. rewrite E in T.
  destruct (expand coin (original m ds src) n f ps0) as [s0|] eqn:E0; [|contradiction]. destruct T as (T & _ & _).
  exists (s0 :: before). split; [constructor; assumption|]. cbn [flat_map]. rewrite many_app, IH2.
  rewrite (C97_setup sl el keep bef aft im m ds src P Hm coin n f s E L).
  replace (existsb is_entry (p_out s)) with (existsb is_entry (p_out s0)).
  - cbn [filter]. destruct (existsb is_entry (p_out s0)); reflexivity.
  - assert (G : forall l, existsb is_entry l = existsb is_entry (filter own l)).
    { clear. induction l as [|t l IH]; [reflexivity|]. cbn. destruct t; cbn; try exact IH; try reflexivity. destruct (negb _); exact IH. }
    rewrite G, <- T, <- G. reflexivity.
Qed.
Print Assumptions C97_program.

(** ** Examples *)
Definition n_ (k : cls) (a : N) (l : list ast) : ast := Node k (Txt a) false [] l [].
Definition m97 (c : content) : bool := match c with Txt 9 => true | _ => false end.
Definition is_main97 (t : ast) : bool := cls_eqb (n_cls t) KExpr && m97 (n_content t).
(** Directives of the texts: 20, 23, 24 include files 2, 4, 5; 21 opens a group, 22 closes it. *)
Definition dirs97 (a : N) : list directive :=
  match a with 20 => [DInclude 2] | 21 => [DIf] | 22 => [DEndif] | 23 => [DInclude 4] | 24 => [DInclude 5] | _ => [] end%N.
Definition fun97 (name body : N) : ast := n_ KFunction 0 [n_ KExpr name []; n_ KCompound 0 [n_ KSimple body []]].
(** #include "util.h" (twice)   int main() { s; } *)
Definition main_c : ast := n_ KRoot 0 [n_ KPreDef 20 []; n_ KPreDef 20 []; fun97 9 4].
(** #ifndef UTIL  #define UTIL  static void f() { s; }  #endif *)
Definition util_h : ast := n_ KRoot 0 [n_ KPreIf 21 [fun97 12 13; n_ KExpr 22 []]].
Definition util_c : ast := n_ KRoot 0 [n_ KPreDef 20 []; fun97 14 15].
Definition src97 (f : N) : option (bool * software) :=
  match f with
  | 1 => Some (true, mkSW main_c []) | 2 => Some (true, mkSW util_h []) | 3 => Some (true, mkSW util_c [])
  | _ => None
  end%N.
Notation inst97 src := (instrumented (fun _ => false) (fun _ => false) (fun _ _ _ => true) (fun _ _ => [IEnd]) (fun _ _ => [])
                          is_main97 m97 dirs97 src).

Lemma rec97 : recognises is_main97 m97.
Proof. split; [reflexivity|]. intros [a| | |] H; try discriminate. exact Logic.I. Qed.
Lemma quiet97 l : forallb (fun c => match c with Txt a => match dirs97 a with [] => true | _ => false end | _ => true end) l = true -> quiet dirs97 l.
Proof.
  intros H a Ha. rewrite forallb_forall in H. specialize (H _ Ha). cbn beta iota in H. destruct (dirs97 a); [reflexivity|discriminate].
Qed.
Ltac file97 := split; [split; [reflexivity|split; [discriminate|cbn; repeat constructor]]|split; [apply quiet97; reflexivity|split; [apply quiet97; reflexivity|reflexivity]]].
Example C97_hyps : project is_main97 m97 dirs97 src97 /\
  (forall f, has_main m97 src97 f = true -> is_instrumented src97 f = true).
Proof.
  split.
  - split; [exact rec97|split; reflexivity| |].
    + intros f o H. unfold src97 in H. repeat (match type of H with match ?x with _ => _ end = _ => destruct x end; try discriminate).
    + intros f o H. unfold src97 in H. repeat (match type of H with match ?x with _ => _ end = _ => destruct x end; try discriminate);
      injection H as <-; file97.
  - intros f H. unfold has_main, src97, is_instrumented in *. repeat (match type of H with context [match ?x with _ => _ end] => is_var x; destruct x end; try discriminate; try reflexivity).
Qed.
(** The guard of util.h is open the first time only. *)
Definition coin97 (k : nat) : bool := k =? 0.
Definition seen (l : list token) : list token := filter (fun t => match t with TText 0 => false | _ => true end) l.
Definition unit97 (src : N -> option (bool * software)) (coin : nat -> bool) (f : N) : option (list N * list token) :=
  option_map (fun s => (p_files s, seen (p_out s))) (expand coin (inst97 src) 4 f ps0).
Example C97_ex :
  unit97 src97 coin97 1 = Some ([1; 2; 2]%N,
    [TDecl; TText 20; TText 21; TText 12; TCall IEnd; TText 13; TText 22; TImpl; TText 20; TText 21; TMain 9; TCall IEnd; TText 4; TInit]) /\
  unit97 src97 coin97 3 = Some ([3; 2]%N,
    [TDecl; TText 20; TText 21; TText 12; TCall IEnd; TText 13; TText 22; TImpl; TText 14; TCall IEnd; TText 15]).
Proof. split; vm_compute; reflexivity. Qed.

(** The preprocessor keeps exactly one branch of a group, whatever its conditions. *)
Example C97_branches : forall coin inc a b c d,
  option_map (fun r => (fst r, p_out (snd r)))
    (lines coin inc [IDir DIf; IText a; IDir DElif; IText b; IDir DElse; IText c; IDir DEndif; IText d] [] ps0) =
  Some ([], [TText (if coin 0 then a else if coin 1 then b else c); TText d]).
Proof. intros. vm_compute. destruct (coin 0); [reflexivity|]. destruct (coin 1); reflexivity. Qed.

(** ** Where it fails *)
(** Function definitions called main. *)
Fixpoint defs (t : ast) : nat :=
  let 'Node k _ _ _ ks _ := t in
  (match k, ks with KFunction, d :: _ => if is_main97 d then 1 else 0 | _, _ => 0 end) + fold_right (fun x n => defs x + n) 0 ks.
Ltac proj97 src := split; [exact rec97|split; reflexivity| |];
  intros f o H; unfold src in H; repeat (match type of H with match ?x with _ => _ end = _ => destruct x end; try discriminate);
  injection H as <-; first [file97 | cbn; repeat constructor].
Ltac main97 src := intros f H; unfold has_main, src, is_instrumented in *;
  repeat (match type of H with context [match ?x with _ => _ end] => is_var x; destruct x end; try discriminate; try reflexivity).

(** A prototype of main in a header counts as a main: every unit that includes the header
    gets the setup code, the one that defines main twice.  The program has one
    definition of main, in file 6; before instrumentation its two units are fine. *)
Definition main_h : ast := n_ KRoot 0 [n_ KSimple 30 [n_ KExpr 9 []]].
Definition main2_c : ast := n_ KRoot 0 [n_ KPreDef 23 []; fun97 9 4].
Definition other_c : ast := n_ KRoot 0 [n_ KPreDef 23 []; fun97 14 15].
Definition src_proto (f : N) : option (bool * software) :=
  match f with
  | 4 => Some (true, mkSW main_h []) | 6 => Some (true, mkSW main2_c []) | 7 => Some (true, mkSW other_c [])
  | _ => None
  end%N.
Theorem C97_prototype_refuted :
  project is_main97 m97 dirs97 src_proto /\
  (forall f, has_main m97 src_proto f = true -> is_instrumented src_proto f = true) /\
  (defs main_h = 0 /\ defs main2_c = 1 /\ defs other_c = 0) /\
  unit97 src_proto coin97 6 = Some ([6; 4]%N,
    [TDecl; TText 23; TText 30; TMain 9; TImpl; TInit; TMain 9; TCall IEnd; TText 4; TInit]) /\
  unit97 src_proto coin97 7 = Some ([7; 4]%N,
    [TDecl; TText 23; TText 30; TMain 9; TImpl; TInit; TText 14; TCall IEnd; TText 15]).
Proof.
  split; [proj97 src_proto|]. split; [main97 src_proto|]. split; [vm_compute; auto|]. split; vm_compute; reflexivity.
Qed.
Print Assumptions C97_prototype_refuted.

(** A second file with a main that the preprocessor skips (a test driver), included below
    main: the setup code is there twice, though main is there once. *)
Definition test_c : ast := n_ KRoot 0 [n_ KPreIf 21 [fun97 9 4; n_ KExpr 22 []]; fun97 16 17].
Definition main3_c : ast := n_ KRoot 0 [fun97 9 4; n_ KPreDef 24 []].
Definition src_skip (f : N) : option (bool * software) :=
  match f with 5 => Some (true, mkSW test_c []) | 8 => Some (true, mkSW main3_c []) | _ => None end%N.
Theorem C97_skipped_refuted :
  project is_main97 m97 dirs97 src_skip /\
  (forall f, has_main m97 src_skip f = true -> is_instrumented src_skip f = true) /\
  unit97 src_skip (fun _ => false) 8 = Some ([8; 5]%N,
    [TDecl; TMain 9; TCall IEnd; TText 4; TText 24; TText 21; TText 16; TCall IEnd; TText 17; TImpl; TInit; TInit]).
Proof.
  split; [proj97 src_skip|]. split; [main97 src_skip|]. vm_compute; reflexivity.
Qed.
Print Assumptions C97_skipped_refuted.

(** If the file with main is not instrumented, the calls in other files have no log
    variable: no unit has the setup code. *)
Definition src_plain (f : N) : option (bool * software) :=
  match f with 1 => Some (false, mkSW main_c []) | 2 => Some (false, mkSW util_h []) | 3 => Some (true, mkSW util_c []) | _ => None end%N.
Theorem C97_plain_main_refuted :
  project is_main97 m97 dirs97 src_plain /\
  unit97 src_plain coin97 1 = Some ([1; 2; 2]%N,
    [TText 20; TText 21; TText 12; TText 13; TText 22; TText 20; TText 21; TMain 9; TText 4]) /\
  unit97 src_plain coin97 3 = Some ([3; 2]%N,
    [TDecl; TText 20; TText 21; TText 12; TText 13; TText 22; TText 14; TCall IEnd; TText 15; TImpl]).
Proof. split; [proj97 src_plain|]. split; vm_compute; reflexivity. Qed.
Print Assumptions C97_plain_main_refuted.

(** A directive above the first AST that is no parse error: if the file starts with a parse
    error that opens a group, the declarations land in the group; when it is skipped,
    the calls below are not declared. *)
Definition odd_c : ast := n_ KRoot 0 [n_ KError 21 [n_ KSimple 31 []]; n_ KExpr 22 []; fun97 14 15].
Definition src_odd (f : N) : option (bool * software) :=
  match f with 9 => Some (true, mkSW odd_c []) | _ => None end%N.
Theorem C97_top_refuted :
  source_file odd_c /\ quiet dirs97 (bottom odd_c) /\ ~ quiet dirs97 (top odd_c) /\
  unit97 src_odd (fun _ => true) 9 = Some ([9]%N, [TText 21; TDecl; TText 31; TText 22; TText 14; TCall IEnd; TText 15; TImpl]) /\
  unit97 src_odd (fun _ => false) 9 = Some ([9]%N, [TText 21; TText 14; TCall IEnd; TText 15; TImpl]).
Proof.
  split; [split; [reflexivity|split; [discriminate|cbn; repeat constructor]]|]. split; [apply quiet97; reflexivity|].
  split; [intros Q; specialize (Q 21%N); cbn in Q; discriminate Q; auto|]. split; vm_compute; reflexivity.
Qed.
Print Assumptions C97_top_refuted.
