From Coq Require Import Strings.String Permutation.
From Verif Require Import BaseProofs Types Compare PrintPred Dec DecProofs Instr InstrSpec InstrText InstrTable InstrProofs InstrReq InstrEnd CRead Emit EmitSpec.

Notation length := List.length.

(** ** Lexing in pieces *)
Fixpoint lrun (s : lstate) (l : list byte) : list ctok * lstate :=
  match l with
  | [] => ([], s)
  | b :: r => let '(k, s1) := lex_step s b in let '(q, s2) := lrun s1 r in (k ++ q, s2)
  end.
Definition pre (ks : list ctok) (o : option (list ctok)) : option (list ctok) :=
  match o with Some q => Some (ks ++ q) | None => None end.

Lemma lex_run : forall l s r, lex_from s (l ++ r) = pre (fst (lrun s l)) (lex_from (snd (lrun s l)) r).
Proof.
  induction l as [|b l IH]; intros s r; cbn [app lrun lex_from].
  - cbn [fst snd]. unfold pre. destruct (lex_from s r); reflexivity.
  - destruct (lex_step s b) as [k s1]. rewrite IH. destruct (lrun s1 l) as [q s2]. cbn [fst snd]. unfold pre.
    destruct (lex_from s2 r); auto. now rewrite app_assoc.
Qed.
Lemma lrun_app : forall l s r, lrun s (l ++ r) = (fst (lrun s l) ++ fst (lrun (snd (lrun s l)) r), snd (lrun (snd (lrun s l)) r)).
Proof.
  induction l as [|b l IH]; intros s r; cbn [app lrun].
  - cbn [fst snd app]. destruct (lrun s r); reflexivity.
  - destruct (lex_step s b) as [k s1]. rewrite IH. destruct (lrun s1 l) as [q s2]. cbn [fst snd]. now rewrite app_assoc.
Qed.

Definition closed (t : list byte) (ks : list ctok) : Prop := lrun L0 t = (ks, L0).
Definition open_end (t : list byte) (ks : list ctok) : Prop :=
  forall d r, word_byte d = false -> lrun L0 (t ++ d :: r) = (ks ++ fst (lrun L0 (d :: r)), snd (lrun L0 (d :: r))).
Definition delimited (t : list byte) : Prop := exists d r, t = d :: r /\ word_byte d = false.

Lemma closed_lex : forall t ks, closed t ks -> lex t = Some ks.
Proof. intros t ks H. unfold lex. rewrite <- (app_nil_r t), lex_run, H. cbn. now rewrite app_nil_r. Qed.
Lemma closed_nil : closed [] [].
Proof. reflexivity. Qed.
Lemma closed_app : forall t ks t' ks', closed t ks -> closed t' ks' -> closed (t ++ t') (ks ++ ks').
Proof. intros t ks t' ks' A B. unfold closed. rewrite lrun_app, A. cbn [fst snd]. now rewrite B. Qed.
Lemma closed_open : forall t ks, closed t ks -> open_end t ks.
Proof. intros t ks A d r _. rewrite lrun_app, A. reflexivity. Qed.
Lemma open_closed : forall t ks t' ks', open_end t ks -> closed t' ks' -> delimited t' -> closed (t ++ t') (ks ++ ks').
Proof. intros t ks t' ks' A B (d & r & -> & D). unfold closed. rewrite (A d r D), B. reflexivity. Qed.
Lemma closed_then : forall t ks t' ks', closed t ks -> open_end t' ks' -> open_end (t ++ t') (ks ++ ks').
Proof. intros t ks t' ks' A B d r D. rewrite <- app_assoc, lrun_app, A. cbn [fst snd]. rewrite (B d r D). cbn [fst snd]. now rewrite app_assoc. Qed.
Lemma open_then : forall t ks c kc t' ks', open_end t ks -> closed c kc -> delimited c -> open_end t' ks' ->
  open_end (t ++ c ++ t') (ks ++ kc ++ ks').
Proof. intros. rewrite !app_assoc. apply closed_then; auto. now apply open_closed. Qed.

Lemma lrun_word : forall x w, forallb word_byte x = true -> lrun (LWord w) x = ([], LWord (rev x ++ w)).
Proof.
  induction x as [|b x IH]; intros w H; [reflexivity|]. cbn [forallb] in H. apply andb_true_iff in H. destruct H as [B H].
  cbn [lrun lex_step]. rewrite B. rewrite IH by auto. cbn [rev app]. now rewrite <- app_assoc.
Qed.
Lemma open_word : forall x, x <> [] -> forallb word_byte x = true -> open_end x [word_tok x].
Proof.
  intros [|b x] NE H; [congruence|]. intros d r D. cbn [forallb] in H. apply andb_true_iff in H. destruct H as [B H].
  cbn [app lrun]. cbn [lex_step]. unfold start at 1. rewrite B. rewrite lrun_app, lrun_word by auto. cbn [fst snd app].
  cbn [lrun lex_step]. rewrite D. rewrite rev_app_distr, rev_involutive. cbn [rev app].
  destruct (start d) as [k s']. destruct (lrun s' r) as [q s2]. reflexivity.
Qed.
Lemma open_id : forall x, identifier x -> open_end x [KId x].
Proof.
  intros [|b x] H; [destruct H|]. destruct H as [L H]. pose proof (open_word (b :: x)) as W. cbn [word_tok] in W.
  assert (D : digit b = false) by (unfold digit, letter in *; destruct b; try reflexivity; discriminate L).
  rewrite D in W. apply W; [discriminate|]. cbn [forallb]. unfold word_byte. rewrite L, orb_true_r. exact H.
Qed.

(** ** Numbers *)
Lemma digits_head : forall f n, n <> 0 -> n < 2 ^ N.of_nat f -> exists b r, digits (S f) n = b :: r /\ digit b = true /\ b <> x30.
Proof.
  induction f as [|f IH]; intros n NZ H; [cbn in H; lia|].
  change (digits (S (S f)) n) with ((if n <? 10 then [] else digits (S f) (n / 10)) ++ [byte_of_N (48 + n mod 10)]).
  destruct (N.ltb_spec n 10).
  - cbn [app]. rewrite N.mod_small by lia. exists (byte_of_N (48 + n)), []. split; auto.
    assert (n = 1 \/ n = 2 \/ n = 3 \/ n = 4 \/ n = 5 \/ n = 6 \/ n = 7 \/ n = 8 \/ n = 9) as C by lia.
    repeat (destruct C as [->|C]; [split; [reflexivity|discriminate]|]). subst. split; [reflexivity|discriminate].
  - destruct (IH (n / 10)) as (b & r & E & B & NB).
    + intros Z. apply N.div_small_iff in Z; lia.
    + rewrite Nnat.Nat2N.inj_succ, N.pow_succ_r' in H. apply N.div_lt_upper_bound; lia.
    + rewrite E. cbn [app]. eauto.
Qed.
Lemma is_digit_digit : forall b, is_digit b <-> digit b = true.
Proof. intros b. unfold is_digit, digit. rewrite andb_true_iff, !N.leb_le. reflexivity. Qed.
Lemma dec_digits : forall n, forallb digit (dec n) = true.
Proof. intros n. apply forallb_forall. intros b I. pose proof (show_digit n) as F. rewrite Forall_forall in F. apply is_digit_digit. auto. Qed.
Lemma dec_words : forall n, forallb word_byte (dec n) = true.
Proof. intros n. pose proof (dec_digits n) as H. rewrite forallb_forall in *. intros b I. unfold word_byte. now rewrite (H b I). Qed.
Lemma number_digits : forall l a, forallb digit l = true -> number a l = Some (fold_left (fun a b => 10 * a + (N_of_byte b - 48)) l a, false).
Proof.
  induction l as [|b l IH]; intros a H; [reflexivity|]. cbn [forallb] in H. apply andb_true_iff in H. destruct H as [B H].
  assert (E : number a (b :: l) = number (10 * a + (N_of_byte b - 48)) l).
  { cbn [number]. rewrite B. destruct l; destruct b; try reflexivity; discriminate B. }
  rewrite E, IH by auto. reflexivity.
Qed.
Lemma number_digits_u : forall l a, forallb digit l = true -> number a (l ++ [x75]) = Some (fold_left (fun a b => 10 * a + (N_of_byte b - 48)) l a, true).
Proof.
  induction l as [|b l IH]; intros a H; [reflexivity|]. cbn [forallb] in H. apply andb_true_iff in H. destruct H as [B H].
  assert (E : number a ((b :: l) ++ [x75]) = number (10 * a + (N_of_byte b - 48)) (l ++ [x75])).
  { cbn [app number]. rewrite B. destruct l; destruct b; try reflexivity; discriminate B. }
  rewrite E, IH by auto. reflexivity.
Qed.
Lemma dec_shape : forall n, dec n = [x30] \/ exists b r, dec n = b :: r /\ digit b = true /\ b <> x30.
Proof.
  intros n. destruct (N.eq_dec n 0) as [->|NZ]; [left; reflexivity|]. right. unfold dec, show_N. apply digits_head; auto. apply size_bound.
Qed.
Lemma num_dec : forall n, num_value (dec n) = Some (n, false).
Proof.
  intros n. assert (E : num_value (dec n) = number 0 (dec n)).
  { destruct (dec_shape n) as [->|(b & r & -> & D & NB)]; [reflexivity|]. unfold num_value. destruct b; try reflexivity. congruence. }
  rewrite E, number_digits by apply dec_digits. f_equal. f_equal. apply dec_show.
Qed.
Lemma num_dec_u : forall n, num_value (dec n ++ [x75]) = Some (n, true).
Proof.
  intros n. assert (E : num_value (dec n ++ [x75]) = number 0 (dec n ++ [x75])).
  { destruct (dec_shape n) as [->|(b & r & -> & D & NB)]; [reflexivity|]. unfold num_value. cbn [app]. destruct b; try reflexivity. congruence. }
  rewrite E, number_digits_u by apply dec_digits. f_equal. f_equal. apply dec_show.
Qed.
Lemma word_tok_dec : forall n r, word_tok (dec n ++ r) = KNum (dec n ++ r).
Proof. intros n r. destruct (dec_shape n) as [E|(b & q & E & D & _)]; rewrite E; [reflexivity|]. cbn. now rewrite D. Qed.
Lemma dec_nonempty : forall n, dec n <> [].
Proof. exact show_nonempty. Qed.
Lemma open_dec : forall n, open_end (dec n) [KNum (dec n)].
Proof.
  intros n. rewrite <- (app_nil_r (dec n)) at 2. rewrite <- word_tok_dec, app_nil_r. apply open_word; [apply dec_nonempty|apply dec_words].
Qed.
Lemma open_dec_u : forall n, open_end (dec n ++ [x75]) [KNum (dec n ++ [x75])].
Proof.
  intros n. rewrite <- word_tok_dec. apply open_word.
  - intros H. apply app_eq_nil in H. destruct H. discriminate.
  - rewrite forallb_app, dec_words. reflexivity.
Qed.

(** ** String literals *)
Lemma lrun_chars : forall s acc, ~ In x0a s ->
  lrun (LStr acc) (concat (map (fun b => match b with x22 | x5c => [x5c; b] | _ => [b] end) s)) = ([], LStr (rev s ++ acc)).
Proof.
  induction s as [|b s IH]; intros acc H; [reflexivity|]. cbn [map concat].
  assert (NB : b <> x0a) by (intros ->; apply H; now left). assert (NS : ~ In x0a s) by (intros X; apply H; now right).
  rewrite lrun_app.
  assert (E : lrun (LStr acc) (match b with x22 | x5c => [x5c; b] | _ => [b] end) = ([], LStr (b :: acc))) by (destruct b; try reflexivity; congruence).
  rewrite E. cbn [fst snd app]. rewrite IH by auto. cbn [fst snd rev]. now rewrite <- app_assoc.
Qed.
Lemma closed_literal : forall s, ~ In x0a s -> closed (lisp_print s) [KStr s].
Proof.
  intros s H. unfold closed, lisp_print. 
  set (body := concat _). assert (E : lrun (LStr []) body = ([], LStr (rev s ++ []))) by (apply lrun_chars; auto).
  cbn [lrun]. change (lex_step L0 x22) with (@nil ctok, LStr []). cbv iota beta. rewrite lrun_app, E. cbn [fst snd app lrun lex_step].
  now rewrite app_nil_r, rev_involutive.
Qed.

(** ** Brackets *)
Definition plain (k : ctok) : Prop := opens k = false /\ closes k = false.
Inductive bal : list ctok -> Prop :=
| bal_nil : bal []
| bal_cons : forall k l, plain k -> bal l -> bal (k :: l)
| bal_wrap : forall o l c r, opens o = true -> closes o = false -> closes c = true -> opens c = false -> bal l -> bal r -> bal (o :: l ++ c :: r).
Inductive flat (sep : byte) : list ctok -> Prop :=
| fl_nil : flat sep []
| fl_cons : forall k l, plain k -> is sep k = false -> flat sep l -> flat sep (k :: l)
| fl_wrap : forall o l c r, opens o = true -> closes o = false -> closes c = true -> opens c = false -> is sep o = false ->
    bal l -> flat sep r -> flat sep (o :: l ++ c :: r).

Lemma flat_bal : forall sep l, flat sep l -> bal l.
Proof. induction 1; [apply bal_nil|apply bal_cons|apply bal_wrap]; auto. Qed.
Lemma bal_app : forall l m, bal l -> bal m -> bal (l ++ m).
Proof.
  induction 1 as [|k l P _ IH|o l c r O1 O2 C1 C2 B _ _ IH]; intros M; auto; cbn [app]; [apply bal_cons; auto|].
  rewrite <- app_assoc. cbn [app]. apply bal_wrap; auto.
Qed.
Lemma flat_app : forall sep l m, flat sep l -> flat sep m -> flat sep (l ++ m).
Proof.
  induction 1 as [|k l P S _ IH|o l c r O1 O2 C1 C2 S B _ IH]; intros M; auto; cbn [app]; [apply fl_cons; auto|].
  rewrite <- app_assoc. cbn [app]. apply fl_wrap; auto.
Qed.
Lemma inside_bal : forall l, bal l -> forall d r, inside d (l ++ r) = pre l (inside d r).
Proof.
  induction 1 as [|k l [P1 P2] _ IH|o l c r O1 O2 C1 C2 _ IH1 _ IH2]; intros d q.
  - cbn. destruct (inside d q); reflexivity.
  - cbn [app inside]. rewrite P1, P2. cbn [andb]. rewrite IH. destruct (inside d q); reflexivity.
  - cbn [app inside]. rewrite O1, O2. cbn [andb]. rewrite <- app_assoc. rewrite IH1. cbn [app inside]. rewrite C1, C2. cbn [andb Nat.eqb pred].
    rewrite IH2. destruct (inside d q); cbn; auto. now rewrite <- app_assoc.
Qed.
Lemma inside_end : forall l c r, bal l -> closes c = true -> inside 0 (l ++ c :: r) = Some l.
Proof. intros l c r B C. rewrite inside_bal by auto. cbn. rewrite C. cbn. now rewrite app_nil_r. Qed.
Lemma split_deep : forall sep l, bal l -> forall d cur r, split sep (S d) cur (l ++ r) = split sep (S d) (rev l ++ cur) r.
Proof.
  intros sep l B. induction B as [|k l [P1 P2] _ IH|o l c r O1 O2 C1 C2 _ IH1 _ IH2]; intros d cur q; [reflexivity| |].
  - cbn [app split Nat.eqb andb]. rewrite P1, P2. rewrite IH. cbn [rev]. now rewrite <- app_assoc.
  - cbn [app split Nat.eqb andb]. rewrite O1. rewrite <- app_assoc, IH1. cbn [app split Nat.eqb andb]. rewrite C1, C2. cbn [pred].
    rewrite IH2. cbn [rev]. rewrite rev_app_distr. cbn [rev]. now rewrite <- !app_assoc.
Qed.
Lemma split_flat : forall sep l, flat sep l -> forall cur r, split sep 0 cur (l ++ r) = split sep 0 (rev l ++ cur) r.
Proof.
  intros sep l F. induction F as [|k l [P1 P2] S _ IH|o l c r O1 O2 C1 C2 S B _ IH]; intros cur q; [reflexivity| |].
  - cbn [app split Nat.eqb]. rewrite S. cbn [andb]. rewrite P1, P2. rewrite IH. cbn [rev]. now rewrite <- app_assoc.
  - cbn [app split Nat.eqb]. rewrite S. cbn [andb]. rewrite O1, <- app_assoc. rewrite (split_deep sep l B). cbn [app split Nat.eqb andb].
    rewrite C1, C2. cbn [pred]. rewrite IH. cbn [rev]. rewrite rev_app_distr. cbn [rev]. now rewrite <- !app_assoc.
Qed.

(** Items with separators between them. *)
Fixpoint sepby (sep : byte) (items : list (list ctok)) : list ctok :=
  match items with
  | [] => []
  | [x] => x
  | x :: r => x ++ KPunct sep :: sepby sep r
  end.
Lemma sepby_cons : forall sep x y r, sepby sep (x :: y :: r) = x ++ KPunct sep :: sepby sep (y :: r).
Proof. reflexivity. Qed.
Definition sep_ok (sep : byte) : Prop := sep = x2c \/ sep = x3b.
Lemma is_refl : forall b, is b (KPunct b) = true.
Proof. intros b. cbn. destruct b; reflexivity. Qed.
Lemma split_sepby : forall sep items, items <> [] -> Forall (flat sep) items -> split sep 0 [] (sepby sep items) = items.
Proof.
  intros sep items NE F. induction F as [|x items FX F IH]; [congruence|]. destruct items as [|y items].
  - cbn [sepby]. rewrite <- (app_nil_r x) at 1. rewrite split_flat by auto. cbn [split]. now rewrite app_nil_r, rev_involutive.
  - rewrite sepby_cons, split_flat by auto. cbn [split Nat.eqb]. rewrite is_refl. cbn [andb]. rewrite app_nil_r, rev_involutive. f_equal.
    apply IH. discriminate.
Qed.
Lemma split_each : forall sep items, Forall (flat sep) items -> split sep 0 [] (concat (map (fun x => x ++ [KPunct sep]) items)) = items ++ [[]].
Proof.
  intros sep items F. induction F as [|x items FX F IH]; [reflexivity|]. cbn [map concat]. rewrite <- app_assoc, split_flat by auto.
  cbn [app split Nat.eqb]. rewrite is_refl. cbn [andb]. now rewrite app_nil_r, rev_involutive, IH.
Qed.
Lemma sepby_bal : forall sep items, plain (KPunct sep) -> Forall bal items -> bal (sepby sep items).
Proof.
  intros sep items P F. induction F as [|x items FX F IH]; [apply bal_nil|]. destruct items as [|y items]; auto.
  rewrite sepby_cons. apply bal_app; auto. apply bal_cons; auto.
Qed.
Lemma sepby_app : forall sep a b, a <> [] -> b <> [] -> sepby sep (a ++ b) = sepby sep a ++ KPunct sep :: sepby sep b.
Proof.
  induction a as [|x a IH]; intros b NA NB; [congruence|]. destruct a as [|y a].
  - cbn [app]. destruct b; [congruence|]. reflexivity.
  - cbn [app] in *. rewrite !sepby_cons. rewrite (IH b) by (auto; discriminate). now rewrite <- app_assoc.
Qed.

(** ** Arguments *)
Definition special : list name :=
  [text "__sel_trace_file"; text "names"; text "types"; text "__write_trace_header"; text "getenv"].
Definition ordinary (k : ctok) : Prop := match k with KId x => ~ In x special | _ => True end.

Definition lexes (t : name) (items : list (list ctok)) : Prop :=
  open_end t (sepby x2c items) /\ Forall (flat x2c) items /\ items <> [].
Definition reads (t : name) (args : list carg) : Prop := exists items, lexes t items /\ mapM arg_of items = Some args.

Lemma mapM_app : forall A B (f : A -> option B) l m a b, mapM f l = Some a -> mapM f m = Some b -> mapM f (l ++ m) = Some (a ++ b).
Proof.
  induction l as [|x l IH]; intros m a b H1 H2; cbn in *.
  - injection H1 as <-. auto.
  - destruct (f x); [|discriminate]. destruct (mapM f l) as [q|]; [|discriminate]. injection H1 as <-. rewrite (IH m q b); auto.
Qed.
Lemma comma_closed : closed (text ", ") [KPunct x2c] /\ delimited (text ", ").
Proof. split; [vm_compute; reflexivity|]. exists x2c, [x20]. split; reflexivity. Qed.
Lemma reads_app : forall t a t' a', reads t a -> reads t' a' -> reads (t ++ text ", " ++ t') (a ++ a').
Proof.
  intros t a t' a' (i & (O & F & NE) & M) (i' & (O' & F' & NE') & M'). exists (i ++ i'). split; [|apply mapM_app; auto].
  destruct comma_closed as [C D]. split; [|split].
  - rewrite sepby_app by auto. exact (open_then _ _ _ _ _ _ O C D O').
  - apply Forall_app; auto.
  - destruct i; [congruence|discriminate].
Qed.
Lemma reads_one : forall t ks a, open_end t ks -> flat x2c ks -> arg_of ks = Some a -> reads t [a].
Proof.
  intros t ks a O F A. exists [ks]. split; [split; [exact O|split; [auto|discriminate]]|]. cbn. now rewrite A.
Qed.
Lemma flat_one : forall sep k, plain k -> is sep k = false -> flat sep [k].
Proof. intros. apply fl_cons; auto. apply fl_nil. Qed.
Lemma plain_id : forall x, plain (KId x).
Proof. split; reflexivity. Qed.
Lemma plain_num : forall x, plain (KNum x).
Proof. split; reflexivity. Qed.
Lemma plain_str : forall x, plain (KStr x).
Proof. split; reflexivity. Qed.
#[global] Hint Resolve plain_id plain_num plain_str fl_nil bal_nil : emit.

Lemma reads_num : forall n, reads (dec n) [ANum n false].
Proof.
  intros n. apply (reads_one _ [KNum (dec n)]); [apply open_dec|apply flat_one; auto with emit|]. cbn [arg_of]. now rewrite num_dec.
Qed.
Lemma reads_num_u : forall n, reads (dec n ++ [x75]) [ANum n true].
Proof.
  intros n. apply (reads_one _ [KNum (dec n ++ [x75])]); [apply open_dec_u|apply flat_one; auto with emit|]. cbn [arg_of]. now rewrite num_dec_u.
Qed.
Lemma reads_name : forall x, identifier x -> reads x [AName x].
Proof. intros x I. apply (reads_one _ [KId x]); [apply open_id; auto|apply flat_one; auto with emit|reflexivity]. Qed.

Lemma wrap1 : forall sep o k c, opens (KPunct o) = true -> closes (KPunct o) = false -> closes (KPunct c) = true -> opens (KPunct c) = false ->
  is sep (KPunct o) = false -> plain k -> flat sep [KPunct o; k; KPunct c].
Proof. intros. change [KPunct o; k; KPunct c] with (KPunct o :: [k] ++ KPunct c :: []). apply fl_wrap; auto with emit. apply bal_cons; auto with emit. Qed.

Lemma reads_strlen : forall x, identifier x -> reads (text "strlen(" ++ x ++ text ")") [AStrlen x].
Proof.
  intros x I. apply (reads_one _ ([KId (text "strlen"); KPunct x28] ++ [KId x] ++ [KPunct x29])).
  - apply closed_then; [vm_compute; reflexivity|]. apply closed_open. apply open_closed; [apply open_id; auto|vm_compute; reflexivity|].
    exists x29, []. split; reflexivity.
  - apply fl_cons; auto with emit. apply wrap1; auto with emit.
  - reflexivity.
Qed.
Lemma reads_length : forall x, identifier x -> reads (text "(" ++ x ++ text ").length()") [ALength x].
Proof.
  intros x I. apply (reads_one _ ([KPunct x28] ++ [KId x] ++ [KPunct x29; KPunct x2e; KId (text "length"); KPunct x28; KPunct x29])).
  - apply closed_then; [vm_compute; reflexivity|]. apply closed_open. apply open_closed; [apply open_id; auto|vm_compute; reflexivity|].
    eexists x29, _. split; reflexivity.
  - apply (flat_app x2c [KPunct x28; KId x; KPunct x29]); [apply wrap1; auto with emit|].
    apply fl_cons; [split; reflexivity|reflexivity|]. apply fl_cons; auto with emit. apply (fl_wrap x2c (KPunct x28) [] (KPunct x29) []); auto with emit.
  - reflexivity.
Qed.
Lemma reads_cstr : forall x, identifier x -> reads (text "(" ++ x ++ text ").c_str()") [ACstr x].
Proof.
  intros x I. apply (reads_one _ ([KPunct x28] ++ [KId x] ++ [KPunct x29; KPunct x2e; KId (text "c_str"); KPunct x28; KPunct x29])).
  - apply closed_then; [vm_compute; reflexivity|]. apply closed_open. apply open_closed; [apply open_id; auto|vm_compute; reflexivity|].
    eexists x29, _. split; reflexivity.
  - apply (flat_app x2c [KPunct x28; KId x; KPunct x29]); [apply wrap1; auto with emit|].
    apply fl_cons; [split; reflexivity|reflexivity|]. apply fl_cons; auto with emit. apply (fl_wrap x2c (KPunct x28) [] (KPunct x29) []); auto with emit.
  - reflexivity.
Qed.

(** The texts of formats and sizes. *)
Definition size_reads (s : name) (n : N) : Prop :=
  exists ks a, open_end s ks /\ flat x2c ks /\ arg_of ks = Some a /\ size_of_arg a = Some n /\ Forall ordinary ks.
Definition fmt_reads (f : name) (fm : fmt) : Prop := identifier f /\ fmt_constant f = Some fm /\ ordinary (KId f).

Lemma ordinary_check : forall ks, forallb (fun k => match k with KId x => negb (existsb (bytes_eqb x) special) | _ => true end) ks = true -> Forall ordinary ks.
Proof.
  intros ks H. apply Forall_forall. intros k I. rewrite forallb_forall in H. specialize (H k I). destruct k; cbn [ordinary]; auto.
  intros X. apply negb_true_iff in H. assert (existsb (bytes_eqb x) special = true); [|congruence]. apply existsb_exists. exists x. split; auto. now apply beq.
Qed.
Lemma fmt_check : forall f fm, identifier f -> fmt_constant f = Some fm ->
  forallb (fun k => match k with KId x => negb (existsb (bytes_eqb x) special) | _ => true end) [KId f] = true -> fmt_reads f fm.
Proof. intros f fm A B C. apply ordinary_check in C. inversion C. subst. split; auto. Qed.

Lemma closed_words : forall ws, Forall identifier ws -> ws <> [] -> forall t kt, closed t kt -> delimited t ->
  closed (join ws ++ t) (map KId ws ++ kt).
Proof.
  induction ws as [|w ws IH]; intros F NE t kt C D; [congruence|]. inversion F as [|? ? I F']; subst. destruct ws as [|v ws].
  - cbn [join map app]. apply (open_closed w [KId w]); auto using open_id.
  - rewrite join_cons2. cbn [map app]. rewrite <- app_assoc. cbn [app]. change (KId w :: ?r) with ([KId w] ++ r). apply open_closed; auto using open_id.
    + change (x20 :: ?r) with ([x20] ++ r). change (KId v :: ?r) with ([] ++ (KId v :: r)). apply closed_app; [vm_compute; reflexivity|].
      apply (IH F'); auto. discriminate.
    + eexists x20, _. split; reflexivity.
Qed.

Lemma size_sizeof : forall w sg n, In (w, sg, n) c_ints -> size_reads (text "sizeof(" ++ join w ++ text ")") n.
Proof.
  intros w sg n H. exists (KId (text "sizeof") :: KPunct x28 :: map KId w ++ [KPunct x29]), (ASizeof n).
  unfold c_ints in H. cbn [In] in H.
  repeat (destruct H as [H|H]; [injection H as <- _ <-; split; [|split; [|split; [|split]]];
    [apply closed_open; vm_compute; reflexivity
    |apply fl_cons; auto with emit; cbn [map app];
     match goal with |- flat _ (?o :: ?a :: ?r) => idtac end;
     match goal with
     | |- flat _ (KPunct x28 :: [?a; ?c]) => apply (fl_wrap x2c (KPunct x28) [a] c [])
     | |- flat _ (KPunct x28 :: [?a; ?b; ?c]) => apply (fl_wrap x2c (KPunct x28) [a; b] c [])
     | |- flat _ (KPunct x28 :: [?a; ?b; ?d; ?c]) => apply (fl_wrap x2c (KPunct x28) [a; b; d] c [])
     end; auto with emit; repeat apply bal_cons; auto with emit
    |vm_compute; reflexivity|reflexivity|apply ordinary_check; vm_compute; reflexivity]|]).
  destruct H.
Qed.

Lemma size_special : size_reads (text "0") 0 /\ size_reads (text "sizeof(void*)") 8 /\
  size_reads (text "sizeof(float)") 4 /\ size_reads (text "sizeof(double)") 8.
Proof.
  split; [|split; [|split]].
  - exists [KNum (text "0")], (ANum 0 false). split; [apply (open_dec 0)|]. split; [apply flat_one; auto with emit|]. split; [reflexivity|]. split; [reflexivity|].
    apply ordinary_check. reflexivity.
  - exists [KId (text "sizeof"); KPunct x28; KId (text "void"); KPunct x2a; KPunct x29], (ASizeof 8). split; [apply closed_open; vm_compute; reflexivity|].
    split; [|split; [vm_compute; reflexivity|split; [reflexivity|apply ordinary_check; vm_compute; reflexivity]]].
    apply fl_cons; auto with emit. apply (fl_wrap x2c (KPunct x28) [KId (text "void"); KPunct x2a] (KPunct x29) []); auto with emit.
    apply bal_cons; auto with emit. apply bal_cons; auto with emit. split; reflexivity.
  - exists [KId (text "sizeof"); KPunct x28; KId (text "float"); KPunct x29], (ASizeof 4). split; [apply closed_open; vm_compute; reflexivity|].
    split; [|split; [vm_compute; reflexivity|split; [reflexivity|apply ordinary_check; vm_compute; reflexivity]]].
    apply fl_cons; auto with emit. apply wrap1; auto with emit.
  - exists [KId (text "sizeof"); KPunct x28; KId (text "double"); KPunct x29], (ASizeof 8). split; [apply closed_open; vm_compute; reflexivity|].
    split; [|split; [vm_compute; reflexivity|split; [reflexivity|apply ordinary_check; vm_compute; reflexivity]]].
    apply fl_cons; auto with emit. apply wrap1; auto with emit.
Qed.

Lemma member_size : forall (sg : bool) n, member n (if sg then signed_names else unsigned_names) = true ->
  size_reads (text "sizeof(" ++ n ++ text ")") (sizeof n).
Proof.
  intros sg n H. apply member_iff in H. rewrite names_of_table in H. apply in_map_iff in H. destruct H as ([[w s] k] & <- & I).
  apply filter_In in I. destruct I as [I _]. cbn [fst snd]. rewrite (sizeof_table_ok _ _ _ I). eapply size_sizeof; eauto.
Qed.

Lemma format_texts : forall t ps,
  match type_format_and_size_t t ps, type_format_and_size t ps with
  | Some (f, s), Some (fm, n) => fmt_reads f fm /\ size_reads s n
  | None, None => True
  | _, _ => False
  end.
Proof.
  intros t ps. unfold type_format_and_size_t, type_format_and_size. destruct size_special as (Z & P & F & D).
  assert (FC : forall f fm, fmt_reads f fm -> fmt_reads f fm) by auto.
  destruct (ps && string_type_p t); [split; auto; apply fmt_check; vm_compute; auto|].
  destruct (pointer_type_p t || array_type_p t); [split; auto; apply fmt_check; vm_compute; auto|].
  destruct (member (base_typename t) signed_names) eqn:E1; [split; [apply fmt_check; vm_compute; auto|apply (member_size true); auto]|].
  destruct (member (base_typename t) unsigned_names) eqn:E2; [split; [apply fmt_check; vm_compute; auto|apply (member_size false); auto]|].
  destruct (bytes_eqb (base_typename t) (text "float")); [split; auto; apply fmt_check; vm_compute; auto|].
  destruct (bytes_eqb (base_typename t) (text "double")); [split; auto; apply fmt_check; vm_compute; auto|]. auto.
Qed.

Lemma reads_size : forall s n, size_reads s n -> exists a, reads s [a] /\ size_of_arg a = Some n.
Proof. intros s n (ks & a & O & F & A & S & _). exists a. split; auto. eapply reads_one; eauto. Qed.

(** ** Descriptions of types *)
Definition desc_reads (d : name) (td : tdesc) : Prop :=
  exists ks, closed d ks /\ flat x2c ks /\ type_elem ks = Some td /\ Forall ordinary ks.

Lemma length_S : forall A (l : list A) x, length (l ++ [x]) = S (length l).
Proof. intros. rewrite app_length. cbn. lia. Qed.

Lemma desc_ok : forall i f fm s n, fmt_reads f fm -> size_reads s n ->
  desc_reads (text "{" ++ dec i ++ text ", " ++ f ++ text ", " ++ s ++ text "}") (mkT i fm n).
Proof.
  intros i f fm s n (FI & FC & FO) (ks & a & O & FL & A & S & OR).
  set (items := [[KNum (dec i)]; [KId f]; ks]). destruct comma_closed as [C D].
  assert (LX : open_end (dec i ++ text ", " ++ f ++ text ", " ++ s) (sepby x2c items)).
  { change (sepby x2c items) with ([KNum (dec i)] ++ [KPunct x2c] ++ ([KId f] ++ [KPunct x2c] ++ ks)).
    apply open_then; auto using open_dec. apply open_then; auto using open_id. }
  assert (FI2 : Forall (flat x2c) items).
  { repeat constructor; auto with emit. }
  assert (BI : bal (sepby x2c items)).
  { apply sepby_bal; [split; reflexivity|]. eapply Forall_impl; [|exact FI2]. intros x Hx. eapply flat_bal; eauto. }
  exists (KPunct x7b :: sepby x2c items ++ [KPunct x7d]). split; [|split; [|split]].
  - change (KPunct x7b :: ?r) with ([KPunct x7b] ++ r). apply closed_app; [vm_compute; reflexivity|].
    replace (dec i ++ text ", " ++ f ++ text ", " ++ s ++ text "}") with ((dec i ++ text ", " ++ f ++ text ", " ++ s) ++ text "}").
    + apply open_closed; auto; [vm_compute; reflexivity|]. exists x7d, []. split; reflexivity.
    + now rewrite <- !app_assoc.
  - apply (fl_wrap x2c (KPunct x7b) (sepby x2c items) (KPunct x7d) []); auto with emit.
  - cbn [type_elem]. rewrite inside_end by auto. rewrite length_S, Nat.eqb_refl. cbn [negb].
    rewrite split_sepby by (auto; discriminate). unfold items. cbn [mapM arg_of]. rewrite num_dec, A, FC, S. reflexivity.
  - constructor; [exact I|]. apply Forall_app. split; [|repeat constructor].
    change (sepby x2c items) with ([KNum (dec i)] ++ [KPunct x2c] ++ ([KId f] ++ [KPunct x2c] ++ ks)).
    repeat (apply Forall_app; split); auto; repeat constructor; auto.
Qed.

(** ** The two models of the tables *)
Section Sim.
Variable test : name -> name -> bool.

Record sim (ts : tstate) (st : istate) : Prop := mkSim {
  s_n : t_names ts = i_names st;
  s_t : t_types ts = i_types st;
  s_d : Forall2 (fun a b => fst a = fst b /\ desc_reads (snd a) (snd b)) (t_descs ts) (i_descs st)
}.
Lemma sim0 : sim tstate0 istate0.
Proof. constructor; constructor. Qed.

Lemma put_sim : forall k d td h h', desc_reads d td ->
  Forall2 (fun a b => fst a = fst b /\ desc_reads (snd a) (snd b)) h h' ->
  Forall2 (fun a b => fst a = fst b /\ desc_reads (snd a) (snd b)) (puthash (key_test test) k d h) (puthash (key_test test) k td h').
Proof.
  intros k d td h h' R F. induction F as [|[k1 v1] [k2 v2] h h' [E1 E2] F IH]; cbn [puthash].
  - constructor; auto.
  - cbn [fst snd] in *. subst k2. destruct (key_test test k1 k); constructor; auto.
Qed.
Lemma name_sim : forall n ts st, sim ts st ->
  fst (get_name_index_t test n ts) = fst (get_name_index test n st) /\ sim (snd (get_name_index_t test n ts)) (snd (get_name_index test n st)).
Proof.
  intros n ts st [A B C]. unfold get_name_index_t, get_name_index. rewrite A. destruct (gethash test n (i_names st)); cbn [fst snd].
  - split; auto. constructor; auto.
  - split; auto. constructor; auto.
Qed.
Lemma type_sim : forall t f fm s n ps ts st, fmt_reads f fm -> size_reads s n -> sim ts st ->
  fst (get_type_index_t test t f s ps ts) = fst (get_type_index test t fm n ps st) /\
  sim (snd (get_type_index_t test t f s ps ts)) (snd (get_type_index test t fm n ps st)).
Proof.
  intros t f fm s n ps ts st F S SM. unfold get_type_index_t, get_type_index. rewrite (s_t _ _ SM).
  destruct (gethash (key_test test) (string_flag t ps, type_trace_string t) (i_types st)); [split; auto|].
  unfold type_description_struct_t, type_description_struct. destruct (name_sim (type_trace_string t) ts st SM) as [E SM'].
  destruct (get_name_index_t test (type_trace_string t) ts) as [i ts1]. destruct (get_name_index test (type_trace_string t) st) as [i' st1].
  cbn [fst snd] in *. subst i'. destruct SM' as [A B C]. cbn [t_types t_names t_descs i_types i_names i_descs]. rewrite B. split; auto.
  constructor; cbn [t_types t_names t_descs i_types i_names i_descs]; auto. apply put_sim; auto. apply desc_ok; auto.
Qed.


(** ** Variables *)
Definition var_reads (t : name) (v : vararg) : Prop :=
  exists a f, reads t [ANum (va_name v) false; ANum (va_type v) false; a; AName f; AName (va_expr v)] /\
    size_of_arg a = Some (va_size v) /\ fmt_constant f = Some (va_fmt v).
Definition blob_args (b : blobarg * access) : list carg :=
  match snd b with
  | ByStrlen => [ANum (ba_name (fst b)) false; ANum (ba_type (fst b)) false; AStrlen (ba_expr (fst b)); AName (ba_expr (fst b))]
  | ByLength => [ANum (ba_name (fst b)) false; ANum (ba_type (fst b)) false; ALength (ba_expr (fst b)); ACstr (ba_expr (fst b))]
  end.
Definition blob_reads (t : name) (b : blobarg * access) : Prop := reads t (blob_args b).
Definition stringy (ps : bool) (x : name * ctype) : bool := ps && string_type_p (snd x).
Definition access_of (t : ctype) : access := if c_string_type_p t then ByStrlen else ByLength.

Lemma var_sim : forall n t ps ts st vt bt ts' vs bs st', identifier n -> sim ts st ->
  instrument_var_t test n t ps ts = (vt, bt, ts') -> instrument_var test n t ps st = (vs, bs, st') ->
  sim ts' st' /\ Forall2 var_reads vt vs /\
  exists pb, map fst pb = bs /\ Forall2 blob_reads bt pb /\ Forall2 (fun x b => snd b = access_of (snd x)) (filter (stringy ps) [(n, t)]) pb.
Proof.
  intros n t ps ts st vt bt ts' vs bs st' ID SM ET EI. unfold instrument_var_t in ET. unfold instrument_var in EI.
  pose proof (format_texts t ps) as FT. cbn [filter]. unfold stringy at 1. cbn [snd].
  assert (NS : type_format_and_size t ps = None -> ps && string_type_p t = false).
  { unfold type_format_and_size. destruct (ps && string_type_p t); auto. discriminate. }
  destruct (type_format_and_size_t t ps) as [[f s]|], (type_format_and_size t ps) as [[fm k]|]; try tauto.
  2:{ injection ET as <- <- <-. injection EI as <- <- <-. split; auto. split; [constructor|]. exists []. rewrite NS by auto. repeat constructor. }
  clear NS. destruct FT as [FR SR]. destruct (type_sim t f fm s k ps ts st FR SR SM) as [E1 S1].
  destruct (get_type_index_t test t f s ps ts) as [ti ts1]. destruct (get_type_index test t fm k ps st) as [ti' st1]. cbn [fst snd] in *. subst ti'.
  destruct (name_sim n ts1 st1 S1) as [E2 S2].
  destruct (get_name_index_t test n ts1) as [ni ts2]. destruct (get_name_index test n st1) as [ni' st2]. cbn [fst snd] in *. subst ni'.
  unfold string_type_p. destruct (ps && c_string_type_p t) eqn:C1; [|destruct (ps && cpp_string_type_p t) eqn:C2].
  - match type of ET with ([], [?x], _) = _ => set (tx := x) in ET end. injection ET as <- <- <-. injection EI as <- <- <-. split; auto. split; [constructor|].
    apply andb_true_iff in C1. destruct C1 as [-> C1]. rewrite C1. cbn [andb orb].
    exists [(mkBA ni ti n, ByStrlen)]. split; auto. split.
    + constructor; [|constructor]. unfold blob_reads, blob_args. cbn [snd fst ba_name ba_type ba_expr]. unfold tx.
      replace (dec ni ++ text ", " ++ dec ti ++ text ", strlen(" ++ n ++ text "), " ++ n)
        with (dec ni ++ text ", " ++ (dec ti ++ text ", " ++ ((text "strlen(" ++ n ++ text ")") ++ text ", " ++ n))).
      * change [ANum ni false; ANum ti false; AStrlen n; AName n] with ([ANum ni false] ++ ([ANum ti false] ++ ([AStrlen n] ++ [AName n]))).
        exact (reads_app _ _ _ _ (reads_num ni) (reads_app _ _ _ _ (reads_num ti) (reads_app _ _ _ _ (reads_strlen n ID) (reads_name n ID)))).
      * rewrite <- !app_assoc. reflexivity.
    + constructor; [|constructor]. unfold access_of. cbn [snd]. now rewrite C1.
  - match type of ET with ([], [?x], _) = _ => set (tx := x) in ET end. injection ET as <- <- <-. injection EI as <- <- <-. split; auto. split; [constructor|].
    apply andb_true_iff in C2. destruct C2 as [-> C2]. cbn [andb] in C1. rewrite C1, C2. cbn [andb orb].
    exists [(mkBA ni ti n, ByLength)]. split; auto. split.
    + constructor; [|constructor]. unfold blob_reads, blob_args. cbn [snd fst ba_name ba_type ba_expr]. unfold tx.
      replace (dec ni ++ text ", " ++ dec ti ++ text ", (" ++ n ++ text ").length(), (" ++ n ++ text ").c_str()")
        with (dec ni ++ text ", " ++ (dec ti ++ text ", " ++ ((text "(" ++ n ++ text ").length()") ++ text ", " ++ (text "(" ++ n ++ text ").c_str()")))).
      * change [ANum ni false; ANum ti false; ALength n; ACstr n] with ([ANum ni false] ++ ([ANum ti false] ++ ([ALength n] ++ [ACstr n]))).
        exact (reads_app _ _ _ _ (reads_num ni) (reads_app _ _ _ _ (reads_num ti) (reads_app _ _ _ _ (reads_length n ID) (reads_cstr n ID)))).
      * rewrite <- !app_assoc. reflexivity.
    + constructor; [|constructor]. unfold access_of. cbn [snd]. now rewrite C1.
  - match type of ET with ([?x], [], _) = _ => set (tx := x) in ET end. injection ET as <- <- <-. injection EI as <- <- <-. split; auto.
    assert (Z : ps && (c_string_type_p t || cpp_string_type_p t) = false) by (destruct ps, (c_string_type_p t), (cpp_string_type_p t); cbn in *; congruence).
    rewrite Z. split; [|exists []; repeat constructor]. constructor; [|constructor].
    destruct (reads_size _ _ SR) as (a & RS & SA). exists a, f. cbn [va_name va_type va_expr va_size va_fmt]. split; [|split; [auto|apply FR]].
    change [ANum ni false; ANum ti false; a; AName f; AName n] with ([ANum ni false] ++ ([ANum ti false] ++ ([a] ++ ([AName f] ++ [AName n])))).
    destruct FR as [FI _]. unfold tx.
    exact (reads_app _ _ _ _ (reads_num ni) (reads_app _ _ _ _ (reads_num ti) (reads_app _ _ _ _ RS (reads_app _ _ _ _ (reads_name f FI) (reads_name n ID))))).
Qed.

Lemma vars_sim : forall l ps ts st vt bt ts' vs bs st', Forall (fun x => identifier (fst x)) l -> sim ts st ->
  instrument_vars_t test l ps ts = (vt, bt, ts') -> instrument_vars test l ps st = (vs, bs, st') ->
  sim ts' st' /\ Forall2 var_reads vt vs /\
  exists pb, map fst pb = bs /\ Forall2 blob_reads bt pb /\ Forall2 (fun x b => snd b = access_of (snd x)) (filter (stringy ps) l) pb.
Proof.
  induction l as [|[n t] l IH]; intros ps ts st vt bt ts' vs bs st' ID SM ET EI; cbn [instrument_vars_t instrument_vars] in *.
  - injection ET as <- <- <-. injection EI as <- <- <-. split; auto. split; [constructor|]. exists []. repeat constructor.
  - inversion ID as [|? ? I1 ID']; subst.
    destruct (instrument_var_t test n t ps ts) as [[v1 b1] ts1] eqn:ET1. destruct (instrument_vars_t test l ps ts1) as [[v2 b2] ts2] eqn:ET2.
    destruct (instrument_var test n t ps st) as [[w1 c1] st1] eqn:EI1. destruct (instrument_vars test l ps st1) as [[w2 c2] st2] eqn:EI2.
    injection ET as <- <- <-. injection EI as <- <- <-.
    destruct (var_sim _ _ _ _ _ _ _ _ _ _ _ I1 SM ET1 EI1) as (S1 & V1 & p1 & M1 & B1 & A1).
    destruct (IH _ _ _ _ _ _ _ _ _ ID' S1 ET2 EI2) as (S2 & V2 & p2 & M2 & B2 & A2).
    split; auto. split; [apply Forall2_app; auto|]. exists (p1 ++ p2). rewrite map_app, M1, M2. split; auto. split; [apply Forall2_app; auto|].
    change ((n, t) :: l) with ([(n, t)] ++ l). rewrite filter_app. apply Forall2_app; auto.
Qed.

(** ** Statements *)
Lemma reads_comma : forall ts args, Forall2 reads ts args -> ts <> [] -> reads (comma ts) (concat args).
Proof.
  intros ts args F. induction F as [|t a ts args R F IH]; intros NE; [congruence|]. destruct F as [|t' a' ts' args' R' F'].
  - cbn [comma concat]. now rewrite app_nil_r.
  - change (comma (t :: t' :: ts')) with (t ++ text ", " ++ comma (t' :: ts')). change (concat (a :: a' :: args')) with (a ++ concat (a' :: args')).
    apply reads_app; auto. apply IH. discriminate.
Qed.
Lemma vars_read : forall vt vs, Forall2 var_reads vt vs -> exists args, Forall2 reads vt args /\ vars_of (concat args) = Some vs.
Proof.
  induction 1 as [|t v vt vs (a & f & R & SA & FC) F (args & FA & VA)]; [exists []; repeat constructor|].
  eexists (_ :: args). split; [constructor; eauto|]. cbn [concat app]. cbn [vars_of]. rewrite SA, FC, VA. now destruct v.
Qed.
Lemma blobs_read : forall bt pb, Forall2 blob_reads bt pb -> exists args, Forall2 reads bt args /\ blobs_of (concat args) = Some pb.
Proof.
  induction 1 as [|t [b ac] bt pb R F (args & FA & VA)]; [exists []; repeat constructor|].
  eexists (_ :: args). split; [constructor; eauto|]. cbn [concat]. unfold blob_args. cbn [snd fst].
  assert (E : bytes_eqb (ba_expr b) (ba_expr b) = true) by now apply beq.
  destruct ac; cbn [app blobs_of]; rewrite E, VA; cbn [option_map]; now destruct b.
Qed.

Definition stmts (t : name) (ps : list pstmt) : Prop :=
  exists its, closed t (concat (map (fun x => x ++ [KPunct x3b]) its)) /\ Forall (flat x3b) its /\ mapM stmt_of its = Some ps.
Lemma stmts_nil : stmts [] [].
Proof. exists []. split; [apply closed_nil|]. split; constructor. Qed.
Lemma stmts_app : forall t p t' p', stmts t p -> stmts t' p' -> stmts (t ++ t') (p ++ p').
Proof.
  intros t p t' p' (i & C & F & M) (i' & C' & F' & M'). exists (i ++ i'). split; [|split; [apply Forall_app; auto|apply mapM_app; auto]].
  rewrite map_app, concat_app. apply closed_app; auto.
Qed.
Lemma stmts_read : forall t p, stmts t p -> read_stmts t = Some p.
Proof.
  intros t p (i & C & F & M). unfold read_stmts. rewrite (closed_lex _ _ C). rewrite split_each by auto. rewrite rev_app_distr. cbn [rev app].
  now rewrite rev_involutive.
Qed.
Lemma stmts_call : forall f body args p, identifier f -> reads body args -> stmt_of_call (f, args) = Some p ->
  stmts (f ++ text "(" ++ body ++ text ");") [p].
Proof.
  intros f body args p I (items & (O & F & NE) & M) S.
  assert (B : bal (sepby x2c items)).
  { apply sepby_bal; [split; reflexivity|]. eapply Forall_impl; [|exact F]. intros x Hx. eapply flat_bal; eauto. }
  exists [KId f :: KPunct x28 :: sepby x2c items ++ [KPunct x29]]. split; [|split].
  - cbn [map concat]. rewrite app_nil_r. cbn [app]. rewrite <- app_assoc. cbn [app].
    change (KId f :: KPunct x28 :: ?r) with ([KId f] ++ ([KPunct x28] ++ r)). apply open_closed; auto using open_id.
    + apply closed_app; [vm_compute; reflexivity|]. apply open_closed; auto; [vm_compute; reflexivity|]. eexists x29, _. split; reflexivity.
    + eexists x28, _. split; reflexivity.
  - constructor; [|constructor]. apply fl_cons; auto with emit. apply (fl_wrap x3b (KPunct x28) (sepby x2c items) (KPunct x29) []); auto with emit.
  - cbn [mapM]. unfold stmt_of, call_of. rewrite inside_end by auto. rewrite length_S, Nat.eqb_refl.
    rewrite split_sepby by auto. rewrite M, S. reflexivity.
Qed.

Lemma ident_log : identifier log_name /\ identifier lock_name.
Proof. split; vm_compute; auto. Qed.
Lemma call_stmts : forall (f : name) ts args p, identifier f -> Forall2 reads ts args -> ts <> [] ->
  stmt_of_call (f, AName log_name :: ANum (lenN ts) false :: concat args) = Some p -> stmts (concat (function_call f ts)) [p].
Proof.
  intros f ts args p I F NE S. unfold function_call. destruct ts as [|t ts]; [congruence|]. cbn [concat]. rewrite app_nil_r.
  replace (f ++ text "(" ++ log_name ++ text ", " ++ dec (lenN (t :: ts)) ++ text ", " ++ comma (t :: ts) ++ text ");")
    with (f ++ text "(" ++ (log_name ++ text ", " ++ (dec (lenN (t :: ts)) ++ text ", " ++ comma (t :: ts))) ++ text ");") by now rewrite <- !app_assoc.
  eapply stmts_call; eauto. change (AName log_name :: ANum ?n false :: ?r) with ([AName log_name] ++ ([ANum n false] ++ r)).
  apply reads_app; [apply reads_name; apply ident_log|]. apply reads_app; [apply reads_num|]. apply reads_comma; auto.
Qed.

Lemma F2_len : forall A B (R : A -> B -> Prop) l m, Forall2 R l m -> lenN l = lenN m.
Proof. induction 1; auto. rewrite !lenN_cons. congruence. Qed.

Lemma vars_stmts : forall vt vs, Forall2 var_reads vt vs -> stmts (concat (function_call (text "__write_trace_variables") vt)) (vars_call vs).
Proof.
  intros vt vs F. destruct (vars_read _ _ F) as (args & R & V). pose proof (F2_len _ _ _ _ _ F) as L. destruct F as [|t v vt vs].
  - apply stmts_nil.
  - cbn [vars_call]. eapply call_stmts; eauto; [vm_compute; auto|discriminate|]. cbn [stmt_of_call].
    change (is_log (AName log_name)) with true. cbn [negb].
    change (bytes_eqb (text "__write_trace_variables") (text "__write_trace_id")) with false.
    change (bytes_eqb (text "__write_trace_variables") (text "__write_end_entry")) with false.
    change (bytes_eqb (text "__write_trace_variables") (text "__write_trace_variables")) with true. cbv iota. rewrite V, L, N.eqb_refl. reflexivity.
Qed.
Lemma blobs_stmts : forall bt pb, Forall2 blob_reads bt pb -> stmts (concat (function_call (text "__write_trace_blobs") bt)) (blobs_call pb).
Proof.
  intros bt pb F. destruct (blobs_read _ _ F) as (args & R & V). pose proof (F2_len _ _ _ _ _ F) as L. destruct F as [|t v bt pb].
  - apply stmts_nil.
  - cbn [blobs_call]. eapply call_stmts; eauto; [vm_compute; auto|discriminate|]. cbn [stmt_of_call].
    change (is_log (AName log_name)) with true. cbn [negb].
    change (bytes_eqb (text "__write_trace_blobs") (text "__write_trace_id")) with false.
    change (bytes_eqb (text "__write_trace_blobs") (text "__write_end_entry")) with false.
    change (bytes_eqb (text "__write_trace_blobs") (text "__write_trace_variables")) with false.
    change (bytes_eqb (text "__write_trace_blobs") (text "__write_trace_blobs")) with true. cbv iota. rewrite V, L, N.eqb_refl. reflexivity.
Qed.
Lemma id_stmts : forall id, stmts (write_trace_id_t id) [PId id].
Proof.
  intros id. unfold write_trace_id_t.
  replace (x0a :: text "__write_trace_id(" ++ log_name ++ text ", " ++ lock_name ++ text ", " ++ dec id ++ text "u);")
    with ([x0a] ++ (text "__write_trace_id" ++ text "(" ++ (log_name ++ text ", " ++ (lock_name ++ text ", " ++ (dec id ++ [x75]))) ++ text ");")).
  - change [PId id] with ([] ++ [PId id]). apply stmts_app; [exists []; split; [vm_compute; reflexivity|split; constructor]|].
    eapply stmts_call; [vm_compute; auto| |].
    + apply reads_app; [apply reads_name; apply ident_log|]. apply reads_app; [apply reads_name; apply ident_log|]. apply reads_num_u.
    + reflexivity.
  - rewrite <- !app_assoc. reflexivity.
Qed.
Lemma end_stmts : stmts write_end_entry_t [PEnd].
Proof.
  unfold write_end_entry_t.
  replace (text "__write_end_entry(" ++ log_name ++ text ", " ++ lock_name ++ text ");" ++ [x0a])
    with ((text "__write_end_entry" ++ text "(" ++ (log_name ++ text ", " ++ lock_name) ++ text ");") ++ [x0a]).
  - change [PEnd] with ([PEnd] ++ []). apply stmts_app; [|exists []; split; [vm_compute; reflexivity|split; constructor]].
    eapply stmts_call; [vm_compute; auto| |].
    + apply reads_app; apply reads_name; apply ident_log.
    + reflexivity.
  - rewrite <- !app_assoc. reflexivity.
Qed.
End Sim.

(** ** Places *)
Lemma F2_impl : forall A B (R S : A -> B -> Prop), (forall a b, R a b -> S a b) -> forall l m, Forall2 R l m -> Forall2 S l m.
Proof. intros A B R S H l m F. induction F; constructor; auto. Qed.
Lemma stringy_kind : forall kf ps n t, type_ok kf t -> compiles ps t ->
  stringy ps (n, t) = match kind_fn t with Some k => as_string ps k | None => false end.
Proof.
  intros kf ps n t OK C. unfold stringy, string_type_p, as_string. cbn [snd]. destruct ps; [|now destruct (kind_fn t)]. cbn [andb].
  rewrite (c_string_p_fn _ _ OK), (cpp_string_p_fn _ _ OK (C eq_refl)). destruct (kind_fn t) as [[]|]; reflexivity.
Qed.
Lemma logged_filter : forall kf ps l b, Forall (fun x => type_ok kf (snd x) /\ compiles ps (snd x)) l ->
  logged_vars ps true l b -> b = filter (stringy ps) l.
Proof.
  intros kf ps l b F L. induction L as [|n t k l r HK CS AS L IH|n t k l r HK AS L IH|n t l r NO L IH]; auto; inversion F as [|? ? [OK C] F']; subst; cbn [filter];
    cbn [snd] in *; rewrite (stringy_kind kf ps n t OK C).
  - apply has_kind_fn in HK. rewrite HK, AS. f_equal. auto.
  - apply has_kind_fn in HK. rewrite HK, AS. cbn [negb]. auto.
  - destruct (kind_fn t) as [k|] eqn:K; auto. apply has_kind_fn in K. destruct (NO k K) as [-> ->]. cbn. auto.
Qed.

Section Sites.
Variable test : name -> name -> bool.
Variable texts : name -> Prop.
Hypothesis AG : forall a b, texts a -> texts b -> (test a b = true <-> a = b).
Variable kf : name -> skind.

Lemma log_format_of : forall ps t k f n, type_ok kf t -> compiles ps t -> has_kind t k -> type_format_and_size t ps = Some (f, n) -> log_format ps k f n.
Proof.
  intros ps t k f n OK C HK E. rewrite (fmt_kind _ _ _ OK C) in E. apply has_kind_fn in HK. rewrite HK in E. unfold fmt_of_kind in E. unfold log_format.
  destruct (as_string ps k); [injection E as <- <-; auto|]. destruct k as [[]| | | | |]; try discriminate E; injection E as <- <-; auto.
Qed.

Lemma arg_spec : forall fin ps x v, arg_ok kf fin ps x v -> var_arg (names_of fin) (types_of fin) ps x v.
Proof.
  intros fin ps x v (EX & OK & C & (RN & (d & D1 & D2 & D3 & D4) & FS) & (k & HK & AS)). split; auto. split; auto.
  split; [exists d; auto|]. exists k. split; auto. split; auto. eapply log_format_of; eauto.
Qed.
Lemma blob_spec : forall fin ps x b, blob_ok kf fin ps x (fst b) -> snd b = access_of (snd x) -> blob_arg (names_of fin) (types_of fin) x b.
Proof.
  intros fin ps x b (EX & OK & C & (RN & (d & D1 & D2 & D3 & D4) & FS) & (k & HK & AS)) AC. split; auto. split; auto.
  split; [exists d; auto|]. rewrite AC. unfold access_of. rewrite (c_string_p_fn _ _ OK). pose proof HK as KF. apply has_kind_fn in KF. rewrite KF.
  unfold as_string in AS. destruct k; try (rewrite andb_false_r in AS; discriminate); auto.
Qed.

Lemma groups_sim : forall gs ts st et ts' code st', Forall (fun g => Forall (var_pre texts kf (fst g)) (snd g)) gs ->
  Forall (fun g : group => Forall (fun x => identifier (fst x)) (snd g)) gs -> sim ts st -> sinv texts kf st ->
  extra_stmts_t test gs ts = (et, ts') -> extra_stmts test gs st = (code, st') ->
  sim ts' st' /\ sinv texts kf st' /\ ext st st' /\
  exists p, stmts (concat et) p /\ map meaning p = code /\ forall fin, ext st' fin -> groups_log (names_of fin) (types_of fin) gs p.
Proof.
  induction gs as [|[ps l] gs IH]; intros ts st et ts' code st' VP ID SM I ET EI; cbn [extra_stmts_t extra_stmts] in *.
  - injection ET as <- <-. injection EI as <- <-. split; auto. split; auto. split; [apply ext_refl|]. exists []. split; [apply stmts_nil|]. split; auto.
    intros. constructor.
  - inversion VP as [|? ? VP1 VP']; subst. inversion ID as [|? ? ID1 ID']; subst. cbn [fst snd] in *.
    unfold instrument_c_exprs_t in ET. unfold instrument_c_exprs in EI.
    destruct (instrument_vars_t test l ps ts) as [[vt bt] ts1] eqn:T1. destruct (extra_stmts_t test gs ts1) as [et2 ts2] eqn:T2.
    destruct (instrument_vars test l ps st) as [[vs bs] st1] eqn:I1. destruct (extra_stmts test gs st1) as [code2 st2] eqn:I2.
    injection ET as <- <-. injection EI as <- <-.
    destruct (vars_sim _ _ _ _ _ _ _ _ _ _ _ ID1 SM T1 I1) as (S1 & VR & pb & MB & BR & AC).
    destruct (instrument_vars_spec test texts AG kf _ _ _ _ _ _ I VP1 I1) as (IV1 & X1 & (a & b & LA & LB & FA & FB) & _).
    destruct (IH _ _ _ _ _ _ VP' ID' S1 IV1 T2 I2) as (S2 & IV2 & X2 & p & SP & MP & GL).
    split; auto. split; auto. split; [eapply ext_trans; eauto|].
    exists (vars_call vs ++ blobs_call pb ++ p). split; [|split].
    + rewrite !concat_app, <- app_assoc. apply stmts_app; [apply vars_stmts; auto|]. apply stmts_app; [apply blobs_stmts; auto|]. auto.
    + rewrite !map_app, MP. rewrite <- app_assoc. f_equal; [now destruct vs|]. f_equal. subst bs. now destruct pb.
    + intros fin X. apply gl_cons with (a := a) (b := b); auto.
      * eapply F2_impl; [|exact FA]. intros x v H. apply arg_spec. eapply arg_ext; [|exact H]. eapply ext_trans; eauto.
      * assert (EB : b = filter (stringy ps) l).
        { eapply (logged_filter kf); [|exact LB]. eapply Forall_impl; [|exact VP1]. intros x (_ & _ & A & B). auto. }
        rewrite <- EB in AC. subst bs.
        assert (X' : ext st1 fin) by (eapply ext_trans; eauto).
        clear -FB AC X'. revert FB. induction AC as [|x y b pb H AC IH]; intros FB; cbn [map] in FB; inversion FB; subst; constructor; auto.
        eapply blob_spec; eauto. eapply blob_ext; eauto.
Qed.

Lemma site_sim : forall s ts st tx ts' c st', Forall (fun g => Forall (var_pre texts kf (fst g)) (snd g)) (snd s) ->
  Forall (fun g : group => Forall (fun x => identifier (fst x)) (snd g)) (snd s) -> sim ts st -> sinv texts kf st ->
  instrument_ast_t test (fst s) (snd s) ts = (tx, ts') -> instrument_ast test (fst s) (snd s) st = (c, st') ->
  sim ts' st' /\ sinv texts kf st' /\ ext st st' /\
  exists p, read_stmts tx = Some p /\ map meaning p = c /\ forall fin, ext st' fin -> site_stmts (names_of fin) (types_of fin) s p.
Proof.
  intros [id gs] ts st tx ts' c st' VP ID SM I ET EI. cbn [fst snd] in *. unfold instrument_ast_t in ET. unfold instrument_ast in EI.
  destruct (extra_stmts_t test gs ts) as [et ts1] eqn:T1. destruct (extra_stmts test gs st) as [ec st1] eqn:I1.
  assert (ET' : tx = concat (write_trace_id_t id :: et ++ [write_end_entry_t]) /\ ts' = ts1) by (split; congruence).
  clear ET. destruct ET' as [-> ->]. injection EI as <- <-.
  destruct (groups_sim _ _ _ _ _ _ _ VP ID SM I T1 I1) as (S1 & IV1 & X1 & p & SP & MP & GL).
  split; auto. split; auto. split; auto. exists (PId id :: p ++ [PEnd]). split; [|split].
  - apply stmts_read. change (concat (?a :: ?b)) with (a ++ concat b). change (PId id :: ?r) with ([PId id] ++ r).
    apply stmts_app; [apply id_stmts|]. rewrite concat_app. apply stmts_app; auto. cbn [concat]. rewrite app_nil_r. apply end_stmts.
  - cbn [map meaning]. rewrite map_app, MP. reflexivity.
  - intros fin X. exists p. split; auto.
Qed.

Lemma all_sim : forall l ts st txs ts' code st',
  Forall (fun s : site => Forall (fun g => Forall (var_pre texts kf (fst g)) (snd g)) (snd s)) l ->
  Forall (fun s : site => Forall (fun g : group => Forall (fun x => identifier (fst x)) (snd g)) (snd s)) l -> sim ts st -> sinv texts kf st ->
  instrument_all_t test l ts = (txs, ts') -> instrument_all test l st = (code, st') ->
  sim ts' st' /\ sinv texts kf st' /\ ext st st' /\
  exists ps, Forall2 (fun tx p => read_stmts tx = Some p) txs ps /\ map (map meaning) ps = code /\
    forall fin, ext st' fin -> Forall2 (site_stmts (names_of fin) (types_of fin)) l ps.
Proof.
  induction l as [|s l IH]; intros ts st txs ts' code st' VP ID SM I ET EI.
  - cbn in *. injection ET as <- <-. injection EI as <- <-. split; auto. split; auto. split; [apply ext_refl|]. exists []. repeat split; constructor.
  - inversion VP as [|? ? VP1 VP']; subst. inversion ID as [|? ? ID1 ID']; subst. destruct s as [id gs]. cbn [instrument_all_t instrument_all] in *.
    destruct (instrument_ast_t test id gs ts) as [tx ts1] eqn:T1. destruct (instrument_all_t test l ts1) as [txs2 ts2] eqn:T2.
    destruct (instrument_ast test id gs st) as [c st1] eqn:I1. destruct (instrument_all test l st1) as [code2 st2] eqn:I2.
    injection ET as <- <-. injection EI as <- <-.
    destruct (site_sim (id, gs) _ _ _ _ _ _ VP1 ID1 SM I T1 I1) as (S1 & IV1 & X1 & p & RP & MP & SS).
    destruct (IH _ _ _ _ _ _ VP' ID' S1 IV1 T2 I2) as (S2 & IV2 & X2 & ps & RP2 & MP2 & SS2).
    split; auto. split; auto. split; [eapply ext_trans; eauto|]. exists (p :: ps). split; [constructor; auto|]. split; [cbn [map]; congruence|].
    intros fin X. constructor; auto. apply SS. eapply ext_trans; eauto.
Qed.
End Sites.
