From Coq Require Import Strings.String Permutation.
From Verif Require Import BaseProofs Types PrintPred Instr InstrRun InstrSpec InstrText CharSignProofs Spelling.

Definition name_dec := list_eq_dec byte_eq_dec.
Definition keywords : list name := ws ["char"; "short"; "int"; "long"; "signed"; "unsigned"]%string.
Definition same_counts (a b : list name) : bool := forallb (fun k => Nat.eqb (count_occ name_dec a k) (count_occ name_dec b k)) keywords && Nat.eqb (length a) (length b).
Lemma perm_counts : forall a b, Permutation a b -> same_counts a b = true.
Proof.
  intros a b P. unfold same_counts. apply andb_true_iff. split; [|apply Nat.eqb_eq; apply Permutation_length; exact P].
  apply forallb_forall. intros k _. apply Nat.eqb_eq. rewrite (Permutation_count_occ name_dec) in P. apply P.
Qed.

(** All spellings that have the same words as one of c_ints. *)
Definition agree (w : list name) (sg : bool) (n : N) : bool :=
  forallb (fun e => forallb (fun x => negb (same_counts w x) || (Bool.eqb sg (snd (fst e)) && (n =? snd e))) (fst (fst e))) spellings.
Lemma all_agree : forallb (fun c => agree (fst (fst c)) (snd (fst c)) (snd c)) c_ints = true.
Proof. vm_compute. reflexivity. Qed.

Lemma one_meaning : forall w sg n sg' n', In (w, sg, n) c_ints -> spells w sg' n' -> sg = sg' /\ n = n'.
Proof.
  intros w sg n sg' n' I (sets & x & I1 & I2 & P). pose proof all_agree as A. rewrite forallb_forall in A. specialize (A _ I). unfold agree in A. rewrite forallb_forall in A. specialize (A _ I1).
  cbn [fst snd] in A. rewrite forallb_forall in A. specialize (A _ I2). rewrite (perm_counts _ _ P) in A. cbn [negb orb] in A. apply andb_true_iff in A. destruct A as [A1 A2].
  apply eqb_prop in A1. apply N.eqb_eq in A2. auto.
Qed.

(** A spelling is no float, double or string. *)
Definition others : list (list name) := [ws ["float"]; ws ["double"]; ws ["string"]; ws ["std::string"]]%string.
Lemma no_other : forall w sg n, spells w sg n -> ~ In w others.
Proof.
  intros w sg n (sets & x & I1 & I2 & P) I.
  assert (A : forallb (fun w => forallb (fun e => forallb (fun x => negb (same_counts w x)) (fst (fst e))) spellings) others = true) by (vm_compute; reflexivity).
  rewrite forallb_forall in A. specialize (A _ I). rewrite forallb_forall in A. specialize (A _ I1). cbn [fst] in A. rewrite forallb_forall in A. specialize (A _ I2). rewrite (perm_counts _ _ P) in A. discriminate.
Qed.

Lemma known_in : forall w sg n sg' n', In (w, sg, n) c_ints -> spells w sg' n' -> In w known.
Proof.
  intros w sg n sg' n' I (sets & x & I1 & I2 & P).
  assert (A : forallb (fun c => existsb (fun k => if list_eq_dec name_dec k (fst (fst c)) then true else false) known ||
     forallb (fun e => forallb (fun x => negb (same_counts (fst (fst c)) x)) (fst (fst e))) spellings) c_ints = true) by (vm_compute; reflexivity).
  rewrite forallb_forall in A. specialize (A _ I). cbn [fst] in A. apply orb_true_iff in A. destruct A as [A|A].
  - apply existsb_exists in A. destruct A as (k & K & E). destruct (list_eq_dec name_dec k w) as [->|]; [exact K|discriminate].
  - exfalso. rewrite forallb_forall in A. specialize (A _ I1). cbn [fst] in A. rewrite forallb_forall in A. specialize (A _ I2). rewrite (perm_counts _ _ P) in A. discriminate.
Qed.
Lemma in_known : forall w, In w known -> exists sg n, In (w, sg, n) c_ints.
Proof.
  intros w I. assert (A : forallb (fun w => existsb (fun c => if list_eq_dec name_dec (fst (fst c)) w then true else false) c_ints) known = true) by (vm_compute; reflexivity).
  rewrite forallb_forall in A. specialize (A _ I). apply existsb_exists in A. destruct A as ([[w' sg] n] & K & E). cbn [fst] in E. destruct (list_eq_dec name_dec w' w) as [->|]; [|discriminate]. eauto.
Qed.

Lemma kind_spelled : forall t k sg n, c_decl t = [] -> spells (words t) sg n -> has_kind t k -> k = CInt sg n /\ In (words t) known.
Proof.
  intros t k sg n D S K. pose proof (no_other _ _ _ S) as NO. destruct K as [w sg' n' _ I W|_ W|_ W|d D' W (x & r & E) _|D' _|_ W].
  - rewrite W in *. destruct (one_meaning _ _ _ _ _ I S) as [<- <-]. split; [reflexivity|]. eapply known_in; eauto.
  - exfalso. apply NO. rewrite W. now left.
  - exfalso. apply NO. rewrite W. right; now left.
  - congruence.
  - congruence.
  - exfalso. apply NO. destruct W as [W|W]; rewrite W; [right; right; now left|right; right; right; now left].
Qed.

Lemma logged_spelling : forall kf t ps sg n, type_ok kf t -> c_decl t = [] -> spells (words t) sg n ->
  type_format_and_size t ps = (if in_dec (list_eq_dec name_dec) (words t) known then Some (if sg then SIGNED else UNSIGNED, n) else None).
Proof.
  intros kf t ps sg n OK D S. rewrite (fmt_kind _ _ _ OK) by (intros _ X; congruence).
  destruct (kind_fn t) as [k|] eqn:K.
  - apply has_kind_fn in K. destruct (kind_spelled _ _ _ _ D S K) as [-> I]. destruct (in_dec _ _ _) as [_|X]; [|contradiction]. unfold fmt_of_kind, as_string. rewrite andb_false_r. destruct sg; reflexivity.
  - destruct (in_dec _ _ _) as [I|_]; [|reflexivity]. exfalso. destruct (in_known _ I) as (sg' & n' & J). assert (X : has_kind t (CInt sg' n')) by (eapply hk_int; [exact D|exact J|reflexivity]). apply has_kind_fn in X. congruence.
Qed.

(** ** Variables that are not logged *)
Definition unseen (env env' : name -> rvalue) (ps : bool) (x : name * ctype) : Prop := type_format_and_size (snd x) ps = None \/ env (fst x) = env' (fst x).

Lemma vars_unseen : forall test ps env env' l st va ba st', Forall (unseen env env' ps) l -> instrument_vars test l ps st = (va, ba, st') ->
  Forall (fun a => write_trace_variable env a = write_trace_variable env' a) va /\ Forall (fun b => write_trace_blob env b = write_trace_blob env' b) ba.
Proof.
  intros test ps env env'. induction l as [|[n t] l IH]; intros st va ba st' A IV; cbn [instrument_vars] in IV.
  - injection IV as <- <- _. split; constructor.
  - destruct (instrument_var test n t ps st) as [[v1 b1] st1] eqn:E1. destruct (instrument_vars test l ps st1) as [[v2 b2] st2] eqn:E2. injection IV as <- <- _.
    inversion A as [|? ? U A']; subst. destruct (IH _ _ _ _ A' E2) as [Y1 Y2].
    assert (X : Forall (fun a => write_trace_variable env a = write_trace_variable env' a) v1 /\ Forall (fun b => write_trace_blob env b = write_trace_blob env' b) b1).
    { unfold instrument_var in E1. destruct U as [U|U]; cbn [fst snd] in U.
      - rewrite U in E1. injection E1 as <- <- _. split; constructor.
      - destruct (type_format_and_size t ps) as [[f size]|]; [|injection E1 as <- <- _; split; constructor].
        destruct (get_type_index test t f size ps st) as [ti st3]. destruct (get_name_index test n st3) as [ni st4].
        destruct (ps && c_string_type_p t); [|destruct (ps && cpp_string_type_p t)]; injection E1 as <- <- _; split; repeat constructor; unfold write_trace_variable, write_trace_blob; cbn [va_expr ba_expr]; rewrite U; reflexivity. }
    destruct X. split; apply Forall_app; auto.
Qed.

Lemma groups_unseen : forall test env env' gs st c st', Forall (fun g => Forall (unseen env env' (fst g)) (snd g)) gs ->
  extra_stmts test gs st = (c, st') -> Forall (fun s => run_stmt env s = run_stmt env' s) c.
Proof.
  intros test env env'. induction gs as [|[ps l] gs IH]; intros st c st' F E; cbn [extra_stmts] in E.
  - injection E as <- _. constructor.
  - destruct (instrument_c_exprs test l ps st) as [s1 st1] eqn:E1. destruct (extra_stmts test gs st1) as [s2 st2] eqn:E2. injection E as <- _.
    inversion F as [|? ? F1 F']; subst. cbn [fst snd] in *. apply Forall_app. split; [|eapply IH; eauto].
    unfold instrument_c_exprs in E1. destruct (instrument_vars test l ps st) as [[vs bs] st3] eqn:E3. injection E1 as <- _.
    destruct (vars_unseen _ _ _ _ _ _ _ _ _ F1 E3) as [X1 X2].
    apply Forall_app. split; [destruct vs|destruct bs]; repeat constructor; cbn [run_stmt]; apply mapC_same; assumption.
Qed.

Lemma all_unseen : forall test env env' sites st code st' i s, instrument_all test sites st = (code, st') -> nth_error sites i = Some s ->
  Forall (fun g => Forall (unseen env env' (fst g)) (snd g)) (snd s) -> event_run code (i, env) = event_run code (i, env').
Proof.
  intros test env env'. induction sites as [|[id gs] sites IH]; intros st code st' i s E NS A; [destruct i; discriminate|]. cbn [instrument_all] in E.
  destruct (instrument_ast test id gs st) as [s1 st1] eqn:E1. destruct (instrument_all test sites st1) as [s2 st2] eqn:E2. injection E as <- _.
  destruct i as [|i]; cbn [nth_error] in NS.
  - injection NS as <-. unfold event_run. cbn [fst snd nth_error]. unfold instrument_ast in E1. destruct (extra_stmts test gs st) as [c st3] eqn:E3. injection E1 as <- _.
    unfold run_stmts. apply mapC_same. constructor; [reflexivity|]. apply Forall_app. split; [|repeat constructor]. eapply groups_unseen; [|exact E3]. exact A.
  - specialize (IH _ _ _ _ _ E2 NS A). unfold event_run in *. cbn [fst snd nth_error] in *. exact IH.
Qed.
