From Coq Require Import Permutation.
From Verif Require Import Base BaseProofs Types FormatSpec Instr InstrRun InstrSpec InstrText InstrTable InstrProofs InstrEnd InstrMem InstrMemSpec.

(** ** C strings *)
Lemma scan_ok : forall l n, scan l = Ok n -> exists s post, l = map Some s ++ Some x00 :: post /\ nul_free s /\ n = lenN s.
Proof.
  induction l as [|[b|] l IH]; intros n H; cbn in H; try discriminate.
  destruct (Byte.eqb b x00) eqn:B.
  - assert (b = x00) as -> by (destruct b; discriminate B || reflexivity). injection H as <-. exists [], l. repeat split; auto. intros [].
  - assert (E : bind (scan l) (fun n0 => Ok (n0 + 1)) = Ok n) by (destruct b; try exact H; discriminate B).
    clear H. destruct (scan l) as [m| | | |] eqn:S; try discriminate. injection E as <-.
    destruct (IH m eq_refl) as (s & post & -> & NF & ->). exists (b :: s), post. split; auto. split.
    + intros [X|X]; [subst; discriminate B|auto].
    + rewrite lenN_cons. lia.
Qed.
Lemma scan_string : forall s post, nul_free s -> scan (map Some s ++ Some x00 :: post) = Ok (lenN s).
Proof.
  induction s as [|b s IH]; intros post NF; [reflexivity|]. cbn [map app].
  assert (E : scan (Some b :: map Some s ++ Some x00 :: post) = bind (scan (map Some s ++ Some x00 :: post)) (fun n => Ok (n + 1))).
  { destruct b; try reflexivity. exfalso. apply NF. now left. }
  rewrite E, IH by (intros X; apply NF; now right). cbn [bind]. rewrite lenN_cons. f_equal. lia.
Qed.
Lemma fetch_string : forall s post n, n <= lenN s -> fetch (map Some s ++ post) n = Ok (takeN n s).
Proof.
  induction s as [|b s IH]; intros post n H.
  - assert (n = 0) as -> by (unfold lenN in H; cbn in H; lia). destruct post; reflexivity.
  - cbn [map app fetch takeN]. destruct (n =? 0) eqn:Z; [reflexivity|]. apply N.eqb_neq in Z.
    rewrite IH by (rewrite lenN_cons in H; lia). reflexivity.
Qed.

Lemma string_bytes : forall m a s, mem_ok m -> c_string_at m a s ->
  exists post, bytes_from m a = Ok (map Some s ++ Some x00 :: post).
Proof.
  intros m a s (P & D) (base & pre & post & I & -> & NF). exists post. unfold bytes_from.
  assert (IB : in_block (base + lenN pre) (base, pre ++ map Some s ++ Some x00 :: post) = true).
  { unfold in_block. cbn [fst snd]. rewrite !lenN_app, lenN_cons. apply andb_true_iff. split; [apply N.leb_le|apply N.ltb_lt]; lia. }
  pose proof (P _ I) as PB. cbn in PB.
  replace (base + lenN pre =? 0) with false by (symmetry; apply N.eqb_neq; lia).
  destruct (find (in_block (base + lenN pre)) m) as [b|] eqn:F.
  - apply find_some in F. destruct F as [F1 F2]. assert (b = (base, pre ++ map Some s ++ Some x00 :: post)) as -> by (eapply D; eauto).
    cbn [fst snd]. rewrite dropN_app by lia. reflexivity.
  - exfalso. pose proof (find_none _ _ F _ I) as X. congruence.
Qed.
Lemma bytes_string : forall m a s post, bytes_from m a = Ok (map Some s ++ Some x00 :: post) -> nul_free s -> c_string_at m a s.
Proof.
  intros m a s post H NF. unfold bytes_from in H. destruct (a =? 0); [discriminate|].
  destruct (find (in_block a) m) as [[base l]|] eqn:F; [|discriminate]. injection H as H. apply find_some in F. destruct F as [F1 F2].
  unfold in_block in F2. cbn [fst snd] in *. apply andb_true_iff in F2. destruct F2 as [L1 L2]. apply N.leb_le in L1. apply N.ltb_lt in L2.
  exists base, (takeN (a - base) l), post. split; [|split]; auto.
  - rewrite <- H, takeN_dropN. exact F1.
  - rewrite lenN_takeN. lia.
Qed.

Lemma strlen_iff : forall m a n, mem_ok m -> (c_strlen m a = Ok n <-> exists s, c_string_at m a s /\ lenN s = n).
Proof.
  intros m a n M. split.
  - unfold c_strlen. destruct (bytes_from m a) as [l| | | |] eqn:B; try discriminate. cbn [bind]. intros H.
    destruct (scan_ok _ _ H) as (s & post & -> & NF & ->). exists s. split; auto. eapply bytes_string; eauto.
  - intros (s & C & <-). destruct (string_bytes _ _ _ M C) as (post & B). unfold c_strlen. rewrite B. cbn [bind].
    apply scan_string. destruct C as (? & ? & ? & _ & _ & NF). exact NF.
Qed.
Lemma string_unique : forall m a s s', mem_ok m -> c_string_at m a s -> c_string_at m a s' -> s = s'.
Proof.
  intros m a s s' M C C'. destruct (string_bytes _ _ _ M C) as (p & B). destruct (string_bytes _ _ _ M C') as (p' & B').
  rewrite B in B'. injection B' as E.
  assert (NF : nul_free s) by (destruct C as (? & ? & ? & _ & _ & X); exact X).
  assert (NF' : nul_free s') by (destruct C' as (? & ? & ? & _ & _ & X); exact X).
  clear -E NF NF'. revert s' E NF'. induction s as [|b s IH]; intros [|b' s'] E NF'; cbn in E; auto.
  - injection E as E _. exfalso. apply NF'. now left.
  - injection E as E _. exfalso. apply NF. now left.
  - injection E as -> E. f_equal. apply IH; auto; intros X; [apply NF|apply NF']; now right.
Qed.

(** The characters at an address. *)
Fixpoint chars (l : list (option byte)) (n : nat) : list byte :=
  match n, l with
  | S n, Some b :: r => b :: chars r n
  | _, _ => []
  end.
Definition string_of (m : memory) (a : N) : list byte :=
  match c_strlen m a, bytes_from m a with
  | Ok n, Ok l => chars l (N.to_nat n)
  | _, _ => []
  end.
Lemma chars_string : forall s post, chars (map Some s ++ post) (length s) = s.
Proof. induction s as [|b s IH]; intros; cbn; [destruct post; reflexivity|]. now rewrite IH. Qed.
Definition absv (m : memory) (v : lvalue) : rvalue :=
  match v with
  | LUninit => RInt 0
  | LInt z => RInt z | LFloat b => RFloat b | LDouble b => RDouble b
  | LPtr a => RPtr a (string_of m a)
  | LString s => RString s
  end.
Lemma string_of_spec : forall m a s, mem_ok m -> c_string_at m a s -> string_of m a = s.
Proof.
  intros m a s M C. unfold string_of. rewrite (proj2 (strlen_iff m a (lenN s) M)) by eauto.
  destruct (string_bytes _ _ _ M C) as (p & ->). unfold lenN. rewrite Nat2N.id. apply chars_string.
Qed.
Lemma string_of_none : forall m a, mem_ok m -> (forall s, ~ c_string_at m a s) -> string_of m a = [].
Proof.
  intros m a M NC. unfold string_of. destruct (c_strlen m a) as [n| | | |] eqn:E; auto.
  apply (strlen_iff m a n M) in E. destruct E as (s & C & _). exfalso. eapply NC; eauto.
Qed.
Lemma seen_fun : forall m v, mem_ok m -> v <> LUninit -> seen m v (absv m v).
Proof.
  intros m v M NU. destruct v as [|z|b|b|addr|s]; [congruence|constructor|constructor|constructor| |constructor]. cbn.
  destruct (c_strlen m addr) as [n| | | |] eqn:E.
  1: { apply (strlen_iff m addr n M) in E. destruct E as (s & C & _). rewrite (string_of_spec m addr s M C). now apply sn_cstr. }
  all: assert (NC : forall s, ~ c_string_at m addr s) by
    (intros s C; assert (X : c_strlen m addr = Ok (lenN s)) by (apply (strlen_iff m addr (lenN s) M); exists s; auto); congruence);
    rewrite (string_of_none m addr M NC); now apply sn_ptr.
Qed.
Lemma seen_det : forall m v r, mem_ok m -> seen m v r -> r = absv m v.
Proof.
  intros m v r M S. destruct S; auto; cbn.
  - now rewrite (string_of_spec m a s M H).
  - now rewrite (string_of_none m a M H).
Qed.

(** ** One argument *)
Definition defined {A} (r : outcome A) : Prop := (exists a, r = Ok a) \/ exists k, r = UB k.
Lemma defined_bind : forall A B (r : outcome A) (f : A -> outcome B), defined r -> (forall a, r = Ok a -> defined (f a)) -> defined (bind r f).
Proof. intros A B r f [(a & ->)|(k & ->)] H; cbn; auto. right. eauto. Qed.
Lemma defined_ok : forall A (a : A), defined (Ok a).
Proof. left. eauto. Qed.
Lemma defined_ub : forall A k, @defined A (UB k).
Proof. right. eauto. Qed.
#[local] Hint Resolve defined_ok defined_ub : core.
Lemma defined_va : forall v, defined (va_gen v) /\ defined (va_double v).
Proof. destruct v; split; cbn; auto. Qed.
Lemma write_value_defined : forall f n v, defined (write_value f n v).
Proof.
  intros f n v. destruct (defined_va v) as [G D].
  destruct f; cbn; auto; repeat match goal with |- defined (if ?b then _ else _) => destruct b end; auto; apply defined_bind; auto.
Qed.
Lemma var_defined : forall env a, defined (write_trace_variable_m env a).
Proof.
  intros env a. unfold write_trace_variable_m. apply defined_bind; [destruct (env (va_expr a)); cbn; auto|].
  intros s _. apply defined_bind; auto. apply write_value_defined.
Qed.
Lemma scan_defined : forall l, defined (scan l).
Proof.
  induction l as [|[b|] l IH]; cbn; auto. destruct b; auto; apply defined_bind; auto.
Qed.
Lemma bytes_from_defined : forall m a, defined (bytes_from m a).
Proof. intros. unfold bytes_from. destruct (a =? 0); auto. destruct (find (in_block a) m); auto. Qed.
Lemma fetch_defined : forall l n, defined (fetch l n).
Proof.
  induction l as [|[b|] l IH]; intros n; cbn; destruct (n =? 0); auto; apply defined_bind; auto.
Qed.
Lemma blob_defined : forall m env a, defined (write_trace_blob_m m env a).
Proof.
  intros m env a. unfold write_trace_blob_m. apply defined_bind; auto. unfold blob_bytes.
  destruct (env (ba_expr a)); auto. apply defined_bind; [apply defined_bind; auto using bytes_from_defined, scan_defined|].
  intros n _. apply defined_bind; auto. apply defined_bind; auto using bytes_from_defined, fetch_defined.
Qed.
Lemma mapC_defined : forall A (f : A -> outcome (list action)) l, (forall x, defined (f x)) -> defined (mapC f l).
Proof. induction l as [|x l IH]; intros H; cbn; auto. apply defined_bind; auto. intros a _. apply defined_bind; auto. Qed.
Lemma run_defined : forall m env c, defined (run_stmts_m m env c).
Proof.
  intros m env c. apply mapC_defined. intros [id|vs|bs|]; cbn; auto; apply mapC_defined; auto using var_defined, blob_defined.
Qed.

Lemma mapC_inv : forall A (f : A -> outcome (list action)) l a, mapC f l = Ok a -> Forall (fun x => exists b, f x = Ok b) l.
Proof.
  induction l as [|x l IH]; intros a H; [constructor|]. cbn in H. destruct (f x) as [b| | | |] eqn:E; try discriminate. cbn in H.
  destruct (mapC f l) as [c| | | |] eqn:E'; try discriminate. constructor; eauto.
Qed.
Lemma mapC_ext : forall A (f g : A -> outcome (list action)) l, Forall (fun x => f x = g x) l -> mapC f l = mapC g l.
Proof. induction 1 as [|x l H _ IH]; cbn; auto. rewrite H, IH. reflexivity. Qed.
Lemma mapC_Ok : forall A (f : A -> outcome (list action)) l, Forall (fun x => exists b, f x = Ok b) l -> exists a, mapC f l = Ok a.
Proof. induction 1 as [|x l (b & H) _ (c & IH)]; cbn; eauto. rewrite H. cbn. rewrite IH. cbn. eauto. Qed.

Lemma pass_abs : forall m v, v <> LUninit -> pass_m v = pass (absv m v).
Proof. intros m [] H; try reflexivity. congruence. Qed.

(** Readiness of one variable. *)
Definition var_ready (m : memory) (ps : bool) (k : kind) (v : lvalue) : Prop :=
  v <> LUninit /\ (ps = true -> k = CCharPointer -> exists a s, v = LPtr a /\ c_string_at m a s).

Lemma blob_abs : forall m a str, mem_ok m -> c_string_at m a str ->
  blob_bytes m (LPtr a) = Ok (lenN str mod two32, takeN (lenN str mod two32) str).
Proof.
  intros m a str M C. cbn [blob_bytes]. rewrite (proj2 (strlen_iff m a (lenN str) M)) by eauto. cbn [bind].
  unfold c_fetch. destruct (string_bytes _ _ _ M C) as (p & ->). cbn [bind]. rewrite fetch_string; [reflexivity|].
  apply N.mod_le. discriminate.
Qed.

Section Prog.
Variable kf : name -> skind.
Variable m : memory.
Hypothesis M : mem_ok m.
Variable env : name -> lvalue.
Notation renv := (fun n => absv m (env n)).

Definition x_typed (x : name * ctype) : Prop := forall k, has_kind (snd x) k -> typed m k (env (fst x)).
Definition x_ready (ps : bool) (x : name * ctype) : Prop := forall k, has_kind (snd x) k -> var_ready m ps k (env (fst x)).

Lemma kind_unique : forall t k k', has_kind t k -> has_kind t k' -> k = k'.
Proof. intros t k k' A B. apply has_kind_fn in A, B. congruence. Qed.

(** A variable passed by value. *)
Lemma arg_run : forall st ps x a, arg_ok kf st ps x a -> x_typed x ->
  ((exists w, write_trace_variable_m env a = Ok w) <-> x_ready ps x) /\
  (x_ready ps x -> write_trace_variable_m env a = write_trace_variable renv a).
Proof.
  intros st ps [n t] [ni ti size f ex] (EX & OK & C & (RN & _ & FS) & (k & HK & AS)) TY.
  unfold x_typed, x_ready in *. cbn [fst snd va_expr va_name va_type va_fmt va_size] in *. subst ex.
  specialize (TY k HK).
  rewrite (fmt_kind _ _ _ OK C) in FS. pose proof HK as KF. apply has_kind_fn in KF. rewrite KF in FS.
  unfold fmt_of_kind in FS. rewrite AS in FS.
  assert (EQ : env n <> LUninit -> write_trace_variable_m env (mkVA ni ti size f n) = write_trace_variable renv (mkVA ni ti size f n)).
  { intros NU. unfold write_trace_variable_m, write_trace_variable. cbn [va_expr]. now rewrite (pass_abs m). }
  split; [split|].
  - intros (w & W) k' HK'. rewrite <- (kind_unique _ _ _ HK HK').
    split.
    + intros E. unfold write_trace_variable_m in W. cbn [va_expr] in W. rewrite E in W. discriminate W.
    + intros -> ->. discriminate AS.
  - intros R. destruct (R k HK) as [NU _]. rewrite EQ by auto.
    destruct TY as [[X _]|(r & S & IN)]; [congruence|]. pose proof (seen_det _ _ _ M S) as E. subst r.
    unfold write_trace_variable. cbn [va_expr va_fmt va_size va_name va_type].
    assert (W : exists s, pass (absv m (env n)) = Ok s /\ exists w, write_value f size s = Ok w).
    { destruct k as [[] q| | | | |]; cbn in IN; destruct (absv m (env n)) as [z|b|b|ad s|s] eqn:EV; try (exfalso; exact IN); try discriminate FS; injection FS as <- <-;
        (eexists; split; [reflexivity|]); unfold write_value; try (eexists; reflexivity).
      all: pose proof (kind_int_size _ _ _ HK) as I; cbn [In] in I;
        assert (HM : q = 1 \/ q = 2 \/ q = 4 \/ q = 8) by lia;
        destruct HM as [->|[->|[->| ->]]]; eexists; reflexivity. }
    destruct W as (s & P & w & W). rewrite P. cbn [bind]. rewrite W. cbn [bind]. eauto.
  - intros R. apply EQ. apply (R k HK).
Qed.

(** A string. *)
Lemma blob_run : forall st ps x a, blob_ok kf st ps x a -> x_typed x ->
  ((exists w, write_trace_blob_m m env a = Ok w) <-> x_ready ps x) /\
  (x_ready ps x -> write_trace_blob_m m env a = write_trace_blob renv a).
Proof.
  intros st ps [n t] [ni ti ex] (EX & OK & C & (RN & _ & FS) & (k & HK & AS)) TY.
  unfold x_typed, x_ready in *. cbn [fst snd ba_expr ba_name ba_type] in *. subst ex.
  specialize (TY k HK). unfold as_string in AS. apply andb_true_iff in AS. destruct AS as [-> AS].
  assert (EQ : var_ready m true k (env n) -> write_trace_blob_m m env (mkBA ni ti n) = write_trace_blob renv (mkBA ni ti n) /\
    exists w, write_trace_blob_m m env (mkBA ni ti n) = Ok w).
  { intros [NU R]. unfold write_trace_blob_m, write_trace_blob. cbn [ba_expr ba_name ba_type].
    destruct TY as [[X _]|(r & S & IN)]; [congruence|]. pose proof (seen_det _ _ _ M S) as E. subst r.
    destruct k as [[] q| | | | |]; try discriminate AS.
    - destruct (R eq_refl eq_refl) as (a & str & E & CS). rewrite E, (blob_abs m a str M CS). cbn [absv bind fst snd].
      rewrite (string_of_spec m a str M CS). split; eauto.
    - destruct (env n) as [|z|b|b|a|s]; cbn in IN; try contradiction. cbn [blob_bytes absv bind fst snd]. split; eauto. }
  split; [split|].
  - intros (w & W) k' HK'. rewrite <- (kind_unique _ _ _ HK HK'). unfold write_trace_blob_m in W. cbn [ba_expr] in W.
    destruct TY as [[X _]|(r & S & IN)]; [rewrite X in W; discriminate W|].
    split; [intros E; rewrite E in W; discriminate W|]. intros _ ->.
    destruct (env n) as [|z|b|b|a|s]; inversion S; subst; cbn in IN; try contradiction.
    + eauto.
    + cbn [blob_bytes] in W. destruct (c_strlen m a) as [l| | | |] eqn:SL; try discriminate W.
      apply (strlen_iff m a l M) in SL. destruct SL as (str & CS & _). eauto.
  - intros R. destruct (EQ (R k HK)) as [_ W]. exact W.
  - intros R. destruct (EQ (R k HK)) as [W _]. exact W.
Qed.

Definition stmt_good (ps : bool) (xs : list (name * ctype)) (r : outcome (list action)) (r' : outcome (list action)) : Prop :=
  ((exists w, r = Ok w) <-> Forall (x_ready ps) xs) /\ (Forall (x_ready ps) xs -> r = r').

Lemma mapC_good : forall A (f g : A -> outcome (list action)) (P : (name * ctype) -> A -> Prop) ps xs l,
  Forall2 P xs l -> Forall x_typed xs ->
  (forall x a, P x a -> x_typed x -> ((exists w, f a = Ok w) <-> x_ready ps x) /\ (x_ready ps x -> f a = g a)) ->
  stmt_good ps xs (mapC f l) (mapC g l).
Proof.
  intros A f g P ps xs l F TY H. split.
  - split.
    + intros (w & W). apply mapC_inv in W. induction F as [|x a xs l HP F IH]; [constructor|].
      inversion TY; subst. inversion W; subst. constructor; auto. apply (H x a); auto.
    + intros R. apply mapC_Ok. induction F as [|x a xs l HP F IH]; [constructor|]. inversion TY; subst. inversion R; subst.
      constructor; auto. apply (H x a); auto.
  - intros R. apply mapC_ext. induction F as [|x a xs l HP F IH]; [constructor|]. inversion TY; subst. inversion R; subst.
    constructor; auto. apply (H x a); auto.
Qed.

Definition code_good (c : list istmt) (R : Prop) : Prop :=
  (Forall (fun s => exists w, run_stmt_m m env s = Ok w) c <-> R) /\
  (R -> Forall (fun s => run_stmt_m m env s = run_stmt renv s) c).
Lemma code_nil : code_good [] True.
Proof. split; [split; auto|]; constructor. Qed.
Lemma code_app : forall c c' R R', code_good c R -> code_good c' R' -> code_good (c ++ c') (R /\ R').
Proof.
  intros c c' R R' [A B] [A' B']. split.
  - rewrite Forall_app, A, A'. reflexivity.
  - intros [X Y]. apply Forall_app. auto.
Qed.
Lemma code_iff : forall c R R', code_good c R -> (R <-> R') -> code_good c R'.
Proof. intros c R R' [A B] E. split; [rewrite A; exact E|]. intros X. apply B. now apply E. Qed.
Lemma code_one : forall s ps xs, stmt_good ps xs (run_stmt_m m env s) (run_stmt renv s) -> code_good [s] (Forall (x_ready ps) xs).
Proof.
  intros s ps xs [A B]. split.
  - rewrite <- A. split; [intros F; inversion F; auto|intros; constructor; auto].
  - intros R. constructor; auto.
Qed.

Lemma logged_cover : forall ps l a b, logged_vars ps false l a -> logged_vars ps true l b ->
  forall x, In x l -> In x a \/ In x b \/ forall k, has_kind (snd x) k -> k = CString /\ ps = false.
Proof.
  intros ps l a b A. revert b. induction A as [|n t k l r HK NS AS A IH|n t k l r HK AS A IH|n t l r NK A IH]; intros b B x I.
  - destruct I.
  - destruct I as [<-|I]; [left; now left|].
    inversion B as [|? ? ? ? r' HK' NS' AS' B'|? ? ? ? r' HK' AS' B'|? ? ? r' NK' B']; subst;
      destruct (IH _ B' _ I) as [X|[X|X]]; auto; first [left; now right|right; left; now right|left; now right].
  - inversion B as [|? ? ? ? r' HK' NS' AS' B'|? ? k' ? r' HK' AS' B'|? ? ? r' NK' B']; subst.
    + destruct I as [<-|I]; [right; left; now left|]. destruct (IH _ B' _ I) as [X|[X|X]]; auto. right; left; now right.
    + pose proof (kind_unique _ _ _ HK HK'). subst. cbn in *. congruence.
    + destruct (NK' _ HK) as [-> ->]. discriminate AS.
  - destruct I as [<-|I]; [auto|].
    inversion B as [|? ? ? ? r' HK' NS' AS' B'|? ? ? ? r' HK' AS' B'|? ? ? r' NK' B']; subst;
      destruct (IH _ B' _ I) as [X|[X|X]]; auto; first [right; left; now right].
Qed.
Lemma logged_ready : forall ps l a b, logged_vars ps false l a -> logged_vars ps true l b -> Forall (x_typed) l ->
  (Forall (x_ready ps) a /\ Forall (x_ready ps) b <-> Forall (x_ready ps) l).
Proof.
  intros ps l a b A B TY. rewrite !Forall_forall in *. split.
  - intros [RA RB] x I. destruct (logged_cover _ _ _ _ A B x I) as [X|[X|X]]; auto.
    intros k HK. destruct (X k HK) as [-> ->]. split; [|discriminate]. intros E.
    destruct (TY x I _ HK) as [[_ C]|(r & S & _)]; [congruence|]. rewrite E in S. inversion S.
  - intros R. split; intros x I; apply R; [eapply logged_sub; [exact A|exact I]|eapply logged_sub; [exact B|exact I]].
Qed.

Variable test : name -> name -> bool.
Variable texts : name -> Prop.
Hypothesis AG : forall a b, texts a -> texts b -> (test a b = true <-> a = b).

Lemma group_good : forall ps l st code st', sinv texts kf st -> Forall (var_pre texts kf ps) l -> Forall (x_typed) l ->
  instrument_c_exprs test l ps st = (code, st') -> sinv texts kf st' /\ code_good code (Forall (x_ready ps) l).
Proof.
  intros ps l st code st' I F TY E. unfold instrument_c_exprs in E.
  destruct (instrument_vars test l ps st) as [[vs bs] st1] eqn:EI. injection E as <- ->.
  destruct (instrument_vars_spec test texts AG kf l ps st vs bs st' I F EI) as (I1 & X1 & (a & b & La & Lb & Fa & Fb) & _).
  split; auto. eapply code_iff; [|exact (logged_ready ps l a b La Lb TY)].
  assert (TA : Forall (x_typed) a) by (rewrite Forall_forall in *; intros; apply TY; eapply logged_sub; [exact La|auto]).
  assert (TB : Forall (x_typed) b) by (rewrite Forall_forall in *; intros; apply TY; eapply logged_sub; [exact Lb|auto]).
  apply code_app.
  - destruct vs as [|v vs].
    + inversion Fa; subst. eapply code_iff; [exact code_nil|]. split; auto.
    + apply code_one. cbn [run_stmt run_stmt_m]. eapply mapC_good; [exact Fa|exact TA|]. intros x y P T. exact (arg_run st' ps x y P T).
  - destruct bs as [|v bs].
    + inversion Fb; subst. eapply code_iff; [exact code_nil|]. split; auto.
    + apply code_one. cbn [run_stmt run_stmt_m]. eapply mapC_good; [exact Fb|exact TB|]. intros x y P T. exact (blob_run st' ps x y P T).
Qed.

Lemma extra_good : forall gs st code st', sinv texts kf st -> Forall (fun g => Forall (var_pre texts kf (fst g)) (snd g)) gs ->
  Forall (fun g => Forall (x_typed) (snd g)) gs ->
  extra_stmts test gs st = (code, st') -> code_good code (Forall (fun g => Forall (x_ready (fst g)) (snd g)) gs).
Proof.
  induction gs as [|[ps l] gs IH]; intros st code st' I F TY E; cbn [extra_stmts] in E.
  - injection E as <- <-. eapply code_iff; [exact code_nil|]. split; auto.
  - inversion F; subst. inversion TY; subst. cbn [fst snd] in *.
    destruct (instrument_c_exprs test l ps st) as [s1 st1] eqn:E1.
    destruct (extra_stmts test gs st1) as [s2 st2] eqn:E2. injection E as <- ->.
    destruct (group_good ps l st s1 st1 I H1 H3 E1) as [I1 G]. eapply code_iff; [exact (code_app _ _ _ _ G (IH _ _ _ I1 H2 H4 E2))|].
    rewrite Forall_cons_iff. reflexivity.
Qed.

Lemma site_good : forall id gs st code st', sinv texts kf st -> Forall (fun g => Forall (var_pre texts kf (fst g)) (snd g)) gs ->
  Forall (fun g => Forall (x_typed) (snd g)) gs ->
  instrument_ast test id gs st = (code, st') ->
  ((exists w, run_stmts_m m env code = Ok w) <-> Forall (fun g => Forall (x_ready (fst g)) (snd g)) gs) /\
  (Forall (fun g => Forall (x_ready (fst g)) (snd g)) gs -> run_stmts_m m env code = run_stmts renv code).
Proof.
  intros id gs st code st' I F TY E. unfold instrument_ast in E.
  destruct (extra_stmts test gs st) as [extra st1] eqn:EE. injection E as <- <-.
  destruct (extra_good gs st extra st1 I F TY EE) as [A B]. split.
  - rewrite <- A. split.
    + intros (w & W). apply mapC_inv in W. inversion W; subst. apply Forall_app in H2. tauto.
    + intros X. apply mapC_Ok. constructor; [cbn; eauto|]. apply Forall_app. split; auto. constructor; [cbn; eauto|constructor].
  - intros R. apply mapC_ext. constructor; [reflexivity|]. apply Forall_app. split; [exact (B R)|]. constructor; [reflexivity|constructor].
Qed.
End Prog.

(** ** Programs *)
Section All.
Variable test : name -> name -> bool.
Variable kf : name -> skind.
Variable sites : list site.
Hypothesis SOK : Forall (site_ok kf) sites.
Hypothesis TA : tells_apart test (all_texts sites).
Variable names : list name.
Variable types : list tdesc.
Variable code : list (list istmt).
Hypothesis PROG : instrumented test sites names types code.

Definition abs_event (e : mevent) : event := (fst e, fun n => absv (fst (snd e)) (snd (snd e) n)).

Lemma ready_iff : forall s m env, site_ready s m env <-> Forall (fun g => Forall (x_ready m env (fst g)) (snd g)) (snd s).
Proof.
  intros s m env. unfold site_ready, x_ready, var_ready. rewrite Forall_forall. split.
  - intros H [ps l] Ig. apply Forall_forall. intros x Ix k HK. cbn [fst snd] in *. eauto.
  - intros H ps l x k Ig Ix HK. specialize (H (ps, l) Ig). rewrite Forall_forall in H. cbn [fst snd] in *. exact (H x Ix k HK).
Qed.

Lemma run_exact : forall i s m env, nth_error sites i = Some s -> mem_ok m -> site_typed s m env ->
  ((exists w, mevent_run code (i, (m, env)) = Ok w) <-> site_ready s m env) /\
  (site_ready s m env -> mevent_run code (i, (m, env)) = event_run code (abs_event (i, (m, env)))).
Proof.
  intros i s m env Hs M TY.
  destruct (prog_state test kf sites SOK TA names types code PROG) as (fin & I & EN & ET & F).
  destruct (Forall2_nth _ _ _ _ _ F _ _ Hs) as (c & Hc & s0 & s1 & I0 & E & X).
  pose proof (nth_error_In _ _ Hs) as Is.
  unfold mevent_run, event_run, abs_event. cbn [fst snd]. rewrite Hc, ready_iff.
  refine (site_good kf m M env test (txt sites) (AGT test sites TA) (fst s) (snd s) s0 c s1 I0 _ TY E).
  exact (site_pre kf sites SOK s Is).
Qed.

Lemma run_total : forall i s m env, nth_error sites i = Some s ->
  (exists w, mevent_run code (i, (m, env)) = Ok w) \/ exists k, mevent_run code (i, (m, env)) = UB k.
Proof.
  intros i s m env Hs. unfold mevent_run. cbn [fst snd]. destruct (nth_error code i); [apply run_defined|right; eauto].
Qed.

Lemma abs_seen : forall e, mevent_ready sites e -> event_seen sites e (abs_event e).
Proof.
  intros [i [m env]] (M & s & Hs & TY & R). cbn [fst snd] in *. split; auto. cbn [fst snd].
  intros s' ps l x k Hs' Ig Ix HK. rewrite Hs in Hs'. injection Hs' as <-. apply seen_fun; auto. apply (R ps l x k Ig Ix HK).
Qed.
Lemma abs_ok : forall e, mevent_ready sites e -> mevent_small sites e -> event_ok sites (abs_event e).
Proof.
  intros [i [m env]] (M & s & Hs & TY & R) SM. specialize (SM s Hs). cbn [fst snd] in *.
  exists s. split; auto. unfold env_ok, abs_event. cbn [fst snd]. unfold site_typed in TY. rewrite Forall_forall in *.
  intros [ps l] Ig. specialize (TY _ Ig). specialize (SM _ Ig). cbn [snd] in *. rewrite Forall_forall in *. intros x Ix k HK.
  destruct (R ps l x k Ig Ix HK) as [NU _].
  destruct (TY x Ix k HK) as [[E _]|(r & S & IN)]; [congruence|]. pose proof (seen_det _ _ _ M S). subst r. eapply SM; eauto.
Qed.
Lemma abs_run : forall e, mevent_ready sites e -> mevent_run code e = event_run code (abs_event e).
Proof. intros [i [m env]] (M & s & Hs & TY & R). cbn [fst snd] in *. apply (run_exact i s m env Hs M TY). exact R. Qed.
End All.

(** ** Without strings *)
Definition no_blobs (c : list istmt) : Prop := Forall (fun s => match s with IBlobs _ => False | _ => True end) c.
Lemma vars_no_blobs : forall test l st vs bs st', instrument_vars test l false st = (vs, bs, st') -> bs = [].
Proof.
  induction l as [|[n t] l IH]; intros st vs bs st' E; cbn [instrument_vars] in E; [now injection E as _ <- _|].
  destruct (instrument_var test n t false st) as [[v1 b1] st1] eqn:E1. destruct (instrument_vars test l false st1) as [[v2 b2] st2] eqn:E2.
  injection E as _ <- _. rewrite (IH _ _ _ _ E2). unfold instrument_var in E1.
  destruct (type_format_and_size t false) as [[f z]|]; [|now injection E1 as _ <- _].
  destruct (get_type_index test t f z false st) as [ti s1]. destruct (get_name_index test n s1) as [ni s2]. cbn [andb] in E1.
  now injection E1 as _ <- _.
Qed.
Lemma extra_no_blobs : forall test gs st code st', (forall ps l, In (ps, l) gs -> ps = false) -> extra_stmts test gs st = (code, st') -> no_blobs code.
Proof.
  induction gs as [|[ps l] gs IH]; intros st code st' H E; cbn [extra_stmts] in E.
  - injection E as <- _. constructor.
  - rewrite (H ps l (or_introl eq_refl)) in E. destruct (instrument_c_exprs test l false st) as [s1 st1] eqn:E1.
    destruct (extra_stmts test gs st1) as [s2 st2] eqn:E2. injection E as <- _.
    apply Forall_app. split; [|eapply IH; [|exact E2]; intros; eapply H; right; eauto].
    unfold instrument_c_exprs in E1. destruct (instrument_vars test l false st) as [[vs bs] st3] eqn:EI. injection E1 as <- _.
    rewrite (vars_no_blobs _ _ _ _ _ _ EI), app_nil_r. destruct vs; repeat constructor.
Qed.
Lemma all_no_blobs : forall test l st code st', (forall s ps g, In s l -> In (ps, g) (snd s) -> ps = false) ->
  instrument_all test l st = (code, st') -> Forall no_blobs code.
Proof.
  induction l as [|[id gs] l IH]; intros st code st' H E; cbn [instrument_all] in E.
  - injection E as <- _. constructor.
  - destruct (instrument_ast test id gs st) as [c st1] eqn:E1. destruct (instrument_all test l st1) as [cs st2] eqn:E2. injection E as <- _.
    constructor.
    + unfold instrument_ast in E1. destruct (extra_stmts test gs st) as [ex s3] eqn:E3. injection E1 as <- _.
      constructor; auto. apply Forall_app. split; [|repeat constructor]. eapply extra_no_blobs; [|exact E3]. intros ps g I. eapply (H (id, gs)); [now left|exact I].
    + eapply IH; [|exact E2]. intros; eapply H; [right|]; eauto.
Qed.
Lemma no_strings : forall test sites names types code, instrumented test sites names types code ->
  (forall s ps l, In s sites -> In (ps, l) (snd s) -> ps = false) ->
  forall i m m' env, mevent_run code (i, (m, env)) = mevent_run code (i, (m', env)).
Proof.
  intros test sites names types code (st & nal & tal & E & _) H i m m' env. unfold mevent_run. cbn [fst snd].
  destruct (nth_error code i) as [c|] eqn:Hc; auto. pose proof (all_no_blobs _ _ _ _ _ H E) as F. rewrite Forall_forall in F.
  specialize (F c (nth_error_In _ _ Hc)). apply mapC_ext. eapply Forall_impl; [|exact F]. intros [id|vs|bs|] X; try reflexivity. destruct X.
Qed.

Lemma read_back : forall test kf sites names types code,
  Forall (site_ok kf) sites -> tells_apart test (all_texts sites) ->
  instrumented test sites names types code -> fits names types ->
  forall ths, Forall (Forall (fun e => mevent_ready sites e /\ mevent_small sites e)) ths ->
  exists aths acts, Forall2 (Forall2 (event_seen sites)) ths aths /\
    Forall2 (Forall2 (fun e a => mevent_run code e = Ok a)) ths acts /\
    forall s, rsteps (rstart names types (map (@concat action) acts)) s -> Forall (eq []) (r_threads s) ->
    forall ok coins pos t, (forall n, n <= lenN (r_out s) -> ok n = true) ->
    exists order tr, merge aths order /\ reads ok coins pos t 0 (r_out s) = Ok tr /\
      tr_names tr = names /\ tr_types tr = types /\ Forall2 (event_shows sites tr) order (tr_points tr).
Proof.
  intros test kf sites names types code S T P F ths H.
  assert (OK : Forall (Forall (event_ok sites)) (map (map abs_event) ths)).
  { rewrite Forall_forall in *. intros l Hl. apply in_map_iff in Hl. destruct Hl as (l0 & <- & Hl). specialize (H _ Hl). rewrite Forall_forall in *.
    intros e He. apply in_map_iff in He. destruct He as (e0 & <- & He). destruct (H _ He) as [R SM]. apply abs_ok; auto. }
  destruct (end_lemma test kf sites S T names types code P F (map (map abs_event) ths) OK) as (acts & RUN & REST).
  exists (map (map abs_event) ths), acts. split; [|split].
  - clear -H. induction H as [|l ths Hl _ IH]; [constructor|]. cbn [map]. constructor; auto. clear IH.
    induction Hl as [|e l [R _] _ IH]; [constructor|]. cbn [map]. constructor; auto. now apply abs_seen.
  - clear -H RUN S T P. revert acts RUN. induction H as [|l ths Hl _ IH]; intros acts RUN; inversion RUN as [|? a ? acts' R1 R2]; subst; constructor; auto.
    clear -Hl R1 S T P. revert a R1. induction Hl as [|e l [R _] _ IH]; intros a R1; inversion R1 as [|? b ? a' Q1 Q2]; subst; constructor; auto.
    rewrite (abs_run test kf sites S T names types code P e R). exact Q1.
  - intros s RS D ok coins pos t A. destruct (REST s RS D ok coins pos t A) as (order & tr & X1 & X2 & X3 & X4 & X5 & _). exists order, tr. auto.
Qed.
