(** Proofs about Splice.v, part 2: the compiler reads the text of a well-formed AST
    as the statement it stands for. *)
From Coq Require Import List Bool Arith NArith Lia.
From Verif Require Import Base Types Instr Splice SpliceSpec SpliceProofs1.
Import ListNotations.
Open Scope nat_scope.

Section CInd.
Variable P : cstmt -> Prop.
Hypothesis HStm : forall s, P (CStm s).
Hypothesis HMark : forall p s, P s -> P (CMark p s).
Hypothesis HBlock : forall l, Forall P l -> P (CBlock l).
Hypothesis HIf : forall c s, P s -> P (CIf c s).
Hypothesis HIfElse : forall c s e, P s -> P e -> P (CIfElse c s e).
Hypothesis HLoop : forall h s, P s -> P (CLoop h s).
Hypothesis HDo : forall s c, P s -> P (CDo s c).
Hypothesis HSwitch : forall c s, P s -> P (CSwitch c s).
Hypothesis HCase : forall v s, P s -> P (CCase v s).
Hypothesis HLabel : forall l s, P s -> P (CLabel l s).
Fixpoint cstmt_rect' (s : cstmt) : P s :=
  match s with
  | CStm s => HStm s
  | CMark p s => HMark p s (cstmt_rect' s)
  | CBlock l => HBlock l ((fix all (l : list cstmt) : Forall P l :=
       match l with [] => Forall_nil P | x :: r => Forall_cons x (cstmt_rect' x) (all r) end) l)
  | CIf c s => HIf c s (cstmt_rect' s)
  | CIfElse c s e => HIfElse c s e (cstmt_rect' s) (cstmt_rect' e)
  | CLoop h s => HLoop h s (cstmt_rect' s)
  | CDo s c => HDo s c (cstmt_rect' s)
  | CSwitch c s => HSwitch c s (cstmt_rect' s)
  | CCase v s => HCase v s (cstmt_rect' s)
  | CLabel l s => HLabel l s (cstmt_rect' s)
  end.
End CInd.

Fixpoint print_c (s : cstmt) : list tok :=
  match s with
  | CStm s => [TStm s]
  | CMark p s => TMark p :: print_c s
  | CBlock l => TOpen :: flat_map print_c l ++ [TClose]
  | CIf c s => TIf c :: print_c s
  | CIfElse c s e => TIf c :: print_c s ++ TElse :: print_c e
  | CLoop h s => TLoop h :: print_c s
  | CDo s c => TDo :: print_c s ++ [TUntil c]
  | CSwitch c s => TSwitch c :: print_c s
  | CCase v s => TCase v :: print_c s
  | CLabel l s => TLabel l :: print_c s
  end.

(** No if takes a foreign else. *)
Fixpoint good (s : cstmt) : bool :=
  match s with
  | CStm _ => true
  | CMark _ s | CIf _ s | CLoop _ s | CDo s _ | CSwitch _ s | CCase _ s | CLabel _ s => good s
  | CBlock l => forallb good l
  | CIfElse _ s e => good s && closed s && good e
  end.

Definition nelse (r : list tok) : Prop := match r with TElse :: _ => False | _ => True end.
Definition starts (s : cstmt) : Prop :=
  forall r, nelse (print_c s ++ r) /\ match print_c s ++ r with TClose :: _ => False | [] => False | _ => True end.
Lemma starts_all s : starts s.
Proof. destruct s; intros r; cbn; auto. Qed.

Lemma print_c_len s : 1 <= length (print_c s).
Proof. destruct s; cbn; lia. Qed.

Lemma parse_print s : good s = true -> forall n rest,
  2 * length (print_c s) <= n -> (closed s = true \/ nelse rest) ->
  parse_s n (print_c s ++ rest) = Some (s, rest).
Proof.
  induction s as [s|p s IH|l IH|c s IH|c s e IHs IHe|h s IH|s c IH|c s IH|v s IH|l s IH] using cstmt_rect';
    intros G n rest Hn Hc; destruct n as [|n]; cbn [print_c length] in Hn; try lia;
    cbn [print_c app parse_s]; cbn [good closed] in *.
  - reflexivity.
  - rewrite IH by (auto; lia). reflexivity.
  - assert (B : forall l, Forall (fun s => good s = true -> forall n rest,
        2 * length (print_c s) <= n -> (closed s = true \/ nelse rest) ->
        parse_s n (print_c s ++ rest) = Some (s, rest)) l -> forallb good l = true ->
        forall n, 2 * length (flat_map print_c l) + 1 <= n ->
        parse_b n (flat_map print_c l ++ TClose :: rest) = Some (l, rest)).
    { clear. intros l H. induction H as [|x r Hx _ IHr]; intros G n Hn; (destruct n as [|n]; [lia|]).
      - reflexivity.
      - cbn [forallb] in G. apply andb_prop in G. destruct G as [Gx Gr].
        cbn [flat_map] in *. rewrite app_length in Hn. rewrite <- app_assoc.
        assert (NE : nelse (flat_map print_c r ++ TClose :: rest)).
        { destruct r as [|y r]; cbn [flat_map app]; [exact I|]. rewrite <- app_assoc. apply starts_all. }
        specialize (Hx Gx n (flat_map print_c r ++ TClose :: rest) ltac:(lia) (or_intror NE)).
        pose proof (print_c_len x) as Lx.
        specialize (IHr Gr n ltac:(lia)).
        pose proof (starts_all x (flat_map print_c r ++ TClose :: rest)) as [_ St].
        cbn [parse_b].
        destruct (print_c x ++ flat_map print_c r ++ TClose :: rest) as [|[] ts]; try contradiction;
          rewrite Hx, IHr; reflexivity. }
    rewrite <- app_assoc. cbn [app]. rewrite B; [reflexivity|exact IH|exact G|].
    rewrite app_length in Hn. cbn in Hn. lia.
  - destruct Hc as [Hc|Hc]; [discriminate|]. rewrite IH by (auto; lia).
    destruct rest as [|[] ?]; try reflexivity. contradiction.
  - apply andb_prop in G. destruct G as [G Ge]. apply andb_prop in G. destruct G as [Gs Gc].
    rewrite app_length in Hn. cbn in Hn.
    rewrite <- app_assoc. cbn [app]. rewrite IHs by (auto; lia). rewrite IHe by (auto; lia). reflexivity.
  - rewrite IH by (auto; lia). reflexivity.
  - rewrite <- app_assoc. cbn [app]. rewrite app_length in Hn. cbn in Hn.
    rewrite IH; [reflexivity|exact G|lia|right; exact I].
  - rewrite IH by (auto; lia). reflexivity.
  - rewrite IH by (auto; lia). reflexivity.
  - rewrite IH by (auto; lia). reflexivity.
Qed.
Lemma parse_whole s : good s = true -> parse (print_c s) = Some s.
Proof.
  intros G. unfold parse.
  pose proof (parse_print s G (S (2 * length (print_c s))) [] ltac:(lia) (or_intror I)) as E.
  rewrite app_nil_r in E. rewrite E. reflexivity.
Qed.

(** ** Pieces *)
Definition print_piece (p : piece) : list tok :=
  match p with PS s => print_c s | PL (LCase v) => [TCase v] | PL (LLabel l) => [TLabel l] end.
Definition good_piece (p : piece) : bool := match p with PS s => good s | PL _ => true end.

Lemma attach_print x s : print_c (attach x s) = print_piece (PL x) ++ print_c s.
Proof. destruct x; reflexivity. Qed.
Lemma attach_good x s : good (attach x s) = good s.
Proof. destruct x; reflexivity. Qed.

Lemma assemble_print l : forall m, assemble l = Some m -> flat_map print_piece l = flat_map print_c m.
Proof.
  induction l as [|[x|s] l IH]; cbn [assemble flat_map]; intros m E.
  - injection E as <-. reflexivity.
  - destruct (assemble l) as [[|s m']|]; try discriminate. injection E as <-.
    rewrite (IH _ eq_refl). cbn [flat_map]. rewrite attach_print, app_assoc. reflexivity.
  - destruct (assemble l) as [m'|]; [|discriminate]. injection E as <-.
    rewrite (IH _ eq_refl). reflexivity.
Qed.
Lemma assemble_good l : forall m, assemble l = Some m -> forallb good_piece l = true -> forallb good m = true.
Proof.
  induction l as [|[x|s] l IH]; cbn [assemble forallb]; intros m E G.
  - injection E as <-. reflexivity.
  - destruct (assemble l) as [[|s m']|]; try discriminate. injection E as <-.
    specialize (IH _ eq_refl G). cbn [forallb] in *. rewrite attach_good. exact IH.
  - destruct (assemble l) as [m'|]; [|discriminate]. injection E as <-.
    apply andb_prop in G. destruct G as [G1 G2]. cbn [forallb good_piece] in *.
    rewrite G1, (IH _ eq_refl G2). reflexivity.
Qed.
Lemma one_inv l s : one l = Some s -> assemble l = Some [s].
Proof. unfold one. destruct (assemble l) as [[|x [|]]|]; try discriminate. congruence. Qed.
Lemma one_print l s : one l = Some s -> flat_map print_piece l = print_c s.
Proof. intros E. rewrite (assemble_print _ _ (one_inv _ _ E)). cbn. apply app_nil_r. Qed.
Lemma one_good l s : one l = Some s -> forallb good_piece l = true -> good s = true.
Proof. intros E G. pose proof (assemble_good _ _ (one_inv _ _ E) G) as H. cbn in H. apply andb_prop in H. apply H. Qed.

Lemma obind_inv {A B} (o : option A) (f : A -> option B) b :
  obind o f = Some b -> exists a, o = Some a /\ f a = Some b.
Proof. destruct o as [a|]; [|discriminate]. intros H. exists a. split; [reflexivity|exact H]. Qed.

Ltac binds H :=
  repeat match type of H with
  | obind _ _ = Some _ =>
      let a := fresh "a" in let E := fresh "E" in
      apply obind_inv in H; destruct H as (a & E & H)
  | (if ?b then Some _ else None) = Some _ =>
      let E := fresh "E" in destruct b eqn:E; [|discriminate H]
  | (if is_expr ?b then _ else None) = Some _ =>
      let E := fresh "E" in destruct (is_expr b) eqn:E; [|discriminate H]
  end.

Section Mac.
Variable mac : N -> bool.

(** Printing and pieces agree. *)
Definition agrees (t : ast) : Prop :=
  forall l, pieces mac t = Some l -> print mac t = flat_map print_piece l /\ forallb good_piece l = true.

Lemma oflat_agrees (f : ast -> option (list piece)) (g : ast -> list tok) ts :
  Forall (fun t => forall l, f t = Some l -> g t = flat_map print_piece l /\ forallb good_piece l = true) ts ->
  forall l, oflat f ts = Some l -> flat_map g ts = flat_map print_piece l /\ forallb good_piece l = true.
Proof.
  induction 1 as [|t r Ht _ IH]; cbn [oflat flat_map]; intros l E.
  - injection E as <-. split; reflexivity.
  - binds E. injection E as <-. destruct (Ht _ E0) as [-> G1]. destruct (IH _ E1) as [-> G2].
    rewrite flat_map_app, forallb_app, G1, G2. split; reflexivity.
Qed.
Lemma stmt_agrees t s : agrees t -> (if solid t then obind (pieces mac t) one else None) = Some s -> print mac t = print_c s /\ good s = true.
Proof.
  intros H E. destruct (solid t); [|discriminate]. binds E. destruct (H _ E0) as [-> G]. split; [apply one_print, E|exact (one_good _ _ E G)].
Qed.

Lemma print_agrees t : agrees t.
Proof.
  induction t as [k c a b ks af Hb Hks Haf] using ast_rect'. intros l E.
  cbn [pieces] in E. cbn [print].
  apply obind_inv in E. destruct E as (pb & Eb & E). apply obind_inv in E. destruct E as (pc & Ec & E).
  apply obind_inv in E. destruct E as (pa & Ea & E). injection E as <-.
  destruct (oflat_agrees _ _ _ Hb _ Eb) as [-> Gb]. destruct (oflat_agrees _ _ _ Haf _ Ea) as [-> Ga].
  rewrite !flat_map_app, !forallb_app, Ga, Gb. cbn [andb]. rewrite andb_true_r.
  match goal with |- _ ++ ?x ++ _ = _ /\ _ =>
    assert (H : x = flat_map print_piece pc /\ forallb good_piece pc = true);
    [|destruct H as [-> ->]; split; reflexivity] end.
  clear Hb Haf Ea Eb Ga Gb pa pb.
  assert (Pre : oflat (fun x => if Bool.eqb (is_else x) (mac (cont c)) then Some [] else pieces mac x) ks = Some pc ->
     flat_map (fun x => if Bool.eqb (is_else x) (mac (cont c)) then [] else print mac x) ks = flat_map print_piece pc /\
     forallb good_piece pc = true).
  { intros E. refine (oflat_agrees _ _ _ _ _ E). apply Forall_forall. intros t Ht l.
    rewrite Forall_forall in Hks.
    destruct (Bool.eqb (is_else t) (mac (cont c))); [intros [= <-]; split; reflexivity|apply Hks, Ht]. }
  destruct k; try discriminate.
  - (* compound *) binds Ec. injection Ec as <-.
    destruct (oflat_agrees _ _ _ Hks _ E) as [-> G]. cbn [flat_map print_piece print_c forallb good_piece good].
    rewrite (assemble_print _ _ E0), (assemble_good _ _ E0 G), app_nil_r. split; reflexivity.
  - (* if *) destruct ks as [|e [|s [|s2 [|]]]]; try discriminate;
      inversion Hks as [|? ? _ Hks1]; inversion Hks1 as [|? ? Hs Hks2]; subst; binds Ec; injection Ec as <-;
      cbn [flat_map print_piece print_c forallb good_piece good]; rewrite ?app_nil_r.
    + destruct (stmt_agrees _ _ Hs E0) as [-> ->]. split; reflexivity.
    + inversion Hks2 as [|? ? Hs2 _]; subst.
      destruct (stmt_agrees _ _ Hs E0) as [-> ->]. destruct (stmt_agrees _ _ Hs2 E1) as [-> ->].
      rewrite E2. split; reflexivity.
  - (* loop *) destruct ks as [|e [|s [|]]]; try discriminate.
    inversion Hks as [|? ? _ Hks1]; inversion Hks1 as [|? ? Hs _]; subst; binds Ec; injection Ec as <-.
    cbn [flat_map print_piece print_c forallb good_piece good]; rewrite ?app_nil_r.
    destruct (stmt_agrees _ _ Hs E0) as [-> ->]. split; reflexivity.
  - (* do *) destruct ks as [|s [|e [|]]]; try discriminate.
    inversion Hks as [|? ? Hs _]; subst; binds Ec; injection Ec as <-.
    cbn [flat_map print_piece print_c forallb good_piece good]; rewrite ?app_nil_r.
    destruct (stmt_agrees _ _ Hs E0) as [-> ->]. split; reflexivity.
  - (* switch *) destruct ks as [|e [|s [|]]]; try discriminate.
    inversion Hks as [|? ? _ Hks1]; inversion Hks1 as [|? ? Hs _]; subst; binds Ec; injection Ec as <-.
    cbn [flat_map print_piece print_c forallb good_piece good]; rewrite ?app_nil_r.
    destruct (stmt_agrees _ _ Hs E0) as [-> ->]. split; reflexivity.
  - (* case *) destruct ks as [|v ss]; try discriminate.
    inversion Hks as [|? ? _ Hss]; subst. binds Ec; injection Ec as <-.
    destruct (oflat_agrees _ _ _ Hss _ E0) as [-> G]. cbn [flat_map print_piece app forallb good_piece].
    rewrite G. split; reflexivity.
  - (* label *) destruct ks as [|s [|]]; try discriminate.
    inversion Hks as [|? ? Hs _]; subst. binds Ec; injection Ec as <-.
    destruct (Hs _ E) as [-> G]. cbn [flat_map print_piece app forallb good_piece]. rewrite G. split; reflexivity.
  - injection Ec as <-. split; reflexivity.
  - injection Ec as <-. split; reflexivity.
  - apply Pre, Ec.
  - apply Pre, Ec.
  - injection Ec as <-. split; reflexivity.
  - injection Ec as <-. destruct c; split; reflexivity.
  - (* mark *) destruct ks as [|s [|]]; try discriminate. destruct c; try discriminate.
    inversion Hks as [|? ? Hs _]; subst. binds Ec; injection Ec as <-.
    cbn [flat_map print_piece print_c forallb good_piece good]; rewrite ?app_nil_r.
    destruct (stmt_agrees _ _ Hs E) as [-> ->]. split; reflexivity.
Qed.

(** The compiler reads the text of an AST as the statement it stands for. *)
Theorem parse_statement t s : statement_of mac t = Some s -> parse (print mac t) = Some s.
Proof.
  intros E. destruct (stmt_agrees _ _ (print_agrees t) E) as [-> G]. apply parse_whole, G.
Qed.
End Mac.
