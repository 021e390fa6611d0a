(** Proofs about trace collection: executions survive; running examples. *)
From Coq Require Import List Bool Arith Lia Sorted.
From Verif Require Import Base BaseProofs Handshake HandshakeSpec HandshakeProofs HandshakeProofs2.
Import ListNotations.
Open Scope nat_scope.

(** The executions are not harmed: none crashes, none writes to a stray file. *)
Definition unharmed (e : exec) : Prop := e_pc e <> PEnd true /\ e_pc e <> PFile.

Lemma pstep_unharmed : forall c s l1 e l2 pc s', inv c s -> c_pc s <> CEnd -> x_ex s = l1 ++ e :: l2 -> unharmed e ->
  pstep c s (e_log e) (e_pc e) pc s' -> pc <> PEnd true /\ pc <> PFile.
Proof.
  intros c s l1 e l2 pc s' [(js & D & a & H1 & H2 & H3 & H4 & H5 & H6 & HPh & HP & H7)] HC HX [U1 U2] HS.
  assert (He : ended e = false).
  { unfold ended. pose proof (pstep_active _ _ _ _ _ _ HS) as HA. destruct (e_pc e); try reflexivity. exfalso. exact (HA crashed eq_refl). }
  destruct (seqd_pick _ _ _ _ _ _ H1 HX He) as (-> & -> & ->).
  assert (A : e_pc e = PFopen -> h_dir s <> None).
  { intros E Hd. unfold phase in HPh. destruct (c_pc s); try contradiction.
    - destruct HPh as (_ & _ & _ & _ & [X|(k & r & X & _)]); congruence.
    - destruct HPh as (_ & _ & _ & X & _). congruence.
    - rewrite Hd in HPh. destruct HPh as (_ & _ & _ & [(e0 & X & Y)|(_ & X)]); [inversion X; subst|]; congruence.
    - destruct HPh as (_ & _ & _ & _ & [(e0 & X & Y)|(_ & X)]); [inversion X; subst|]; congruence.
    - destruct HPh as (_ & _ & [(_ & _ & _ & [(e0 & X & Y)|(_ & X)])|(_ & j & (log & _ & [(e0 & r & X & _ & Y & _)|(_ & X & _)]) & _)]);
        try (inversion X; subst); congruence.
    - destruct HPh as (_ & _ & _ & [(_ & _ & _ & [(e0 & X & Y)|(_ & X)])|(_ & j & (log & _ & [(e0 & r & X & _ & Y & _)|(_ & X & _)]) & _)]);
        try (inversion X; subst); congruence. }
  assert (B : forall k, e_pc e = PPipe k -> k = c_i s).
  { intros k E. unfold phase in HPh. destruct (c_pc s); try contradiction.
    - destruct HPh as (_ & _ & _ & _ & [X|(k' & r & X & _)]); congruence.
    - destruct HPh as (_ & _ & _ & _ & _ & [[X|(k' & r & X & _)]|(e0 & X & [Y|(b & Y)])]); try (inversion X; subst); congruence.
    - destruct HPh as (_ & _ & _ & HPh). destruct (h_dir s).
      + destruct HPh as (_ & [[[X|(k' & r & X & _)]|(e0 & X & [Y|(b & Y)])]|(e0 & X & Y)]); try (inversion X; subst); congruence.
      + destruct HPh as [(e0 & X & Y)|(_ & X)]; [inversion X; subst|]; congruence.
    - destruct HPh as (_ & _ & _ & _ & [(e0 & X & Y)|(_ & X)]); [inversion X; subst|]; congruence.
    - destruct HPh as (_ & _ & [(_ & _ & _ & [(e0 & X & Y)|(_ & X)])|(_ & j & (log & _ & [(e0 & r & X & _ & Y & _)|(_ & X & _)]) & _)]);
        try (inversion X; subst); congruence.
    - destruct HPh as (_ & _ & _ & [(_ & _ & _ & [(e0 & X & Y)|(_ & X)])|(_ & j & (log & _ & [(e0 & r & X & _ & Y & _)|(_ & X & _)]) & _)]);
        try (inversion X; subst); congruence. }
  split; intros ->; inversion HS; subst.
  - eapply A; eauto.
  - match goal with X : PPipe ?k = e_pc e |- _ => rewrite (B k (eq_sym X)) in * end. rewrite pe_cur in * by assumption. discriminate.
Qed.

Lemma exited_all : forall c s, cf_die c = false -> reach c s -> x_alive s = false -> x_todo s = [] /\ forallb ended (x_ex s) = true.
Proof.
  intros c s HDie HR Ha. induction HR as [|s s' HR IH HS]; [discriminate Ha|].
  inversion HS as [s1 HC|l1 e l2 pc s1 HX HP|r t HT HA HE|HA HE]; subst.
  - inversion HC; subst; unfold next in *; cbn in *; auto; destruct b || destruct (rd_eof (cf_reader c) got); auto.
  - destruct (pstep_frame _ _ _ _ _ _ HP) as (_ & _ & _ & _ & F5 & F6 & _).
    cbn in Ha. rewrite F6 in Ha. destruct (IH Ha) as [_ IH2]. rewrite HX, forallb_app in IH2. cbn in IH2.
    apply andb_true_iff in IH2. destruct IH2 as [_ IH2]. apply andb_true_iff in IH2. destruct IH2 as [IH2 _].
    exfalso. unfold ended in IH2. pose proof (pstep_active _ _ _ _ _ _ HP) as HAc. destruct (e_pc e); try discriminate IH2.
    exact (HAc crashed eq_refl).
  - cbn in Ha. congruence.
  - cbn. auto.
Qed.

(** After the collection. *)
Definition calm (pc : ppc) : bool := match pc with PAccess | PRun _ _ | PEnd _ => true | _ => false end.
Definition inv_c (s : state) : Prop :=
  Forall unharmed (x_ex s) /\
  (c_pc s = CEnd -> (h_dir s = None /\ Forall (fun e => calm (e_pc e) = true) (x_ex s)) \/ (x_alive s = false /\ forallb ended (x_ex s) = true)).

Lemma ended_calm : forall D, forallb ended D = true -> Forall (fun e => calm (e_pc e) = true) D.
Proof.
  induction D as [|d D IH]; intros H; [constructor|]. cbn in H. apply andb_true_iff in H. destruct H as [H1 H2].
  constructor; [|auto]. unfold ended in H1. destruct (e_pc d); try discriminate H1. reflexivity.
Qed.

Lemma read_calm : forall c s got, inv c s -> c_pc s = CRead got -> h_dir s = None /\ Forall (fun e => calm (e_pc e) = true) (x_ex s).
Proof.
  intros c s got [(js & D & a & (HX & HD & _) & _ & _ & _ & _ & _ & HPh & _)] HC. unfold phase in HPh. rewrite HC in HPh.
  destruct HPh as (HU & _ & Hd & [(X & _)|(_ & j & (log & _ & HJ) & _)]); [congruence|]. split; [exact Hd|].
  rewrite HX. apply Forall_app. split; [apply ended_calm; exact HD|].
  destruct HJ as [(e & r & -> & _ & He & _)|(_ & He & _)].
  - repeat constructor. rewrite He. reflexivity.
  - destruct a as [e|]; repeat constructor. rewrite He. reflexivity.
Qed.

Lemma inv_c_reach : forall c s, smooth c -> reach c s -> inv_c s.
Proof.
  intros c s (HPar & HDie & HTmo & HSt & HO) H. induction H as [|s s' HR [IH1 IH2] HS].
  - unfold inv_c, start. rewrite HO. cbn. auto.
  - pose proof (inv_reach c s HPar HO HR) as HI.
    inversion HS as [s1 HC|l1 e l2 pc s1 HX HP|r t HT HA HE|HA HE]; subst.
    + inversion HC as [E Hd|n E|E Hd|E Ha|Ht E|E|E Hr|got ch r E He Hb|got b E He|got E He Hb Hw|E Hd]; subst;
        unfold inv_c, next; cbn; try (split; [exact IH1|discriminate]).
      * split; [exact IH1|]. intros _. right. split; [exact Ha|]. apply (exited_all c s HDie HR Ha).
      * congruence.
      * destruct (read_calm c s got HI E) as (Q1 & Q2). destruct b; cbn; (split; [exact IH1|]); auto.
      * destruct (read_calm c s got HI E) as (Q1 & Q2). destruct (rd_eof (cf_reader c) got); cbn; (split; [exact IH1|]); auto.
      * split; [exact IH1|]. intros _. destruct (IH2 E) as [[Q1 Q2]|[Q1 Q2]]; auto.
    + destruct (pstep_frame _ _ _ _ _ _ HP) as (F1 & F2 & F3 & F4 & F5 & F6 & F7 & F8).
      assert (Ue : unharmed e) by (rewrite HX in IH1; apply Forall_app in IH1; destruct IH1 as [_ IH1]; inversion IH1; assumption).
      assert (G : (pc <> PEnd true /\ pc <> PFile) /\ (c_pc s = CEnd -> h_dir s = None -> h_dir s1 = None /\ calm pc = true) /\
                  (c_pc s = CEnd -> h_dir s = None /\ Forall (fun e => calm (e_pc e) = true) (x_ex s))).
      { assert (HK : c_pc s = CEnd -> h_dir s = None /\ Forall (fun e => calm (e_pc e) = true) (x_ex s)).
        { intros E. destruct (IH2 E) as [Q|[_ Q]]; [exact Q|]. exfalso. rewrite HX, forallb_app in Q. cbn in Q.
          apply andb_true_iff in Q. destruct Q as [_ Q]. apply andb_true_iff in Q. destruct Q as [Q _].
          unfold ended in Q. pose proof (pstep_active _ _ _ _ _ _ HP) as HAc. destruct (e_pc e); try discriminate Q. exact (HAc crashed eq_refl). }
        assert (HCalm : c_pc s = CEnd -> calm (e_pc e) = true).
        { intros E. destruct (HK E) as [_ Q]. rewrite HX in Q. apply Forall_app in Q. destruct Q as [_ Q]. inversion Q; assumption. }
        assert (HDec : c_pc s = CEnd \/ c_pc s <> CEnd) by (destruct (c_pc s); auto; right; discriminate).
        split; [|split; [|exact HK]].
        - destruct HDec as [E|E]; [|eapply pstep_unharmed; eauto].
          specialize (HCalm E). split; intros ->; inversion HP; subst;
            match goal with X : _ = e_pc e |- _ => rewrite <- X in HCalm; discriminate HCalm end.
        - intros E Hd. specialize (HCalm E). inversion HP; subst; try (split; [assumption|reflexivity]);
            try (match goal with X : _ = e_pc e |- _ => rewrite <- X in HCalm; discriminate HCalm end); congruence. }
      destruct G as (G1 & G2 & G3). split; cbn.
      * rewrite HX in IH1. apply Forall_app in IH1. destruct IH1 as [B1 B2]. inversion B2; subst. apply Forall_app. split; [exact B1|].
        constructor; [exact G1|assumption].
      * rewrite F1. intros E. left. destruct (G3 E) as [Q1 Q2]. destruct (G2 E Q1) as [Q3 Q4]. split; [exact Q3|].
        rewrite HX in Q2. apply Forall_app in Q2. destruct Q2 as [B1 B2]. inversion B2; subst. apply Forall_app. split; [exact B1|].
        constructor; assumption.
    + split; cbn.
      * apply Forall_app. split; [exact IH1|]. repeat constructor; discriminate.
      * intros E. destruct (IH2 E) as [[Q1 Q2]|[Q1 Q2]]; [|congruence]. left. split; [exact Q1|]. apply Forall_app. split; [exact Q2|].
        repeat constructor.
    + split; cbn; [exact IH1|]. intros E. destruct (IH2 E) as [Q|[Q1 Q2]]; auto.
Qed.

(** * Running the system: used for the examples *)

Inductive lab :=
| GC            (* next step of the collector *)
| GX            (* the collector sees that the test process has exited *)
| GT            (* a timeout *)
| GP (j : nat)  (* next step of execution j *)
| GD (j : nat)  (* execution j dies *)
| GS            (* the next execution starts *)
| GE.           (* the test process exits *)

Definition go_c (c : config) (s : state) : option state :=
  match c_pc s with
  | CCreate => match h_dir s with
               | None => Some (mkSt (Some (length (h_ino s))) (h_ino s ++ [None]) (p_buf s) (p_rd s) (p_used s) (c_i s)
                                 (CWrite (length (h_ino s))) (c_got s) (x_ex s) (x_todo s) (x_alive s))
               | Some _ => None
               end
  | CWrite n => Some (mkSt (h_dir s) (set_nth (h_ino s) n (Some (c_i s))) (p_buf s) (p_rd s) (p_used s) (c_i s)
                        CWait (c_got s) (x_ex s) (x_todo s) (x_alive s))
  | CWait => match h_dir s with None => Some (with_cpc COpen s) | Some _ => None end
  | COpen => Some (mkSt (h_dir s) (h_ino s) (p_buf s) true (p_used s) (c_i s) CPoll (c_got s) (x_ex s) (x_todo s) (x_alive s))
  | CPoll => match p_buf s with
             | _ :: _ => Some (with_cpc (CRead []) s)
             | [] => if p_used s && negb (existsb (writes_to (c_i s)) (x_ex s)) then Some (with_cpc (CRead []) s) else None
             end
  | CRead got => match rd_early (cf_reader c) got with
                 | Some b => Some (next c b got s)
                 | None => match p_buf s with
                           | ch :: r => Some (mkSt (h_dir s) (h_ino s) r (p_rd s) (p_used s) (c_i s) (CRead (got ++ [ch])) (c_got s) (x_ex s) (x_todo s) (x_alive s))
                           | [] => if existsb (writes_to (c_i s)) (x_ex s) then None else Some (next c (rd_eof (cf_reader c) got) got s)
                           end
                 end
  | CEnd => match h_dir s with
            | Some _ => Some (mkSt None (h_ino s) (p_buf s) (p_rd s) (p_used s) (c_i s) CEnd (c_got s) (x_ex s) (x_todo s) (x_alive s))
            | None => None
            end
  end.

Definition go_p (c : config) (s : state) (e : exec) : option (ppc * state) :=
  match e_pc e with
  | PAccess => match h_dir s with Some _ => Some (PFopen, s) | None => None end
  | PFopen => match h_dir s with Some n => Some (PFgets n false, s) | None => Some (PEnd true, s) end
  | PFgets n eof => match nth_error (h_ino s) n with
                    | Some (Some k) => if cf_sticky c && eof then None else Some (PUnlink k, s)
                    | Some None => if eof then None else Some (PFgets n true, s)
                    | None => None
                    end
  | PUnlink k => Some (PPipe k, mkSt None (h_ino s) (p_buf s) (p_rd s) (p_used s) (c_i s) (c_pc s) (c_got s) (x_ex s) (x_todo s) (x_alive s))
  | PPipe k => if pipe_exists k s
               then if p_rd s
                    then Some (PRun k (e_log e), mkSt (h_dir s) (h_ino s) (p_buf s) (p_rd s) true (c_i s) (c_pc s) (c_got s) (x_ex s) (x_todo s) (x_alive s))
                    else None
               else Some (PFile, s)
  | PRun k (ch :: r) => if pipe_exists k s
               then Some (PRun k r, mkSt (h_dir s) (h_ino s) (p_buf s ++ [ch]) (p_rd s) (p_used s) (c_i s) (c_pc s) (c_got s) (x_ex s) (x_todo s) (x_alive s))
               else Some (PEnd false, s)
  | PRun k [] => Some (PEnd false, s)
  | PFile => Some (PEnd false, s)
  | PEnd _ => None
  end.

Definition put (s : state) (j : nat) (e : exec) (r : option (ppc * state)) : option state :=
  match r with Some (pc, s') => Some (with_ex (firstn j (x_ex s) ++ mkE (e_log e) pc :: skipn (S j) (x_ex s)) s') | None => None end.

Definition go (c : config) (l : lab) (s : state) : option state :=
  match l with
  | GC => go_c c s
  | GX => match c_pc s with CWait => if x_alive s then None else Some (next c false [] s) | _ => None end
  | GT => if cf_tmo c then match c_pc s with CCreate | CWait | CPoll => Some (next c false [] s) | _ => None end else None
  | GP j => match nth_error (x_ex s) j with Some e => put s j e (go_p c s e) | None => None end
  | GD j => match nth_error (x_ex s) j with
            | Some e => if cf_die c && negb (ended e) then put s j e (Some (PEnd false, s)) else None
            | None => None
            end
  | GS => match x_todo s with
          | r :: t => if x_alive s && (cf_par c || forallb ended (x_ex s))
                      then Some (mkSt (h_dir s) (h_ino s) (p_buf s) (p_rd s) (p_used s) (c_i s) (c_pc s) (c_got s)
                                  (x_ex s ++ [mkE r PAccess]) t (x_alive s))
                      else None
          | [] => None
          end
  | GE => if x_alive s && (cf_die c || (match x_todo s with [] => true | _ => false end && forallb ended (x_ex s)))
          then Some (mkSt (h_dir s) (h_ino s) (p_buf s) (p_rd s) (p_used s) (c_i s) (c_pc s) (c_got s) (x_ex s) (x_todo s) false)
          else None
  end.

Fixpoint go_all (c : config) (ls : list lab) (s : state) : option state :=
  match ls with
  | [] => Some s
  | l :: r => match go c l s with Some s' => go_all c r s' | None => None end
  end.

Lemma go_c_step : forall c s s', go_c c s = Some s' -> cstep c s s'.
Proof.
  intros c s s' H. unfold go_c in H. destruct (c_pc s) as [|n| | | |got|] eqn:HC.
  - destruct (h_dir s) eqn:Hd; [discriminate H|]. inversion H; subst. apply c_create; assumption.
  - inversion H; subst. apply c_write. exact HC.
  - destruct (h_dir s) eqn:Hd; [discriminate H|]. inversion H; subst. apply c_gone; assumption.
  - inversion H; subst. apply c_open. exact HC.
  - destruct (p_buf s) eqn:B.
    + destruct (p_used s && negb (existsb (writes_to (c_i s)) (x_ex s))) eqn:E; [|discriminate H].
      apply andb_true_iff in E. destruct E as [E1 E2]. apply negb_true_iff in E2. inversion H; subst. apply c_poll; auto.
    + inversion H; subst. apply c_poll; [exact HC|]. left. congruence.
  - destruct (rd_early (cf_reader c) got) as [b|] eqn:E.
    + inversion H; subst. eapply c_early; eauto.
    + destruct (p_buf s) as [|ch r] eqn:B.
      * destruct (existsb (writes_to (c_i s)) (x_ex s)) eqn:W; [discriminate H|]. inversion H; subst. apply c_eof; assumption.
      * inversion H; subst. eapply c_read; eauto.
  - destruct (h_dir s) eqn:Hd; [|discriminate H]. inversion H; subst. apply c_cleanup; [exact HC|congruence].
Qed.

Lemma go_p_step : forall c s e pc s', go_p c s e = Some (pc, s') -> pstep c s (e_log e) (e_pc e) pc s'.
Proof.
  intros c s e pc s' H. unfold go_p in H. destruct (e_pc e) as [| |n b|k|k|k [|ch r]| |b].
  - destruct (h_dir s) eqn:Hd; [|discriminate H]. inversion H; subst. eapply p_access. exact Hd.
  - destruct (h_dir s) eqn:Hd; inversion H; subst; [eapply p_fopen|eapply p_fopen_null]; exact Hd.
  - destruct (nth_error (h_ino s) n) as [[k|]|] eqn:E; [| |discriminate H].
    + destruct (cf_sticky c && b) eqn:E2; [discriminate H|]. inversion H; subst. eapply p_fgets; [exact E|].
      intros X. rewrite X in E2. exact E2.
    + destruct b; [discriminate H|]. inversion H; subst. apply p_fgets_eof. exact E.
  - inversion H; subst. apply p_unlink.
  - destruct (pipe_exists k s) eqn:E; [destruct (p_rd s) eqn:E2; [|discriminate H]|]; inversion H; subst.
    + pose proof (p_open c s (e_log e) k E E2) as Q. rewrite E2 in Q. exact Q.
    + apply p_open_file; assumption.
  - inversion H; subst. apply p_exit.
  - destruct (pipe_exists k s) eqn:E; inversion H; subst; [apply p_write|apply p_sigpipe]; exact E.
  - inversion H; subst. apply p_exit_file.
  - discriminate H.
Qed.

Lemma put_step : forall c s j e pc s', nth_error (x_ex s) j = Some e -> pstep c s (e_log e) (e_pc e) pc s' ->
  step c s (with_ex (firstn j (x_ex s) ++ mkE (e_log e) pc :: skipn (S j) (x_ex s)) s').
Proof.
  intros c s j e pc s' HN HP. eapply st_exec; [|exact HP]. rewrite <- (skipn_nth _ _ _ _ HN). symmetry. apply firstn_skipn.
Qed.

Lemma go_step : forall c l s s', go c l s = Some s' -> step c s s'.
Proof.
  intros c l s s' H. destruct l as [| | |j|j| |]; cbn [go] in H.
  - apply st_collector. apply go_c_step. exact H.
  - destruct (c_pc s) eqn:HC; try discriminate H. destruct (x_alive s) eqn:HA; [discriminate H|]. inversion H; subst.
    apply st_collector. apply c_exited; assumption.
  - destruct (cf_tmo c) eqn:HT; [|discriminate H]. apply st_collector.
    destruct (c_pc s) eqn:HC; try discriminate H; inversion H; subst; (apply c_timeout; [exact HT|]); rewrite HC; cbn; auto.
  - destruct (nth_error (x_ex s) j) as [e|] eqn:HN; [|discriminate H]. unfold put in H.
    destruct (go_p c s e) as [[pc s1]|] eqn:E; [|discriminate H]. inversion H; subst. apply put_step; [exact HN|]. apply go_p_step. exact E.
  - destruct (nth_error (x_ex s) j) as [e|] eqn:HN; [|discriminate H].
    destruct (cf_die c && negb (ended e)) eqn:E; [|discriminate H]. apply andb_true_iff in E. destruct E as [E1 E2].
    cbn [put] in H. inversion H; subst. apply put_step; [exact HN|]. apply p_die; [exact E1|].
    intros b X. unfold ended in E2. rewrite X in E2. discriminate E2.
  - destruct (x_todo s) as [|r t] eqn:HT; [discriminate H|].
    destruct (x_alive s && (cf_par c || forallb ended (x_ex s))) eqn:E; [|discriminate H]. apply andb_true_iff in E. destruct E as [E1 E2].
    inversion H; subst. eapply st_start; [exact HT|exact E1|]. intros X. rewrite X in E2. exact E2.
  - destruct (x_alive s) eqn:HA; [|discriminate H]. cbn [andb] in H.
    destruct (cf_die c || (match x_todo s with [] => true | _ => false end && forallb ended (x_ex s))) eqn:E; [|discriminate H].
    inversion H; subst. apply st_exit; [exact HA|]. intros X. rewrite X in E. cbn in E. apply andb_true_iff in E. destruct E as [E1 E2].
    destruct (x_todo s); [|discriminate E1]. auto.
Qed.

Lemma go_all_reach : forall c ls s s', reach c s -> go_all c ls s = Some s' -> reach c s'.
Proof.
  intros c ls. induction ls as [|l r IH]; intros s s' HR H; cbn in H; [congruence|].
  destruct (go c l s) as [s1|] eqn:E; [|discriminate H]. eapply IH; [|exact H]. econstructor; [exact HR|]. eapply go_step. exact E.
Qed.

Lemma go_from_start : forall c ls s, go_all c ls (start c) = Some s -> reach c s.
Proof. intros c ls s H. eapply go_all_reach; [constructor|exact H]. Qed.

(** A check for states in which no step is possible. *)
Definition stuck (c : config) (s : state) : bool :=
  forallb (fun l => match go c l s with Some _ => false | None => true end)
    ([GC; GX; GT; GS; GE] ++ map GP (seq 0 (length (x_ex s))) ++ map GD (seq 0 (length (x_ex s)))).

Lemma step_go : forall c s s', step c s s' -> exists l,
  In l ([GC; GX; GT; GS; GE] ++ map GP (seq 0 (length (x_ex s))) ++ map GD (seq 0 (length (x_ex s)))) /\ go c l s <> None.
Proof.
  intros c s s' H. inversion H as [s1 HC|l1 e l2 pc s1 HX HP|r t HT HA HE|HA HE]; subst.
  - inversion HC as [E Hd|n E|E Hd|E Ha|Ht E|E|E Hr|got ch r E He Hb|got b E He|got E He Hb Hw|E Hd]; subst.
    + exists GC. split; [cbn; auto|]. cbn. unfold go_c. rewrite E, Hd. discriminate.
    + exists GC. split; [cbn; auto|]. cbn. unfold go_c. rewrite E. discriminate.
    + exists GC. split; [cbn; auto|]. cbn. unfold go_c. rewrite E, Hd. discriminate.
    + exists GX. split; [cbn; auto|]. cbn. rewrite E, Ha. discriminate.
    + exists GT. split; [cbn; auto|]. cbn. rewrite Ht. cbn in E. destruct E as [E|[E|[E|[]]]]; rewrite <- E; discriminate.
    + exists GC. split; [cbn; auto|]. cbn. unfold go_c. rewrite E. discriminate.
    + exists GC. split; [cbn; auto|]. cbn. unfold go_c. rewrite E. destruct (p_buf s); [|discriminate].
      destruct Hr as [Hr|[H1 H2]]; [congruence|]. rewrite H1, H2. discriminate.
    + exists GC. split; [cbn; auto|]. cbn. unfold go_c. rewrite E, He, Hb. discriminate.
    + exists GC. split; [cbn; auto|]. cbn. unfold go_c. rewrite E, He. discriminate.
    + exists GC. split; [cbn; auto|]. cbn. unfold go_c. rewrite E, He, Hb, Hw. discriminate.
    + exists GC. split; [cbn; auto|]. cbn. unfold go_c. rewrite E. destruct (h_dir s); [discriminate|congruence].
  - assert (HN : nth_error (x_ex s) (length l1) = Some e) by (rewrite HX, nth_error_app2, Nat.sub_diag by lia; reflexivity).
    assert (HL : In (length l1) (seq 0 (length (x_ex s)))) by (apply in_seq; rewrite HX, app_length; cbn; lia).
    assert (GPj : (exists r, go_p c s e = Some r) -> exists l,
      In l ([GC; GX; GT; GS; GE] ++ map GP (seq 0 (length (x_ex s))) ++ map GD (seq 0 (length (x_ex s)))) /\ go c l s <> None).
    { intros ([pc' r] & E). exists (GP (length l1)). split; [apply in_or_app; right; apply in_or_app; left; apply in_map; exact HL|].
      cbn [go]. rewrite HN, E. discriminate. }
    assert (G : forall pc0, pc0 = e_pc e -> pstep c s (e_log e) pc0 pc s1 -> (exists r, go_p c s e = Some r) \/ (cf_die c = true /\ ended e = false)).
    { intros pc0 E0 HP0. unfold go_p. rewrite <- E0. inversion HP0; subst.
      all: try (left; repeat match goal with X : ?a = _ |- context [match ?a with _ => _ end] => rewrite X end; eauto; fail).
      - left. rewrite H0. destruct (cf_sticky c); cbn; [rewrite (H1 eq_refl)|]; eauto.
      - right. split; [assumption|]. unfold ended. destruct (e_pc e); try reflexivity. exfalso. eapply H1. reflexivity. }
    destruct (G _ eq_refl HP) as [X|[X1 X2]]; [auto|].
    exists (GD (length l1)). split; [apply in_or_app; right; apply in_or_app; right; apply in_map; exact HL|].
    cbn [go]. rewrite HN, X1, X2. discriminate.
  - exists GS. split; [cbn; auto 10|]. cbn. rewrite HT, HA. destruct (cf_par c); [discriminate|]. rewrite (HE eq_refl). discriminate.
  - exists GE. split; [cbn; auto 10|]. cbn. rewrite HA. destruct (cf_die c); [discriminate|]. destruct (HE eq_refl) as [-> ->]. discriminate.
Qed.

Lemma stuck_final : forall c s, stuck c s = true -> final c s.
Proof.
  intros c s H s' HS. destruct (step_go _ _ _ HS) as (l & Hin & HG). unfold stuck in H. rewrite forallb_forall in H.
  specialize (H l Hin). cbv beta in H. destruct (go c l s); [discriminate H|congruence].
Qed.

(** Nothing is added after the end. *)
Lemma end_frozen : forall c s s', c_pc s = CEnd -> step c s s' -> c_pc s' = CEnd /\ c_got s' = c_got s.
Proof.
  intros c s s' HC HS. inversion HS as [s1 H|l1 e l2 pc s1 HX HP|r t HT HA HE|HA HE]; subst; cbn; auto.
  - inversion H; subst; try congruence; cbn; auto.
  - destruct (pstep_frame _ _ _ _ _ _ HP) as (F1 & _ & F3 & _). cbn. rewrite F1, F3. auto.
Qed.
