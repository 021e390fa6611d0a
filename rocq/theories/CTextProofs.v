(** Proofs for C100. *)
From Coq Require Import Strings.String.
From Coq Require Import ZArith Lia.
From Verif Require Import BaseProofs InstrProofs VaProofs Types PrintPred Instr InstrRun VaArg CText CRead CParse CSem Names.

Definition file : cfile := Eval vm_compute in match parse_c forward_declarations implementation with Some f => f | None => mkFile [] [] [] end.
Lemma file_read : parse_c forward_declarations implementation = Some file.
Proof. vm_compute. reflexivity. Qed.
Definition consts := Eval vm_compute in c_consts file.
Definition structs := Eval vm_compute in c_structs file.
Definition body (f : string) : cstmt := match find_fun (text f) (c_funs file) with Some d => f_body d | None => SSkip end.
Fixpoint last_loop (s : cstmt) (r : cexpr * cexpr * cexpr * cstmt) : cexpr * cexpr * cexpr * cstmt :=
  match s with
  | SSeq (SFor a b c d) q => last_loop q (a, b, c, d)
  | SSeq _ q => last_loop q r
  | _ => r
  end.
Definition round_of (f : string) : cstmt := snd (last_loop (body f) (ENum 0, ENum 0, ENum 0, SSkip)).
(* the bodies of the loops *)
Definition vars_round := Eval vm_compute in round_of "__write_trace_variables".
Definition blobs_round := Eval vm_compute in round_of "__write_trace_blobs".

(** Integers *)
Lemma wrap_bits : forall b, b < 2 ^ 32 -> wrap false 4 (int_of_bits false 4 b) = Z.of_N b.
Proof.
  intros b H. unfold int_of_bits, wrap. cbn [andb].
  assert (P : (2 ^ (8 * Z.of_N 4) = 2 ^ 32)%Z) by reflexivity. rewrite !P.
  rewrite !Z.mod_small; [reflexivity|lia|rewrite Z.mod_small; lia].
Qed.
Lemma wrap_mod : forall s n z, ((wrap s n z) mod 2 ^ (8 * Z.of_N n) = z mod 2 ^ (8 * Z.of_N n))%Z.
Proof.
  intros s n z. unfold wrap. set (m := (2 ^ (8 * Z.of_N n))%Z).
  assert (m <> 0)%Z by (unfold m; apply Z.pow_nonzero; lia).
  destruct (s && (m <=? 2 * (z mod m))%Z).
  - replace (z mod m - m)%Z with (z mod m + (-1) * m)%Z by lia. rewrite Z.mod_add by assumption. apply Z.mod_mod. assumption.
  - apply Z.mod_mod. assumption.
Qed.
Lemma wrap_bits_signed : forall b, b < 2 ^ 32 -> wrap false 4 (wrap false 4 (int_of_bits true 4 b)) = Z.of_N b.
Proof.
  intros b H. unfold wrap at 1. cbn [andb]. rewrite wrap_mod. unfold int_of_bits. rewrite wrap_mod. apply Z.mod_small.
  assert (P : (2 ^ (8 * Z.of_N 4) = 2 ^ 32)%Z) by reflexivity. rewrite P. lia.
Qed.
Lemma wrap_idem : forall n z, wrap false n (wrap false n z) = wrap false n z.
Proof. intros. unfold wrap at 1. cbn [andb]. rewrite wrap_mod. reflexivity. Qed.
Lemma int_bytes_wrap : forall s n z, int_bytes n (wrap s n z) = int_bytes n z.
Proof. intros. unfold int_bytes. rewrite wrap_mod. reflexivity. Qed.
Lemma mod_pow_small : forall n m z, n <= m -> ((z mod 2 ^ (8 * Z.of_N m)) mod 2 ^ (8 * Z.of_N n) = z mod 2 ^ (8 * Z.of_N n))%Z.
Proof.
  intros n m z H. replace (8 * Z.of_N m)%Z with (8 * Z.of_N n + 8 * Z.of_N (m - n))%Z by lia.
  rewrite Z.pow_add_r by lia. rewrite Z.rem_mul_r by (try apply Z.pow_nonzero; try apply Z.pow_pos_nonneg; lia).
  rewrite (Z.mul_comm (2 ^ (8 * Z.of_N n)) (_ mod _)), Z.mod_add by (apply Z.pow_nonzero; lia). apply Z.mod_mod. apply Z.pow_nonzero; lia.
Qed.
Lemma int_bytes_wrap_more : forall s n m z, n <= m -> int_bytes n (wrap s m z) = int_bytes n z.
Proof.
  intros s n m z H. unfold int_bytes. rewrite <- (mod_pow_small n m _ H). rewrite wrap_mod. rewrite mod_pow_small by assumption. reflexivity.
Qed.
Lemma int_bytes_N : forall n b, int_bytes n (Z.of_N b) = le_bytes (N.to_nat n) b.
Proof.
  intros n b. unfold int_bytes. rewrite (le_bytes_mod _ b). f_equal. rewrite N2Nat.id.
  replace (2 ^ (8 * Z.of_N n))%Z with (Z.of_N (2 ^ (8 * n))) by (rewrite N2Z.inj_pow, N2Z.inj_mul; reflexivity).
  rewrite <- N2Z.inj_mod. apply N2Z.id.
Qed.
Lemma chunk_all : forall m k, lenN m = k -> chunk m (Z.of_N k) 1 = Ok m.
Proof.
  intros m k H. unfold chunk. rewrite Z.mul_1_r, N2Z.id, H, N.ltb_irrefl. f_equal. rewrite takeN_firstn, <- H.
  unfold lenN. rewrite Nat2N.id. apply firstn_all.
Qed.
Lemma chunk_int : forall n z k, k = Z.of_N n -> chunk (int_bytes n z) k 1 = Ok (int_bytes n z).
Proof. intros n z k ->. apply chunk_all. unfold int_bytes. rewrite InstrProofs.lenN_le_bytes. lia. Qed.
Lemma chunk_le : forall n b k, k = Z.of_nat n -> chunk (le_bytes n b) k 1 = Ok (le_bytes n b).
Proof. intros n z k ->. rewrite <- (nat_N_Z n). apply chunk_all. rewrite InstrProofs.lenN_le_bytes. lia. Qed.
Lemma binary_eq : forall a b, a < 2 ^ 32 -> b < 2 ^ 31 ->
  binary OEq (YInt false 4, VI (Z.of_N a)) (YInt true 4, VI (Z.of_N b)) = Ok (YInt true 4, VI (if a =? b then 1 else 0)).
Proof.
  intros a b A B. unfold binary. cbn [fst snd common promote bind N.ltb N.compare Pos.compare Pos.compare_cont N.eqb Pos.eqb andb convert arith].
  assert (P : (2 ^ (8 * Z.of_N 4) = 2 ^ 32)%Z) by reflexivity.
  unfold wrap. cbn [andb]. rewrite !P. rewrite !Z.mod_small by lia. do 4 f_equal.
  destruct (N.eqb_spec a b) as [->|N]; [rewrite Z.eqb_refl; reflexivity|rewrite (proj2 (Z.eqb_neq (Z.of_N a) (Z.of_N b))) by lia; reflexivity].
Qed.
Lemma yes_case : forall a b, a = b -> same_case a b = true.
Proof. intros. unfold same_case. apply Z.eqb_eq. assumption. Qed.
Lemma no_case : forall a b, a <> b -> same_case a b = false.
Proof. intros. unfold same_case. apply Z.eqb_neq. assumption. Qed.

Section P.
Variable St : Type.
Variable next : aty -> St -> outcome (N * list byte * St).
Variable last : name.
Variable fuel : nat.
Notation run := (exec structs consts St next last fuel).
Lemma run_seq : forall a b s o, run Go a s = o -> run Go (SSeq a b) s =
  bind o (fun '(f, s) => match f with Next => run Go b s | Break => Ok (Break, s) | Seeking => run Go b s end).
Proof. intros. cbn [exec]. rewrite H. reflexivity. Qed.
Lemma run_block : forall a s, run Go (SBlock a) s = bind (run Go a s) (fun '(f, s') => Ok (f, leave _ s s')).
Proof. reflexivity. Qed.

Lemma run_seek : forall k a b s o, run (Seek k) a s = o -> run (Seek k) (SSeq a b) s =
  bind o (fun '(f, s) => match f with Next => run Go b s | Break => Ok (Break, s) | Seeking => run (Seek k) b s end).
Proof. intros. cbn [exec]. rewrite H. reflexivity. Qed.
Lemma run_seq_bind : forall a b s, run Go (SSeq a b) s =
  bind (run Go a s) (fun '(f, s) => match f with Next => run Go b s | Break => Ok (Break, s) | Seeking => run Go b s end).
Proof. reflexivity. Qed.
Lemma run_block_seek : forall k a s, run (Seek k) (SBlock a) s = bind (run (Seek k) a s) (fun '(f, s') => Ok (f, leave _ s s')).
Proof. reflexivity. Qed.
Lemma run_switch : forall x a s t k, read_var consts _ x s = Ok (t, VI k) ->
  run Go (SSwitch (EVar x) a) s =
  bind (run (Seek (Some k)) a s) (fun '(f, s1) =>
    match f with
    | Seeking => ' (_, s2) <- run (Seek None) a s ;; Ok (Next, s2)
    | _ => Ok (Next, s1)
    end).
Proof. intros. cbn [exec eval]. rewrite H. reflexivity. Qed.

Lemma run_skip : forall s, run Go SSkip s = Ok (Next, s).
Proof. reflexivity. Qed.
Lemma run_skip_seek : forall k s, run (Seek k) SSkip s = Ok (Seeking, s).
Proof. reflexivity. Qed.
Lemma run_break : forall s, run Go SBreak s = Ok (Break, s).
Proof. reflexivity. Qed.
Lemma run_if : forall e a b s t v s', eval structs consts St next last e s = Ok (t, VI v, s') ->
  run Go (SIf e a b) s = if (v =? 0)%Z then run Go b s' else run Go a s'.
Proof. intros. cbn [exec]. rewrite H. cbn [bind truth]. destruct (v =? 0)%Z; reflexivity. Qed.


Variable small : forall y st b m st', next y st = Ok (b, m, st') -> y = TInt \/ y = TUInt -> b < 2 ^ 32.

(** Symbolic execution, statement by statement *)
Ltac opaque := lazy -[wrap int_of_bits int_bytes chunk binary narrow le_bytes app same_case Z.of_N string_at element lenN loop Z.to_N N.add Z.add].
Ltac seq tac := match goal with
  | |- context [run Go (SSeq ?a ?b) ?s] => erewrite (run_seq a b s); [|opaque; tac; reflexivity]
  end; cbn [bind].
Ltac fetch := match goal with |- context [next ?y ?s] =>
  let E := fresh "E" in destruct (next y s) as [[[? ?] ?]| | | |] eqn:E; cbn [bind]; seq ltac:(rewrite E; opaque); try reflexivity end;
  match goal with E : next ?y ?s = Ok (?b, _, _) |- _ => let F := fresh "F" in
     try (assert (F := small y s _ _ _ E (or_introl eq_refl)) || assert (F := small y s _ _ _ E (or_intror eq_refl));
          rewrite ?(wrap_bits b F), ?(wrap_bits_signed b F)) end.
Ltac write := seq ltac:(rewrite ?chunk_int, ?chunk_le by reflexivity; opaque).
Ltac lab := match goal with
  | |- context [run (Seek ?k) (SSeq ?a ?b) ?s] => erewrite (run_seek k a b s);
    [|opaque; try match goal with |- context [same_case ?a ?b] => first [rewrite (no_case a b) by lia | rewrite (yes_case a b) by lia] end; opaque; reflexivity]
  end; cbn [bind].
Ltac enter := match goal with |- context [run Go (SSeq (SBlock ?a) ?b) ?s] => rewrite (run_seq_bind (SBlock a) b s), (run_block a s) end.
Ltac branch := match goal with |- context [run Go (SSeq (SIf ?e ?a ?b) ?c) ?s] =>
  rewrite (run_seq_bind (SIf e a b) c s); erewrite (run_if e a b s); [|opaque] end.
Ltac switch := match goal with |- context [run Go (SSeq (SSwitch (EVar ?x) ?a) ?b) ?s] =>
  rewrite (run_seq_bind _ b s); erewrite (run_switch x a s); [|reflexivity] end; rewrite run_block_seek.
Ltac skip := rewrite ?run_skip, ?run_skip_seek, ?run_break; cbn [bind].
Ltac goto := switch; repeat lab; skip.
Ltac finish := skip; opaque; rewrite ?int_bytes_wrap, ?int_bytes_N; unfold int_of_bits; rewrite ?int_bytes_wrap_more by lia;
  rewrite ?int_bytes_N; rewrite <- ?app_assoc; reflexivity.
Ltac value v := match goal with |- context [fetch_value St next ?f ?n ?s] => replace (fetch_value St next f n s) with v by
  (unfold fmt_of_code, fetch_value; repeat match goal with H : ?a <> ?b |- context [?a =? ?b] => rewrite (proj2 (N.eqb_neq a b) H) end; reflexivity) end.
Ltac sizes n2 := destruct (N.eq_dec n2 1) as [->|]; [|destruct (N.eq_dec n2 2) as [->|]; [|destruct (N.eq_dec n2 4) as [->|]; [|destruct (N.eq_dec n2 8) as [->|]]]].

(** A round of __write_trace_variables *)
Definition vars_state (i n : Z) (st : St) (acts : list action) : state St :=
  mkS St [(text "i", (YInt false 4, Some (VI i))); (text "ap", (YVaList, Some VAp)); (text "n_vars", (YInt false 8, Some (VI n)));
          (text "out", (YPtr YVoid, Some VOut))] st acts.
Lemma vars_round_runs : forall i n st acts,
  run Go vars_round (vars_state i n st acts) =
  ' (ni, _, st) <- next TUInt st ;;
  ' (ti, _, st) <- next TUInt st ;;
  ' (size, _, st) <- next TUInt st ;;
  ' (format, _, st) <- next TInt st ;;
  ' (w, st) <- fetch_value _ next (fmt_of_code format) size st ;;
  Ok (Next, vars_state i n st (acts ++ [AWrite [x02]; AWrite (le_bytes 4 ni); AWrite (le_bytes 4 ti)] ++ w)).
Proof.
  intros. unfold vars_round. rewrite run_block. do 4 fetch. do 3 write.
  destruct (N.eq_dec n3 0) as [->|]; [|destruct (N.eq_dec n3 1) as [->|]; [|destruct (N.eq_dec n3 2) as [->|];
  [|destruct (N.eq_dec n3 3) as [->|]; [|destruct (N.eq_dec n3 4) as [->|]; [|destruct (N.eq_dec n3 5) as [->|]]]]]].
  7: { value (Ok (@nil action, s2)). goto. rewrite run_block_seek. repeat lab; skip. finish. }
  6: { value (Ok (@nil action, s2)). goto. finish. }
  5: { value (Ok (@nil action, s2)). goto. finish. }
  4: { value (' (b, _, st) <- next (TPtr PVoid) s2 ;; Ok ([AWrite (le_bytes 8 b)], st)). goto. enter. fetch. write. finish. }
  3: { destruct (N.eq_dec n2 4) as [->|].
    - value (' (b, _, st) <- next TDouble s2 ;; Ok ([AWrite (le_bytes 4 (narrow b))], st)).
      goto. branch. 2:{ rewrite binary_eq by (exact eq_refl || assumption). opaque. reflexivity. }
      cbn [Z.eqb]. rewrite run_block. fetch. write. write. finish.
    - value (' (b, _, st) <- next TDouble s2 ;; Ok ([AWrite (le_bytes 8 b)], st)).
      goto. branch. 2:{ rewrite binary_eq by (exact eq_refl || assumption). rewrite (proj2 (N.eqb_neq n2 4)) by assumption. opaque. reflexivity. }
      cbn [Z.eqb]. rewrite run_block. fetch. write. write. finish. }
  - sizes n2.
    + value (' (b, _, st) <- next TInt s2 ;; Ok ([AWrite (le_bytes 1 b)], st)). goto. write. goto. enter. fetch. write. write. finish.
    + value (' (b, _, st) <- next TInt s2 ;; Ok ([AWrite (le_bytes 2 b)], st)). goto. write. goto. enter. fetch. write. write. finish.
    + value (' (b, _, st) <- next TInt s2 ;; Ok ([AWrite (le_bytes 4 b)], st)). goto. write. goto. enter. fetch. write. write. finish.
    + value (' (b, _, st) <- next TLong s2 ;; Ok ([AWrite (le_bytes 8 b)], st)). goto. write. goto. enter. fetch. write. write. finish.
    + value (Ok (@nil action, s2)). goto. write. goto. rewrite run_block_seek. repeat lab; skip. finish.
  - sizes n2.
    + value (' (b, _, st) <- next TInt s2 ;; Ok ([AWrite (le_bytes 1 b)], st)). goto. goto. enter. fetch. write. write. finish.
    + value (' (b, _, st) <- next TInt s2 ;; Ok ([AWrite (le_bytes 2 b)], st)). goto. goto. enter. fetch. write. write. finish.
    + value (' (b, _, st) <- next TInt s2 ;; Ok ([AWrite (le_bytes 4 b)], st)). goto. goto. enter. fetch. write. write. finish.
    + value (' (b, _, st) <- next TLong s2 ;; Ok ([AWrite (le_bytes 8 b)], st)). goto. goto. enter. fetch. write. write. finish.
    + value (Ok (@nil action, s2)). goto. goto. rewrite run_block_seek. repeat lab; skip. finish.
Qed.

(** A round of __write_trace_blobs *)
Lemma chunk_one : forall m k, chunk m (Z.of_N k) 1 = if lenN m <? k then UB UOob else Ok (takeN k m).
Proof. intros m k. unfold chunk. rewrite Z.mul_1_r, N2Z.id. reflexivity. Qed.
Lemma blobs_round_runs : forall i n st acts,
  run Go blobs_round (vars_state i n st acts) =
  ' (ni, _, st) <- next TUInt st ;;
  ' (ti, _, st) <- next TUInt st ;;
  ' (size, _, st) <- next TUInt st ;;
  ' (_, s, st) <- next (TPtr PVoid) st ;;
  if lenN s <? size then UB UOob else
  Ok (Next, vars_state i n st (acts ++ [AWrite [x02]; AWrite (le_bytes 4 ni); AWrite (le_bytes 4 ti); AWrite (le_bytes 4 size); AWrite (takeN size s)])).
Proof.
  intros. unfold blobs_round. rewrite run_block. do 4 fetch. do 4 write.
  match goal with |- context [if ?c then UB UOob else _] => destruct c eqn:L end.
  - seq ltac:(rewrite chunk_one, L; opaque). reflexivity.
  - seq ltac:(rewrite chunk_one, L; opaque). finish.
Qed.
End P.
