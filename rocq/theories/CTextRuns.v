(** Proofs for C100: the functions. *)
From Coq Require Import Strings.String.
From Coq Require Import ZArith Lia.
From Verif Require Import BaseProofs InstrProofs VaProofs Types Compare PrintPred Instr InstrRun VaArg CText CRead CParse CSem Names CTextProofs.

(** ** Counting loops *)
Section Loops.
Variable St X : Type.
Fixpoint rounds (step : N -> X -> outcome X) (k : nat) (i : N) (x : X) : outcome X :=
  match k with
  | O => Ok x
  | S k => x <- step i x ;; rounds step k (i + 1) x
  end.
Variable cond : state St -> outcome (bool * state St).
Variable body : state St -> outcome (flow * state St).
Variable after : state St -> outcome (state St).
Variable mk : N -> X -> state St.
Variable n : N.
Variable step : N -> X -> outcome X.
Hypothesis cond_in : forall i x, i < n -> cond (mk i x) = Ok (true, mk i x).
Hypothesis cond_out : forall x, cond (mk n x) = Ok (false, mk n x).
Hypothesis body_step : forall i x, i < n -> body (mk i x) = bind (step i x) (fun x => Ok (Next, mk i x)).
Hypothesis after_step : forall i x, i < n -> after (mk i x) = Ok (mk (i + 1) x).
Lemma loop_counts : forall k fuel i x, i + N.of_nat k = n -> (k < fuel)%nat ->
  loop St cond body after fuel (mk i x) = bind (rounds step k i x) (fun x => Ok (Next, mk n x)).
Proof.
  induction k as [|k IH]; intros fuel i x E F; (destruct fuel as [|fuel]; [lia|]); cbn [loop rounds].
  - assert (i = n) as -> by lia. rewrite cond_out. reflexivity.
  - rewrite cond_in by lia. cbn [bind]. rewrite body_step by lia. destruct (step i x) as [y| | | |]; cbn [bind]; try reflexivity.
    rewrite after_step by lia. cbn [bind]. apply IH; lia.
Qed.
End Loops.

(** ** Arithmetic *)
Lemma wrap_small : forall n z, (0 <= z < 2 ^ (8 * Z.of_N n))%Z -> wrap false n z = z.
Proof. intros n z H. unfold wrap. cbn [andb]. apply Z.mod_small. exact H. Qed.
Lemma wrap4 : forall b, b < 2 ^ 32 -> wrap false 4 (Z.of_N b) = Z.of_N b.
Proof. intros b H. apply wrap_small. change (2 ^ (8 * Z.of_N 4))%Z with (2 ^ 32)%Z. lia. Qed.
Lemma wrap8 : forall b, b < 2 ^ 64 -> wrap false 8 (Z.of_N b) = Z.of_N b.
Proof. intros b H. apply wrap_small. change (2 ^ (8 * Z.of_N 8))%Z with (2 ^ 64)%Z. lia. Qed.
Lemma binary_lt : forall a b, a < 2 ^ 32 -> b < 2 ^ 64 ->
  binary OLt (YInt false 4, VI (Z.of_N a)) (YInt false 8, VI (Z.of_N b)) = Ok (YInt true 4, VI (if a <? b then 1 else 0)).
Proof.
  intros a b A B. unfold binary. cbn [fst snd common promote bind N.ltb N.compare Pos.compare Pos.compare_cont N.eqb Pos.eqb andb convert arith].
  rewrite !wrap8 by lia. do 3 f_equal. destruct (N.ltb_spec a b) as [L|L]; [rewrite (proj2 (Z.ltb_lt (Z.of_N a) (Z.of_N b))) by lia; reflexivity|].
  rewrite (proj2 (Z.ltb_ge (Z.of_N a) (Z.of_N b))) by lia. reflexivity.
Qed.
Lemma binary_inc : forall a, a + 1 < 2 ^ 32 ->
  binary OAdd (YInt false 4, VI (Z.of_N a)) (YInt true 4, VI 1) = Ok (YInt false 4, VI (Z.of_N (a + 1))).
Proof.
  intros a A. unfold binary. cbn [fst snd common promote bind N.ltb N.compare Pos.compare Pos.compare_cont N.eqb Pos.eqb andb convert arith].
  rewrite wrap4 by lia. change (wrap false 4 1) with 1%Z. replace (Z.of_N a + 1)%Z with (Z.of_N (a + 1)) by lia. rewrite wrap4 by lia. reflexivity.
Qed.

(** ** __write_trace_variables, __write_trace_blobs *)
Ltac opaque := lazy -[wrap int_of_bits int_bytes chunk binary narrow le_bytes app same_case Z.of_N string_at element lenN loop Z.to_N N.add Z.add].

Section Var.
Variable St : Type.
Variable next : aty -> St -> outcome (N * list byte * St).
Variable small : forall y st b m st', next y st = Ok (b, m, st') -> y = TInt \/ y = TUInt -> b < 2 ^ 32.

Definition vars_step (_ : N) (x : St * list action) : outcome (St * list action) :=
  let '(st, acts) := x in
  ' (ni, _, st) <- next TUInt st ;;
  ' (ti, _, st) <- next TUInt st ;;
  ' (size, _, st) <- next TUInt st ;;
  ' (format, _, st) <- next TInt st ;;
  ' (w, st) <- fetch_value _ next (fmt_of_code format) size st ;;
  Ok (st, acts ++ [AWrite [x02]; AWrite (le_bytes 4 ni); AWrite (le_bytes 4 ti)] ++ w).
Definition blobs_step (_ : N) (x : St * list action) : outcome (St * list action) :=
  let '(st, acts) := x in
  ' (ni, _, st) <- next TUInt st ;;
  ' (ti, _, st) <- next TUInt st ;;
  ' (size, _, st) <- next TUInt st ;;
  ' (_, s, st) <- next (TPtr PVoid) st ;;
  if lenN s <? size then UB UOob else
  Ok (st, acts ++ [AWrite [x02]; AWrite (le_bytes 4 ni); AWrite (le_bytes 4 ti); AWrite (le_bytes 4 size); AWrite (takeN size s)]).
Ltac both := match goal with |- context [next ?y ?s] => destruct (next y s) as [[[? ?] ?]| | | |]; cbn [bind]; try reflexivity end.
Lemma rounds_vars : forall k i st acts,
  bind (rounds _ vars_step k i (st, acts)) (fun x => Ok (snd x)) = bind (c_write_trace_variables St next k st) (fun r => Ok (acts ++ r)).
Proof.
  induction k as [|k IH]; intros i st acts; cbn [rounds c_write_trace_variables]; [cbn [bind snd]; rewrite app_nil_r; reflexivity|].
  unfold vars_step at 1. both. both. both. both.
  match goal with |- context [fetch_value St next ?f ?n ?s] => destruct (fetch_value St next f n s) as [[w st']| | | |]; cbn [bind]; try reflexivity end.
  rewrite IH. destruct (c_write_trace_variables St next k st'); cbn [bind]; try reflexivity. rewrite <- !app_assoc. reflexivity.
Qed.
Lemma rounds_blobs : forall k i st acts,
  bind (rounds _ blobs_step k i (st, acts)) (fun x => Ok (snd x)) = bind (c_write_trace_blobs St next k st) (fun r => Ok (acts ++ r)).
Proof.
  induction k as [|k IH]; intros i st acts; cbn [rounds c_write_trace_blobs]; [cbn [bind snd]; rewrite app_nil_r; reflexivity|].
  unfold blobs_step at 1. both. both. both. both.
  match goal with |- context [if ?c then UB UOob else _] => destruct c end; cbn [bind]; try reflexivity.
  rewrite IH. match goal with |- context [c_write_trace_blobs St next k ?s] => destruct (c_write_trace_blobs St next k s) end; cbn [bind]; try reflexivity. rewrite <- !app_assoc. reflexivity.
Qed.


Lemma run_for : forall last fuel e1 e2 e3 a s t v s', eval structs consts St next last e1 s = Ok (t, v, s') ->
  exec structs consts St next last fuel Go (SFor e1 e2 e3 a) s =
  loop St (fun s => ' (_, v, s) <- eval structs consts St next last e2 s ;; t <- truth v ;; Ok (t, s))
    (exec structs consts St next last fuel Go a) (fun s => ' (_, _, s) <- eval structs consts St next last e3 s ;; Ok s) fuel s'.
Proof. intros last fuel e1 e2 e3 a s t v s' H. cbn [exec]. rewrite H. reflexivity. Qed.

Definition vars_mk (n i : N) (x : St * list action) : state St := vars_state St (Z.of_N i) (Z.of_N n) (fst x) (snd x).
Ltac start f := unfold call_fun;
  match goal with |- context [find_fun ?f ?l] => let r := eval vm_compute in (find_fun f l) in change (find_fun f l) with r end;
  cbv beta iota; cbn [f_params map fst convert_all convert bind N.eqb Pos.eqb combine rev app snd f_body];
  change (c_structs file) with structs; change (c_consts file) with consts.
Ltac simple := erewrite run_seq; [|opaque; reflexivity]; cbn [bind].
Ltac counted := cbn [loop]; opaque; rewrite ?binary_lt, ?binary_inc by lia; opaque.

Lemma vars_runs : forall fuel n st, n < 2 ^ 32 -> (N.to_nat n < fuel)%nat ->
  call_fun St next fuel file (text "__write_trace_variables") [VOut; VI (Z.of_N n)] st = c_write_trace_variables St next (N.to_nat n) st.
Proof.
  intros fuel n st L F. start tt. rewrite wrap8 by lia. do 3 simple.
  rewrite run_seq_bind. erewrite run_for; [|opaque; reflexivity].
  match goal with |- context [exec ?a ?b ?c ?d ?e ?f Go ?w] => change w with vars_round end.
  change (wrap false 4 (Z.of_N 0)) with (Z.of_N 0).
  match goal with |- context [loop _ _ _ _ _ ?s] => change s with (vars_mk n 0 (st, @nil action)) end.
  rewrite (loop_counts St (St * list action) _ _ _ (vars_mk n) n vars_step) with (k := N.to_nat n); try lia.
  - assert (R := rounds_vars (N.to_nat n) 0 st []).
    destruct (rounds _ vars_step (N.to_nat n) 0 (st, [])) as [x| | | |], (c_write_trace_variables St next (N.to_nat n) st); cbn [bind app] in *; try discriminate R; exact R.
  - intros i x I. opaque. rewrite binary_lt by lia. rewrite (proj2 (N.ltb_lt i n) I). reflexivity.
  - intros x. opaque. rewrite binary_lt by lia. rewrite N.ltb_irrefl. reflexivity.
  - intros i [st' acts] I. unfold vars_mk; cbn [fst snd]. rewrite vars_round_runs by exact small. unfold vars_step. both. both. both. both.
    match goal with |- context [fetch_value St next ?f ?n ?s] => destruct (fetch_value St next f n s) as [[w st'']| | | |]; cbn [bind]; reflexivity end.
  - intros i x I. opaque. rewrite binary_inc by lia. opaque. rewrite wrap4 by lia. reflexivity.
Qed.
Lemma blobs_runs : forall fuel n st, n < 2 ^ 32 -> (N.to_nat n < fuel)%nat ->
  call_fun St next fuel file (text "__write_trace_blobs") [VOut; VI (Z.of_N n)] st = c_write_trace_blobs St next (N.to_nat n) st.
Proof.
  intros fuel n st L F. start tt. rewrite wrap8 by lia. do 3 simple.
  rewrite run_seq_bind. erewrite run_for; [|opaque; reflexivity].
  match goal with |- context [exec ?a ?b ?c ?d ?e ?f Go ?w] => change w with blobs_round end.
  change (wrap false 4 (Z.of_N 0)) with (Z.of_N 0).
  match goal with |- context [loop _ _ _ _ _ ?s] => change s with (vars_mk n 0 (st, @nil action)) end.
  rewrite (loop_counts St (St * list action) _ _ _ (vars_mk n) n blobs_step) with (k := N.to_nat n); try lia.
  - assert (R := rounds_blobs (N.to_nat n) 0 st []).
    destruct (rounds _ blobs_step (N.to_nat n) 0 (st, [])) as [x| | | |], (c_write_trace_blobs St next (N.to_nat n) st); cbn [bind app] in *; try discriminate R; exact R.
  - intros i x I. opaque. rewrite binary_lt by lia. rewrite (proj2 (N.ltb_lt i n) I). reflexivity.
  - intros x. opaque. rewrite binary_lt by lia. rewrite N.ltb_irrefl. reflexivity.
  - intros i [st' acts] I. unfold vars_mk; cbn [fst snd]. rewrite blobs_round_runs by exact small. unfold blobs_step. both. both. both. both.
    match goal with |- context [if ?c then UB UOob else _] => destruct c end; reflexivity.
  - intros i x I. opaque. rewrite binary_inc by lia. opaque. rewrite wrap4 by lia. reflexivity.
Qed.

(** ** The simple functions *)
Lemma id_runs : forall fuel id st, id < 2 ^ 64 ->
  call_fun St next fuel file (text "__write_trace_id") [VOut; VLock; VI (Z.of_N id)] st = Ok (write_trace_id id).
Proof.
  clear small. intros fuel id st L. start tt. rewrite wrap8 by lia. do 2 simple. 
  erewrite run_seq; [|opaque; rewrite chunk_int by reflexivity; opaque; reflexivity]. cbn [bind]. rewrite run_skip. opaque.
  rewrite !int_bytes_N. reflexivity.
Qed.
Lemma end_runs : forall fuel st,
  call_fun St next fuel file (text "__write_end_entry") [VOut; VLock] st = Ok write_end_entry.
Proof. intros fuel st. start tt. do 3 simple. rewrite run_skip. opaque. rewrite !int_bytes_N. reflexivity. Qed.
Lemma buffer_runs : forall fuel addr m size st, addr < 2 ^ 64 -> size < 2 ^ 64 ->
  call_fun St next fuel file (text "__write_buffer_size") [VOut; VP addr m; VI (Z.of_N size)] st = Ok (write_buffer_size addr size).
Proof.
  clear small. intros fuel addr m size st A B. start tt. rewrite wrap8 by lia. simple.
  Ltac opaque2 := lazy -[wrap int_bytes chunk le_bytes app Z.of_N].
  erewrite run_seq; [|opaque2; reflexivity]. cbn [bind].
  erewrite run_seq.
  2:{ opaque2. rewrite !int_bytes_wrap, !int_bytes_N. rewrite app_nil_r. cbn [app].
      match goal with |- context [chunk ?m ?k ?o] => replace (chunk m k o) with (@Ok (list byte) m) end; [opaque2; reflexivity|].
      symmetry. apply chunk_all. rewrite !lenN_app, !InstrProofs.lenN_le_bytes. reflexivity. }
  cbn [bind]. rewrite run_skip. opaque2. rewrite ?int_bytes_N. reflexivity.
Qed.

(** ** The header *)
Lemma eval_call1 : forall last f e s t v s', bytes_eqb f (text "va_start") = false -> eval structs consts St next last e s = Ok (t, v, s') ->
  eval structs consts St next last (ECall f [e]) s = call St f [(t, v)] s'.
Proof. intros last f e s t v s' B H. cbn [eval]. rewrite B, H. reflexivity. Qed.
Lemma eval_bin : forall last o a b s t v s' t' v' s'', eval structs consts St next last a s = Ok (t, v, s') ->
  eval structs consts St next last b s' = Ok (t', v', s'') ->
  eval structs consts St next last (EBin o a b) s = r <- binary o (t, v) (t', v') ;; Ok (fst r, snd r, s'').
Proof. intros last o a b s t v s' t' v' s'' A B. cbn [eval]. rewrite A. cbn [bind]. rewrite B. reflexivity. Qed.
Lemma eval_add_to : forall last x e s t v s' t' v' r w, eval structs consts St next last e s = Ok (t', v', s') ->
  read_var consts St x s' = Ok (t, v) -> binary OAdd (t, v) (t', v') = Ok r -> convert t (snd r) = Ok w ->
  eval structs consts St next last (EAddTo x e) s = Ok (t, w, set_var St x w s').
Proof. intros last x e s t v s' t' v' r w A B C D. cbn [eval]. rewrite A. cbn [bind]. rewrite B. cbn [bind]. rewrite C. cbn [bind]. rewrite D. reflexivity. Qed.
Lemma run_expr : forall last fuel e s t v s', eval structs consts St next last e s = Ok (t, v, s') ->
  exec structs consts St next last fuel Go (SExpr e) s = Ok (Next, s').
Proof. intros last fuel e s t v s' H. cbn [exec]. rewrite H. reflexivity. Qed.
Lemma string_at_end : forall n, string_at (n ++ [x00]) = Ok (c_string n).
Proof.
  induction n as [|b n IH]; [reflexivity|]. cbn [app string_at c_string]. rewrite IH. destruct b; reflexivity.
Qed.
Lemma call_strlen : forall m t a s, call St (text "strlen") [(t, VP a (m ++ [x00]))] s = Ok (YInt false 8, VI (Z.of_N (lenN (c_string m))), s).
Proof. intros m t a s. cbn [call map snd]. rewrite string_at_end. reflexivity. Qed.

Lemma binary_add8 : forall a b, binary OAdd (YInt false 8, VI (Z.of_N a)) (YInt false 8, VI (Z.of_N b)) = Ok (YInt false 8, VI (Z.of_N (add64 a b))).
Proof.
  intros a b. unfold binary. cbn [fst snd common promote bind N.ltb N.compare Pos.compare Pos.compare_cont N.eqb Pos.eqb andb convert arith].
  do 3 f_equal. unfold wrap, add64. cbn [andb].
  rewrite N2Z.inj_mod, N2Z.inj_add. rewrite <- Z.add_mod by (vm_compute; discriminate). reflexivity.
Qed.
Lemma binary_add1 : forall a, binary OAdd (YInt false 8, VI (Z.of_N a)) (YInt true 4, VI (Z.of_N 1)) = Ok (YInt false 8, VI (Z.of_N (add64 a 1))).
Proof.
  intros a. unfold binary. cbn [fst snd common promote bind N.ltb N.compare Pos.compare Pos.compare_cont N.eqb Pos.eqb andb convert arith].
  do 3 f_equal. unfold wrap, add64. cbn [andb].
  rewrite N2Z.inj_mod, N2Z.inj_add. rewrite <- Z.add_mod by (vm_compute; discriminate). reflexivity.
Qed.
Lemma element_at : forall (names : list name) i n, nthN names i = Some n ->
  element (map (fun n => n ++ [x00]) names) (Z.of_N i) = Ok (n ++ [x00]).
Proof.
  intros names i n H. unfold element. rewrite (proj2 (Z.ltb_ge (Z.of_N i) 0)) by lia. rewrite N2Z.id.
  assert (nthN (map (fun n => n ++ [x00]) names) i = Some (n ++ [x00])) as ->; [|reflexivity].
  rewrite nthN_nth_error in *. apply (map_nth_error (fun n => n ++ [x00])). exact H.
Qed.

Definition head_vars (i total : N) (mem : list (list byte)) (nn tn ta : N) (tm : list byte) : list (name * (cty * option cval)) :=
  [(text "i", (YInt false 4, Some (VI (Z.of_N i)))); (text "total_size", (YInt false 8, Some (VI (Z.of_N total))));
   (text "n_types", (YInt false 8, Some (VI (Z.of_N tn))));
   (text "types", (YPtr (YStruct (text "__trace_type_description")), Some (VP ta tm)));
   (text "n_names", (YInt false 8, Some (VI (Z.of_N nn))));
   (text "names", (YPtr (YPtr (YInt true 1)), Some (VNames mem)));
   (text "lock", (YPtr YVoid, Some VLock)); (text "out", (YPtr YVoid, Some VOut))].
Definition size_mk (mem : list (list byte)) (nn tn ta : N) (tm : list byte) (st : St) (acts : list action) (i : N) (total : N) : state St :=
  mkS St (head_vars i total mem nn tn ta tm) st acts.
Definition names_mk (mem : list (list byte)) (nn total tn ta : N) (tm : list byte) (st : St) (i : N) (acts : list action) : state St :=
  mkS St (head_vars i total mem nn tn ta tm) st acts.
Definition size_step (names : list name) (i total : N) : outcome N :=
  match nthN names i with Some n => Ok (add64 total (add64 (lenN (c_string n)) 1)) | None => UB UOob end.
Definition names_step (names : list name) (i : N) (acts : list action) : outcome (list action) :=
  match nthN names i with Some n => Ok (acts ++ [AWrite (c_string n); AWrite [x00]]) | None => UB UOob end.


Lemma rounds_size : forall (names rest pre : list name) total, names = pre ++ rest ->
  rounds _ (size_step names) (length rest) (lenN pre) total = Ok (fold_left (fun s n => add64 s (lenN (c_string n) + 1)) rest total).
Proof.
  intros names rest. induction rest as [|n rest IH]; intros pre total E; cbn [length rounds fold_left]; [reflexivity|].
  unfold size_step at 1. assert (nthN names (lenN pre) = Some n) as ->.
  { rewrite E, nthN_nth_error. unfold lenN. rewrite Nat2N.id. rewrite nth_error_app2, Nat.sub_diag by lia. reflexivity. }
  cbn [bind]. replace (lenN pre + 1) with (lenN (pre ++ [n])) by (rewrite lenN_app; reflexivity).
  rewrite IH by (rewrite E, <- app_assoc; reflexivity). do 2 f_equal. unfold add64. rewrite N.add_mod_idemp_r by discriminate. reflexivity.
Qed.
Lemma rounds_names : forall (names rest pre : list name) acts, names = pre ++ rest ->
  rounds _ (names_step names) (length rest) (lenN pre) acts = Ok (acts ++ concat (map (fun n => [AWrite (c_string n); AWrite [x00]]) rest)).
Proof.
  intros names rest. induction rest as [|n rest IH]; intros pre acts E; cbn [length rounds map concat]; [rewrite app_nil_r; reflexivity|].
  unfold names_step at 1. assert (nthN names (lenN pre) = Some n) as ->.
  { rewrite E, nthN_nth_error. unfold lenN. rewrite Nat2N.id. rewrite nth_error_app2, Nat.sub_diag by lia. reflexivity. }
  cbn [bind]. replace (lenN pre + 1) with (lenN (pre ++ [n])) by (rewrite lenN_app; reflexivity).
  rewrite IH by (rewrite E, <- app_assoc; reflexivity). rewrite <- app_assoc. reflexivity.
Qed.
Lemma chunk_low : forall b, chunk (int_bytes 8 (Z.of_N b)) (Z.of_N 4) (Z.of_N 1) = Ok (le_bytes 4 b).
Proof. intros b. rewrite int_bytes_N. reflexivity. Qed.
Lemma chunk_types : forall (types : list tdesc) tm,
  tm = concat (map (fun t => le_bytes 4 (t_name t) ++ le_bytes 4 (fmt_code (t_fmt t)) ++ le_bytes 4 (t_size t)) types) ->
  chunk tm (Z.of_N 12) (Z.of_N (lenN types)) = Ok tm.
Proof.
  intros types tm E. replace (chunk tm (Z.of_N 12) (Z.of_N (lenN types))) with (chunk tm (Z.of_N (12 * lenN types)) 1)
    by (unfold chunk; rewrite N2Z.inj_mul, Z.mul_1_r; reflexivity).
  apply chunk_all. subst tm. induction types as [|t types IH]; [reflexivity|]. cbn [map concat]. rewrite !lenN_app, IH, !InstrProofs.lenN_le_bytes.
  unfold lenN. cbn [length]. lia.
Qed.

Lemma header_runs : forall fuel (names : list name) types ta tm st, lenN names < 2 ^ 32 -> lenN types < 2 ^ 64 -> (length names < fuel)%nat ->
  tm = concat (map (fun t => le_bytes 4 (t_name t) ++ le_bytes 4 (fmt_code (t_fmt t)) ++ le_bytes 4 (t_size t)) types) ->
  call_fun St next fuel file (text "__write_trace_header")
    [VOut; VLock; VNames (map (fun n => n ++ [x00]) names); VI (Z.of_N (lenN names)); VP ta tm; VI (Z.of_N (lenN types))] st
  = Ok (write_trace_header names types).
Proof.
  clear small. intros fuel names types ta tm st LN LT F TM. remember (map (fun n => n ++ [x00]) names) as mem eqn:MEM. start tt. rewrite !wrap8 by lia.
  Ltac opaque3 := lazy -[wrap int_of_bits int_bytes chunk binary le_bytes app Z.of_N string_at element lenN loop Z.to_N N.add Z.add total_size add64 c_string name].
  Ltac simple3 := erewrite run_seq; [|opaque3; reflexivity]; cbn [bind].
  do 3 simple3. change (wrap false 8 (Z.of_N 0)) with (Z.of_N 0). change (wrap false 4 (Z.of_N 0)) with (Z.of_N 0).
  rewrite run_seq_bind. erewrite run_for; [|opaque3; reflexivity]. change (wrap false 4 (Z.of_N 0)) with (Z.of_N 0).
  match goal with |- context [loop _ _ _ _ _ ?s] => change s with (size_mk mem (lenN names) (lenN types) ta tm st ([] ++ [ALock]) 0 0) end.
  rewrite (loop_counts St N _ _ _ (size_mk mem (lenN names) (lenN types) ta tm st ([] ++ [ALock])) (lenN names) (size_step names)) with (k := length names);
    [|..|unfold lenN; lia|exact F].
  - assert (R := rounds_size names names [] 0 eq_refl); change (lenN []) with 0 in R; rewrite R; clear R. fold (total_size names). cbn [bind]. unfold size_mk, head_vars.
    erewrite run_seq; [|opaque3; rewrite chunk_int by reflexivity; opaque3; reflexivity]; cbn [bind].
    rewrite run_seq_bind. erewrite run_for; [|opaque3; reflexivity]. change (wrap false 4 (Z.of_N 0)) with (Z.of_N 0).
    rewrite int_bytes_N.
    match goal with |- context [loop _ _ _ _ _ ?s] => change s with (names_mk mem (lenN names) (total_size names) (lenN types) ta tm st 0 (([] ++ [ALock]) ++ [AWrite (le_bytes 8 (total_size names))])) end.
    rewrite (loop_counts St (list action) _ _ _ (names_mk mem (lenN names) (total_size names) (lenN types) ta tm st) (lenN names) (names_step names)) with (k := length names);
      [|..|unfold lenN; lia|exact F].
    + match goal with |- context [rounds _ (names_step names) _ _ ?a] => assert (R := rounds_names names names [] a eq_refl); change (lenN []) with 0 in R; rewrite R; clear R end. cbn [bind]. unfold names_mk, head_vars.
      remember (concat (map (fun n => [AWrite (c_string n); AWrite [x00]]) names)) as cm eqn:CM.
      erewrite run_seq; [|opaque3; rewrite chunk_low; opaque3; reflexivity]; cbn [bind].
      Ltac opaque4 := lazy -[wrap int_of_bits int_bytes chunk le_bytes app Z.of_N lenN total_size name].
      erewrite run_seq; [|opaque4; rewrite (chunk_types types tm TM); opaque4; reflexivity]; cbn [bind].
      erewrite run_seq; [|opaque4; reflexivity]; cbn [bind].
      rewrite run_skip. cbn [bind s_acts]. subst cm tm. unfold write_trace_header. rewrite <- !app_assoc. reflexivity.
    + intros i x I. opaque3. rewrite binary_lt by lia. rewrite (proj2 (N.ltb_lt i (lenN names)) I). reflexivity.
    + intros x. opaque3. rewrite binary_lt by lia. rewrite N.ltb_irrefl. reflexivity.
    + intros i x I. rewrite run_block. unfold names_mk, head_vars. destruct (nthN_lt _ names i I) as [n E]. assert (EL := element_at names i n E). rewrite <- MEM in EL.
      erewrite run_seq; [|opaque3; rewrite EL; opaque3; rewrite string_at_end; opaque3; reflexivity]; cbn [bind].
      simple3. rewrite run_skip. unfold names_step. rewrite E. cbn [bind]. opaque3. rewrite int_bytes_N, <- app_assoc. reflexivity.
    + intros i x I. opaque3. rewrite binary_inc by lia. opaque3. rewrite wrap4 by lia. reflexivity.
  - intros i x I. opaque3. rewrite binary_lt by lia. rewrite (proj2 (N.ltb_lt i (lenN names)) I). reflexivity.
  - intros x. opaque3. rewrite binary_lt by lia. rewrite N.ltb_irrefl. reflexivity.
  - intros i x I. rewrite run_block. unfold size_mk, head_vars. destruct (nthN_lt _ names i I) as [n E]. assert (EL := element_at names i n E). rewrite <- MEM in EL.
    erewrite run_seq.
    2:{ eapply run_expr. eapply eval_add_to.
        - erewrite eval_bin; [|erewrite eval_call1; [|reflexivity|opaque3; rewrite EL; reflexivity]; apply call_strlen|reflexivity].
          rewrite binary_add1. reflexivity.
        - reflexivity.
        - apply binary_add8.
        - reflexivity. }
    cbn [bind].
    rewrite run_skip. unfold size_step. rewrite E. cbn [bind]. opaque3. rewrite wrap8; [reflexivity|].
    unfold add64. apply N.mod_lt. discriminate.
  - intros i x I. opaque3. rewrite binary_inc by lia. opaque3. rewrite wrap4 by lia. reflexivity.
Qed.
End Var.
