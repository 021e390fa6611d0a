(** Proofs for C101: the setup code is run. *)
From Coq Require Import Strings.String.
From Verif Require Import BaseProofs Types Compare PrintPred Instr InstrRun CRead CParse CSem CTextSpec SetupRead SetupSem SetupStart Dest SetupCode.
Notation length := List.length.

(** ** Strings *)
Lemma before_nul_string : forall m, before_nul m = match c_string m with Some s => Ok s | None => UB UOob end.
Proof. induction m as [|c m IH]; [reflexivity|]. cbn [before_nul c_string]. destruct (Byte.eqb c x00); [reflexivity|]. rewrite IH. destruct (c_string m); reflexivity. Qed.
Lemma before_nul_end : forall s, ~ In x00 s -> before_nul (s ++ [x00]) = Ok s.
Proof.
  induction s as [|c s IH]; intros H; [reflexivity|]. cbn [app before_nul]. destruct (Byte.eqb c x00) eqn:E.
  - apply Byte.byte_dec_bl in E. subst. destruct H. now left.
  - rewrite IH; [reflexivity|]. intros I. apply H. now right.
Qed.
Lemma span_newline : forall m, span_without [x0a] m = match strcspn_newline m with Some n => Ok (N.of_nat n) | None => UB UOob end.
Proof.
  induction m as [|c m IH]; [reflexivity|]. cbn [span_without strcspn_newline existsb]. rewrite orb_false_r. unfold newline.
  destruct (Byte.eqb c x00 || Byte.eqb c x0a); [reflexivity|]. rewrite IH. destruct (strcspn_newline m); [|reflexivity]. cbn [bind]. f_equal. lia.
Qed.
Lemma takeN_firstn : forall {A} (l : list A) n, takeN (N.of_nat n) l = firstn n l.
Proof.
  induction l as [|x l IH]; intros n; destruct n as [|n]; try reflexivity. cbn [takeN firstn]. destruct (N.eqb_spec (N.of_nat (S n)) 0); [lia|]. f_equal.
  replace (N.pred (N.of_nat (S n))) with (N.of_nat n) by lia. apply IH.
Qed.
Lemma dropN_skipn : forall {A} (l : list A) n, dropN (N.of_nat n) l = skipn n l.
Proof.
  induction l as [|x l IH]; intros n; destruct n as [|n]; try reflexivity. cbn [dropN skipn]. destruct (N.eqb_spec (N.of_nat (S n)) 0); [lia|].
  replace (N.pred (N.of_nat (S n))) with (N.of_nat n) by lia. apply IH.
Qed.
Lemma overwrite_store : forall m n s, overwrite m (N.of_nat n) s = store m n s.
Proof.
  intros m n s. unfold overwrite, store, lenN. destruct (N.ltb_spec (N.of_nat (length m)) (N.of_nat n + N.of_nat (length s))); destruct (Nat.leb_spec (n + length s) (length m)); try lia; [reflexivity|].
  rewrite takeN_firstn. replace (N.of_nat n + N.of_nat (length s)) with (N.of_nat (n + length s)) by lia. rewrite dropN_skipn. reflexivity.
Qed.
Lemma first_line_eq : forall n l, first_line n l = line n l.
Proof. reflexivity. Qed.
Lemma fgets_eq : forall reads acc, match Dest.fgets acc reads with
  | (Some l, _) => exists r e, SetupSem.fgets 1023 acc reads = Ok (Some l, r, e)
  | (None, r) => SetupSem.fgets 1023 acc reads = Diverge /\ r = [] \/ SetupSem.fgets 1023 acc reads = Ok (None, r, true) /\ (length r < length reads)%nat
  end.
Proof.
  induction reads as [|x reads IH]; intros acc; [left; split; reflexivity|]. destruct x as [|b x].
  - cbn [Dest.fgets SetupSem.fgets]. destruct acc; [right; split; [reflexivity|cbn; lia]|eauto].
  - change (Dest.fgets acc ((b :: x) :: reads)) with (let '(l, stop) := line 1023 (acc ++ b :: x) in if stop then (Some l, reads) else Dest.fgets l reads).
    change (SetupSem.fgets 1023 acc ((b :: x) :: reads)) with (let '(l, stop) := line 1023 (acc ++ b :: x) in
      if stop then Ok (Some l, match skipn (List.length l) (acc ++ b :: x) with [] => reads | rest => rest :: reads end, false) else SetupSem.fgets 1023 l reads).
    destruct (line 1023 (acc ++ b :: x)) as [l stop]. destruct stop; [eauto|]. specialize (IH l).
    destruct (Dest.fgets l reads) as [[l'|] r]; [exact IH|]. destruct IH as [IH|[IH L]]; [left; exact IH|right; split; [exact IH|cbn; lia]].
Qed.

Notation slock := static_lock.
Section Runs.
Variable file : cfile.
Variable fuel : nat.
Variable w : world.
Definition hfp : name := text "handshake_file_path".
Definition hfile : name := text "handshake_file".
Definition buf : name := text "buffer".
Definition ST (a hf : uval) (arr : list byte) (k : nat) (rd : list (list byte)) (eof : bool) (ev : list event) : ustate :=
  mkU [(hfp, a); (hfile, hf); (slock, WMutex slock); (log_var, WNull); (lock_var, WNull)] [(buf, arr)] [] k rd eof ev.

Lemma block_app : forall l m s, block_u file fuel w (l ++ m) s = bind (block_u file fuel w l s) (block_u file fuel w m).
Proof. induction l as [|c l IH]; intros m s; [reflexivity|]. cbn [app block_u]. destruct (exec_u file fuel w c s); cbn [bind]; auto. Qed.
Lemma block_inner : forall l s, (fix block (l : list ustmt) (s : ustate) : outcome ustate := match l with [] => Ok s | c :: r => s <- exec_u file fuel w c s ;; block r s end) l s = block_u file fuel w l s.
Proof. induction l as [|c l IH]; intros s; [reflexivity|]. cbn [block_u]. destruct (exec_u file fuel w c s); cbn [bind]; auto. Qed.
Lemma while_ext : forall c b b' n s, (forall s, b s = b' s) -> while_u c b n s = while_u c b' n s.
Proof. intros c b b' n. induction n as [|n IH]; intros s H; [reflexivity|]. cbn [while_u]. destruct (c s) as [[[] s']|  |  | |]; cbn [bind]; try reflexivity. rewrite H. destruct (b' s'); cbn [bind]; auto. Qed.

(** ** The declarations *)
Lemma first_run : forall h hv k rd ev0, before_nul (h ++ [x00]) = Ok h -> w_env w h = hv ->
  block_u file fuel w (firstn 4 (first_stmts h)) (mkU [(log_var, WNull); (lock_var, WNull)] [] [] k rd false ev0) =
  Ok (ST (match hv with Some r => WStr (r ++ [x00]) | None => WNull end) WNull buffer0 k rd false ev0).
Proof.
  intros h hv k rd ev0 H E. unfold first_stmts. cbn [firstn block_u].
  assert (X1 : exec_u file fuel w (UMutex (text "__static_lock")) (mkU [(log_var, WNull); (lock_var, WNull)] [] [] k rd false ev0) =
    Ok (mkU [(slock, WMutex slock); (log_var, WNull); (lock_var, WNull)] [] [] k rd false ev0)) by reflexivity.
  rewrite X1. cbn [bind].
  assert (X2 : exec_u file fuel w (UPointer (text "handshake_file") (UVar (text "NULL"))) (mkU [(slock, WMutex slock); (log_var, WNull); (lock_var, WNull)] [] [] k rd false ev0) =
    Ok (mkU [(hfile, WNull); (slock, WMutex slock); (log_var, WNull); (lock_var, WNull)] [] [] k rd false ev0)) by reflexivity.
  rewrite X2. cbn [bind].
  assert (X3 : exec_u file fuel w (UPointer (text "handshake_file_path") (UCall (text "getenv") [UStr h])) (mkU [(hfile, WNull); (slock, WMutex slock); (log_var, WNull); (lock_var, WNull)] [] [] k rd false ev0) =
    Ok (mkU [(hfp, match hv with Some r => WStr (r ++ [x00]) | None => WNull end); (hfile, WNull); (slock, WMutex slock); (log_var, WNull); (lock_var, WNull)] [] [] k rd false ev0)).
  { remember (h ++ [x00]) as hz. lazy -[before_nul w_env app] in Heqhz |- *. rewrite <- Heqhz. rewrite H. lazy -[w_env app]. rewrite E. reflexivity. }
  rewrite X3. cbn [bind].
  reflexivity.
Qed.

(** ** Waiting for the handshake file *)
Variables (p pz : list byte).
Hypothesis pz_p : before_nul pz = Ok p.
Definition access_cond : uexpr := UNe (UCall (text "access") [UVar hfp; UNum 0]) (UNum 0).
Definition sleep_block : list ustmt := [UExpr (UCall (text "sleep") [UNum 1])].
Lemma access_again : forall hf arr k rd eof ev, cond_u file fuel w access_cond (ST (WStr pz) hf arr (S k) rd eof ev) = Ok (true, ST (WStr pz) hf arr k rd eof (ev ++ [EvAccess p])).
Proof. intros. lazy -[before_nul app]. rewrite pz_p. reflexivity. Qed.
Lemma access_done : forall hf arr rd eof ev, cond_u file fuel w access_cond (ST (WStr pz) hf arr 0 rd eof ev) = Ok (false, ST (WStr pz) hf arr 0 rd eof (ev ++ [EvAccess p])).
Proof. intros. lazy -[before_nul app]. rewrite pz_p. reflexivity. Qed.
Lemma sleep_run : forall a hf arr k rd eof ev, block_u file fuel w sleep_block (ST a hf arr k rd eof ev) = Ok (ST a hf arr k rd eof (ev ++ [EvSleep])).
Proof. intros. reflexivity. Qed.
Lemma access_loop : forall k n hf arr rd eof ev, (k < n)%nat ->
  while_u (cond_u file fuel w access_cond) (block_u file fuel w sleep_block) n (ST (WStr pz) hf arr k rd eof ev) =
  Ok (ST (WStr pz) hf arr 0 rd eof (ev ++ rounds k [EvAccess p; EvSleep] ++ [EvAccess p])).
Proof.
  induction k as [|k IH]; intros n hf arr rd eof ev L; (destruct n as [|n]; [lia|]); cbn [while_u].
  - rewrite access_done. reflexivity.
  - rewrite access_again. cbn [bind]. rewrite sleep_run. cbn [bind]. rewrite IH by lia. f_equal. f_equal. rewrite <- !app_assoc. reflexivity.
Qed.
Lemma access_waits : forall k n hf arr rd eof ev, (n <= k)%nat ->
  while_u (cond_u file fuel w access_cond) (block_u file fuel w sleep_block) n (ST (WStr pz) hf arr k rd eof ev) = Diverge.
Proof.
  induction k as [|k IH]; intros n hf arr rd eof ev L; (destruct n as [|n]; [reflexivity|]); [lia|]. cbn [while_u].
  rewrite access_again. cbn [bind]. rewrite sleep_run. cbn [bind]. apply IH. lia.
Qed.

(** ** Reading it *)
Definition gets_cond : uexpr := UEq (UCall (text "fgets") [UVar buf; UNum 1024; UVar hfile]) (UVar (text "NULL")).
Notation "'STR' a b c d" := (ST (WStr pz) (WStream (FileIn p)) a 0%nat b c d) (at level 10, a at level 9, b at level 9, c at level 9, d at level 9).
Lemma fgets_call : forall arr rd eof ev, call_u file fuel w (text "fgets") [WArray buf; WInt 1024; WStream (FileIn p)] (STR arr rd eof ev) =
  if eof && w_sticky w then Ok (WNull, STR arr rd eof (ev ++ [EvGets p])) else
  bind (SetupSem.fgets (Z.to_nat (1024 - 1)) [] rd) (fun x => let '(l, r, e) := x in
    match l with None => Ok (WNull, STR arr r e (ev ++ [EvGets p])) | Some l => m <- overwrite arr 0 (l ++ [x00]) ;; Ok (WArray buf, STR m r e (ev ++ [EvGets p])) end).
Proof.
  intros arr rd eof ev. unfold call_u. change (bytes_eqb (text "fgets") (text "fgets")) with true. cbv iota. unfold with_array.
  lazy -[SetupSem.fgets Z.to_nat app overwrite w_sticky andb]. destruct (eof && w_sticky w); reflexivity.
Qed.
Lemma gets_eval : forall arr rd eof ev, cond_u file fuel w gets_cond (STR arr rd eof ev) =
  bind (call_u file fuel w (text "fgets") [WArray buf; WInt 1024; WStream (FileIn p)] (STR arr rd eof ev)) (fun x =>
    bind (bind (eval_u file fuel w (UVar (text "NULL")) (snd x)) (fun y => bind (same (fst x) (fst y)) (fun r => Ok (int_of r, snd y)))) (fun v => bind (truth_u (fst v)) (fun t => Ok (t, snd v)))).
Proof.
  intros arr rd eof ev. unfold cond_u, gets_cond.
  assert (A : eval_u file fuel w (UCall (text "fgets") [UVar buf; UNum 1024; UVar hfile]) (STR arr rd eof ev) =
    call_u file fuel w (text "fgets") [WArray buf; WInt 1024; WStream (FileIn p)] (STR arr rd eof ev)) by reflexivity.
  remember (UCall (text "fgets") [UVar buf; UNum 1024; UVar hfile]) as c eqn:C. clear C. cbn [eval_u]. rewrite A.
  destruct (call_u file fuel w (text "fgets") [WArray buf; WInt 1024; WStream (FileIn p)] (STR arr rd eof ev)) as [[x s]| | | |]; cbn [bind fst snd]; try reflexivity.
  destruct (var_u (text "NULL") s); cbn [bind fst snd]; try reflexivity. destruct (same x a) as [b| | | |]; cbn [bind fst snd]; try reflexivity.
Qed.
Lemma gets_call : forall arr rd eof ev, eof && w_sticky w = false ->
  cond_u file fuel w gets_cond (STR arr rd eof ev) =
  bind (SetupSem.fgets 1023 [] rd) (fun x => let '(l, r, e) := x in
    match l with None => Ok (true, STR arr r e (ev ++ [EvGets p])) | Some l => m <- store arr 0 (l ++ [x00]) ;; Ok (false, STR m r e (ev ++ [EvGets p])) end).
Proof.
  intros arr rd eof ev E. rewrite gets_eval, fgets_call, E. change (Z.to_nat (1024 - 1)) with 1023%nat.
  destruct (SetupSem.fgets 1023 [] rd) as [[[[l|] r] e]| | | |]; try reflexivity. cbn [bind].
  change 0 with (N.of_nat 0). rewrite overwrite_store. destruct (store arr 0 (l ++ [x00])); reflexivity.
Qed.
Lemma gets_stuck : forall arr rd ev, w_sticky w = true -> cond_u file fuel w gets_cond (STR arr rd true ev) = Ok (true, STR arr rd true (ev ++ [EvGets p])).
Proof. intros arr rd ev E. rewrite gets_eval, fgets_call, E. reflexivity. Qed.
Notation gets_loop := (while_u (cond_u file fuel w gets_cond) (block_u file fuel w sleep_block)).
Lemma stuck_loop : forall n arr rd ev, w_sticky w = true -> gets_loop n (STR arr rd true ev) = Diverge.
Proof. induction n as [|n IH]; intros arr rd ev E; [reflexivity|]. cbn [while_u]. rewrite gets_stuck by exact E. cbn [bind]. rewrite sleep_run. cbn [bind]. apply IH, E. Qed.
Lemma gets_ends : forall f n arr arr' rd eof ev l, eof && w_sticky w = false -> get_line f (w_sticky w) rd = Ok l -> (f <= n)%nat -> store arr 0 (l ++ [x00]) = Ok arr' ->
  exists m rd' eof', (m < f)%nat /\ gets_loop n (STR arr rd eof ev) = Ok (STR arr' rd' eof' (ev ++ [EvGets p] ++ rounds m [EvSleep; EvGets p])).
Proof.
  induction f as [|f IH]; intros n arr arr' rd eof ev l E G L S1; cbn [get_line] in G; [discriminate|]. destruct n as [|n]; [lia|]. cbn [while_u]. rewrite gets_call by exact E.
  pose proof (fgets_eq rd []) as F. destruct (Dest.fgets [] rd) as [[l'|] r].
  - destruct F as (r1 & e1 & ->). cbn [bind]. injection G as ->. rewrite S1. cbn [bind]. exists 0%nat, r1, e1. split; [lia|]. reflexivity.
  - destruct (w_sticky w) eqn:ES; [discriminate|]. destruct r as [|r0 r]; [discriminate|]. destruct F as [[_ F]|[-> LR]]; [discriminate|]. cbn [bind]. rewrite sleep_run. cbn [bind].
    destruct (IH n arr arr' (r0 :: r) true ((ev ++ [EvGets p]) ++ [EvSleep]) l) as (m & rd' & eof' & Lm & R); auto; [lia|].
    exists (S m), rd', eof'. split; [lia|]. rewrite R. f_equal. f_equal. rewrite <- !app_assoc. reflexivity.
Qed.
Lemma gets_waits : forall n f arr rd eof ev, eof && w_sticky w = false -> (length rd < f)%nat -> get_line f (w_sticky w) rd = Diverge -> gets_loop n (STR arr rd eof ev) = Diverge.
Proof.
  induction n as [|n IH]; intros f arr rd eof ev E L G; [reflexivity|]. destruct f as [|f]; [lia|]. cbn [get_line] in G. cbn [while_u]. rewrite gets_call by exact E.
  pose proof (fgets_eq rd []) as F. destruct (Dest.fgets [] rd) as [[l'|] r]; [discriminate|]. destruct F as [[-> ->]|[-> LR]]; [reflexivity|]. cbn [bind]. rewrite sleep_run. cbn [bind].
  destruct (w_sticky w) eqn:ES; [apply stuck_loop; exact ES|]. destruct r as [|r0 r].
  - destruct n as [|n]; [reflexivity|]. cbn [while_u]. rewrite gets_call by (rewrite ES; reflexivity). reflexivity.
  - apply (IH f); [reflexivity| |exact G]. cbn in LR |- *. lia.
Qed.


(** ** After it *)
Lemma strip_run : forall arr rd eof ev,
  exec_u file fuel w (UStore buf (UCall (text "strcspn") [UVar buf; UStr [x0a]]) (UNum 0)) (STR arr rd eof ev) =
  match strcspn_newline arr with
  | Some n => m <- store arr n [x00] ;; Ok (STR m rd eof ev)
  | None => UB UOob
  end.
Proof.
  intros arr rd eof ev.
  assert (A : eval_u file fuel w (UCall (text "strcspn") [UVar buf; UStr [x0a]]) (STR arr rd eof ev) = bind (span_without [x0a] arr) (fun n => Ok (WInt (Z.of_N n), STR arr rd eof ev)))
    by (lazy -[span_without]; reflexivity).
  remember (UCall (text "strcspn") [UVar buf; UStr [x0a]]) as c eqn:C. clear C. cbn [exec_u]. rewrite A, span_newline. destruct (strcspn_newline arr) as [n|]; [|reflexivity]. cbn [bind].
  cbn [eval_u bind]. change (find_var buf (v_arrays (STR arr rd eof ev))) with (Some arr). cbn [known bind].
  destruct (Z.ltb_spec (Z.of_N (N.of_nat n)) 0); [lia|]. rewrite N2Z.id. change (int_bytes 1 (Z.of_N 0)) with [x00]. rewrite overwrite_store. destruct (store arr n [x00]); reflexivity.
Qed.
Lemma open_run : forall arr k rd eof ev, exec_u file fuel w (USet hfile (UCall (text "fopen") [UVar hfp; UStr (text "r")])) (ST (WStr pz) WNull arr k rd eof ev) =
  Ok (ST (WStr pz) (if w_opens w p (text "r") then WStream (FileIn p) else WNull) arr k rd eof (ev ++ [EvOpen p (text "r")])).
Proof.
  intros arr k rd eof ev.
  assert (A : eval_u file fuel w (UCall (text "fopen") [UVar hfp; UStr (text "r")]) (ST (WStr pz) WNull arr k rd eof ev) =
    Ok (if w_opens w p (text "r") then WStream (FileIn p) else WNull, ST (WStr pz) WNull arr k rd eof (ev ++ [EvOpen p (text "r")]))).
  { change (eval_u file fuel w (UCall (text "fopen") [UVar hfp; UStr (text "r")]) (ST (WStr pz) WNull arr k rd eof ev)) with
      (call_u file fuel w (text "fopen") [WStr pz; WStr (text "r" ++ [x00])] (ST (WStr pz) WNull arr k rd eof ev)).
    unfold call_u. change (bytes_eqb (text "fopen") (text "fopen")) with true. cbv iota. unfold string_of, memory. cbn [bind]. rewrite pz_p. reflexivity. }
  remember (UCall (text "fopen") [UVar hfp; UStr (text "r")]) as c eqn:C. clear C. cbn [exec_u]. rewrite A. reflexivity.
Qed.
Lemma close_run : forall arr rd eof ev, exec_u file fuel w (UExpr (UCall (text "fclose") [UVar hfile])) (STR arr rd eof ev) = Ok (STR arr rd eof (ev ++ [EvClose p])).
Proof. intros. reflexivity. Qed.
Lemma unlink_run : forall arr rd eof ev, exec_u file fuel w (UExpr (UCall (text "unlink") [UVar hfp])) (STR arr rd eof ev) = Ok (STR arr rd eof (ev ++ [EvUnlink p])).
Proof. intros. lazy -[before_nul w_opens app]. rewrite pz_p. reflexivity. Qed.
Lemma while_run : forall e l s, exec_u file fuel w (UWhile e l) s = while_u (cond_u file fuel w e) (block_u file fuel w l) fuel s.
Proof. intros e l s. cbn [exec_u]. apply while_ext. intros. apply block_inner. Qed.
Lemma do_run : forall e l s, exec_u file fuel w (UDo l e) s = bind (block_u file fuel w l s) (while_u (cond_u file fuel w e) (block_u file fuel w l) fuel).
Proof. intros e l s. cbn [exec_u]. rewrite block_inner. destruct (block_u file fuel w l s); cbn [bind]; reflexivity. Qed.
Notation H0 := (fun k ev => ST (WStr pz) WNull buffer0 k (w_reads w) false ev).
Definition before_gets : list ustmt := firstn 2 handshake_block.
Lemma wait_run : forall k ev, (k < fuel)%nat -> block_u file fuel w before_gets (H0 k ev) =
  Ok (ST (WStr pz) (if w_opens w p (text "r") then WStream (FileIn p) else WNull) buffer0 0 (w_reads w) false (ev ++ rounds k [EvAccess p; EvSleep] ++ [EvAccess p; EvOpen p (text "r")])).
Proof.
  intros k ev L. cbv beta. unfold before_gets, handshake_block. cbn [firstn block_u].
  change (UNe (UCall (text "access") [UVar (text "handshake_file_path"); UNum 0]) (UNum 0)) with access_cond. change [UExpr (UCall (text "sleep") [UNum 1])] with sleep_block.
  rewrite while_run, access_loop by exact L. cbn [bind]. fold hfp hfile. rewrite open_run. cbn [bind]. rewrite <- !app_assoc. reflexivity.
Qed.
Lemma handshake_run : forall k ev b, (k < fuel)%nat -> (length (w_reads w) < fuel)%nat -> w_opens w p (text "r") = true -> handshake (w_sticky w) (w_reads w) = Ok b ->
  exists m rd eof, (m <= length (w_reads w))%nat /\ block_u file fuel w handshake_block (H0 k ev) = Ok (STR b rd eof (ev ++ handshake_events p k m)).
Proof.
  intros k ev b L LR O H. unfold handshake in H. destruct (get_line (S (length (w_reads w))) (w_sticky w) (w_reads w)) as [l| | | |] eqn:G; try discriminate H. cbn [bind] in H.
  destruct (store buffer0 0 (l ++ [x00])) as [b1| | | |] eqn:S1; try discriminate H. cbn [bind] in H.
  change handshake_block with (before_gets ++ skipn 2 handshake_block). rewrite block_app, wait_run by exact L. rewrite O. cbn [bind].
  unfold handshake_block. cbn [skipn block_u]. rewrite do_run. change [UExpr (UCall (text "sleep") [UNum 1])] with sleep_block. rewrite sleep_run. cbn [bind].
  change (UEq (UCall (text "fgets") [UVar (text "buffer"); UNum 1024; UVar (text "handshake_file")]) (UVar (text "NULL"))) with gets_cond.
  destruct (gets_ends (S (length (w_reads w))) fuel buffer0 b1 (w_reads w) false ((ev ++ rounds k [EvAccess p; EvSleep] ++ [EvAccess p; EvOpen p (text "r")]) ++ [EvSleep]) l eq_refl G LR S1)
    as (m & rd & eof & Lm & R).
  exists m, rd, eof. split; [lia|]. rewrite R. cbn [bind]. fold buf. rewrite strip_run. destruct (strcspn_newline b1) as [n|]; [|discriminate H]. rewrite H. cbn [bind].
  fold hfile hfp. rewrite close_run. cbn [bind]. rewrite unlink_run. cbn [bind]. f_equal. f_equal. unfold handshake_events. rewrite <- !app_assoc. do 2 f_equal.
Qed.
Lemma handshake_waits : forall k ev, (k < fuel)%nat -> w_opens w p (text "r") = true -> handshake (w_sticky w) (w_reads w) = Diverge ->
  block_u file fuel w handshake_block (H0 k ev) = Diverge.
Proof.
  intros k ev L O H. change handshake_block with (before_gets ++ skipn 2 handshake_block). rewrite block_app, wait_run by exact L. rewrite O. cbn [bind].
  unfold handshake_block. cbn [skipn block_u]. rewrite do_run. change [UExpr (UCall (text "sleep") [UNum 1])] with sleep_block. rewrite sleep_run. cbn [bind].
  change (UEq (UCall (text "fgets") [UVar (text "buffer"); UNum 1024; UVar (text "handshake_file")]) (UVar (text "NULL"))) with gets_cond.
  rewrite (gets_waits fuel (S (length (w_reads w)))); [reflexivity|reflexivity|lia|].
  unfold handshake in H. destruct (get_line (S (length (w_reads w))) (w_sticky w) (w_reads w)) as [l| | | |] eqn:G; try discriminate H; [|reflexivity]. exfalso. cbn [bind] in H.
  unfold store at 1 in H. destruct (0 + length (l ++ [x00]) <=? length buffer0)%nat; [|discriminate H]. cbn [bind] in H. destruct (strcspn_newline _); [|discriminate H].
  unfold store in H. destruct (_ <=? _)%nat in H; discriminate H.
Qed.
Lemma no_handshake_file : forall k ev, (k < fuel)%nat -> w_opens w p (text "r") = false -> block_u file fuel w handshake_block (H0 k ev) = UB UNull.
Proof.
  intros k ev L O. change handshake_block with (before_gets ++ skipn 2 handshake_block). rewrite block_app, wait_run by exact L. rewrite O. cbn [bind].
  unfold handshake_block. cbn [skipn block_u]. rewrite do_run. change [UExpr (UCall (text "sleep") [UNum 1])] with sleep_block. rewrite sleep_run. cbn [bind].
  destruct fuel as [|n]; [lia|]. reflexivity.
Qed.
Lemma no_access : forall k ev, (fuel <= k)%nat -> block_u file fuel w handshake_block (H0 k ev) = Diverge.
Proof.
  intros k ev L. cbv beta. unfold handshake_block. cbn [block_u].
  change (UNe (UCall (text "access") [UVar (text "handshake_file_path"); UNum 0]) (UNum 0)) with access_cond. change [UExpr (UCall (text "sleep") [UNum 1])] with sleep_block.
  rewrite while_run, access_waits by exact L. reflexivity.
Qed.
End Runs.

(** ** The log *)
Definition target (env : list byte -> option (list byte)) (b : list byte) (c : choice) : outcome dest :=
  match c with
  | ToStderr => Ok DStderr
  | ToStdout => Ok DStdout
  | ToFile p => Ok (DFile p)
  | ToEnv v => match env v with Some p => Ok (DFile p) | None => UB UNull end
  | ToBuffer => match c_string b with Some p => Ok (DFile p) | None => UB UOob end
  end.
Section Rest.
Variable file : cfile.
Variable fuel : nat.
Variable w : world.
Definition log_value (d : dest) : uval :=
  match d with DStderr => WStream StdErr | DStdout => WStream StdOut | DFile q => if w_opens w q (text "w") then WStream (FileOut q) else WNull end.

Lemma fopen_call : forall m q s, before_nul m = Ok q -> call_u file fuel w (text "fopen") [WStr m; WStr (text "w" ++ [x00])] s = Ok (log_value (DFile q), event_of (EvOpen q (text "w")) s).
Proof.
  intros m q s H. unfold call_u. change (bytes_eqb (text "fopen") (text "fopen")) with true. cbv iota. unfold string_of, memory. cbn [bind]. rewrite H. reflexivity.
Qed.
Lemma fopen_buffer : forall m q s, find_var buf (v_arrays s) = Some m -> before_nul m = Ok q ->
  call_u file fuel w (text "fopen") [WArray buf; WStr (text "w" ++ [x00])] s = Ok (log_value (DFile q), event_of (EvOpen q (text "w")) s).
Proof.
  intros m q s E H. unfold call_u. change (bytes_eqb (text "fopen") (text "fopen")) with true. cbv iota. unfold string_of, memory. rewrite E. cbn [known bind]. rewrite H. reflexivity.
Qed.
Lemma getenv_call : forall v s, ~ In x00 v -> call_u file fuel w (text "getenv") [WStr (v ++ [x00])] s = Ok (match w_env w v with Some r => WStr (r ++ [x00]) | None => WNull end, s).
Proof.
  intros v s H. unfold call_u. change (bytes_eqb (text "getenv") (text "getenv")) with true. cbv iota. unfold string_of, memory. cbn [bind]. rewrite before_nul_end by exact H. reflexivity.
Qed.
Lemma log_eval : forall g a hf b k rd eof ev, clean (w_env w) -> named g ->
  eval_u file fuel w (log_expr g) (ST a hf b k rd eof ev) =
  bind (target (w_env w) b (choice_of g)) (fun d => Ok (log_value d, ST a hf b k rd eof (ev ++ log_opened d))).
Proof.
  intros g a hf b k rd eof ev CL NM. destruct g as [| |q|v|]; cbn [log_expr choice_of target bind log_opened].
  - rewrite app_nil_r. reflexivity.
  - rewrite app_nil_r. reflexivity.
  - change (eval_u file fuel w (UCall (text "fopen") [UStr q; UStr (text "w")]) (ST a hf b k rd eof ev)) with
      (call_u file fuel w (text "fopen") [WStr (q ++ [x00]); WStr (text "w" ++ [x00])] (ST a hf b k rd eof ev)).
    rewrite (fopen_call _ q) by (apply before_nul_end; exact NM). reflexivity.
  - assert (A : eval_u file fuel w (UCall (text "getenv") [UStr v]) (ST a hf b k rd eof ev) = Ok (match w_env w v with Some r => WStr (r ++ [x00]) | None => WNull end, ST a hf b k rd eof ev)).
    { change (eval_u file fuel w (UCall (text "getenv") [UStr v]) (ST a hf b k rd eof ev)) with (call_u file fuel w (text "getenv") [WStr (v ++ [x00])] (ST a hf b k rd eof ev)). apply getenv_call. exact NM. }
    remember (UCall (text "getenv") [UStr v]) as c eqn:C. clear C. cbn [eval_u]. rewrite A. cbn [bind]. destruct (w_env w v) as [q|] eqn:E.
    + rewrite (fopen_call _ q) by (apply before_nul_end; eapply CL; exact E). reflexivity.
    + reflexivity.
  - change (eval_u file fuel w (UCall (text "fopen") [UVar (text "buffer"); UStr (text "w")]) (ST a hf b k rd eof ev)) with
      (call_u file fuel w (text "fopen") [WArray buf; WStr (text "w" ++ [x00])] (ST a hf b k rd eof ev)).
    destruct (c_string b) as [q|] eqn:E.
    + rewrite (fopen_buffer b q); [reflexivity|reflexivity|]. rewrite before_nul_string, E. reflexivity.
    + unfold call_u. change (bytes_eqb (text "fopen") (text "fopen")) with true. cbv iota. unfold string_of, memory. change (find_var buf (v_arrays (ST a hf b k rd eof ev))) with (Some b). cbn [known bind].
      rewrite before_nul_string, E. reflexivity.
Qed.

(** The state with the log. *)
Definition ST2 (a hf v l : uval) (more : list (name * uval)) (arr : list byte) (k : nat) (rd : list (list byte)) (eof : bool) (ready : list name) (ev : list event) : ustate :=
  mkU (more ++ [(hfp, a); (hfile, hf); (slock, WMutex slock); (log_var, v); (lock_var, l)]) [(buf, arr)] ready k rd eof ev.
Definition rest (g : logfile) (names : list name) (types : list tdesc) (i j : N) : list ustmt :=
  [USet log_var (log_expr g); USet lock_var (UAddr (text "__static_lock")); names_stmt names; types_stmt types;
   UExpr (UCall (text "pthread_mutex_init") [UCast (UVar lock_var); UVar (text "NULL")]);
   UExpr (UCall (text "__write_trace_header") [UVar log_var; UVar lock_var; UVar (text "names"); UNum i; UVar (text "types"); UNum j])].
Definition names_value (names : list name) : uval := match names with [] => WNull | _ => WNames names end.
Definition types_value (types : list tdesc) : uval := match types with [] => WNull | _ => WTypes types end.
Lemma set_log : forall a hf b k rd eof ev v ev' e, eval_u file fuel w e (ST a hf b k rd eof ev) = Ok (v, ST a hf b k rd eof ev') ->
  exec_u file fuel w (USet log_var e) (ST a hf b k rd eof ev) = Ok (ST2 a hf v WNull [] b k rd eof [] ev').
Proof. intros a hf b k rd eof ev v ev' e H. cbn [exec_u]. rewrite H. reflexivity. Qed.
Lemma set_lock : forall a hf v b k rd eof ev, exec_u file fuel w (USet lock_var (UAddr (text "__static_lock"))) (ST2 a hf v WNull [] b k rd eof [] ev) = Ok (ST2 a hf v (WMutex slock) [] b k rd eof [] ev).
Proof. reflexivity. Qed.
Lemma set_names : forall names a hf v l b k rd eof ev, exec_u file fuel w (names_stmt names) (ST2 a hf v l [] b k rd eof [] ev) = Ok (ST2 a hf v l [(text "names", names_value names)] b k rd eof [] ev).
Proof. destruct names; reflexivity. Qed.
Lemma set_types : forall types n a hf v l b k rd eof ev, exec_u file fuel w (types_stmt types) (ST2 a hf v l [(text "names", n)] b k rd eof [] ev) =
  Ok (ST2 a hf v l [(text "types", types_value types); (text "names", n)] b k rd eof [] ev).
Proof. destruct types; reflexivity. Qed.
Lemma set_init : forall t n a hf v b k rd eof ev,
  exec_u file fuel w (UExpr (UCall (text "pthread_mutex_init") [UCast (UVar lock_var); UVar (text "NULL")])) (ST2 a hf v (WMutex slock) [(text "types", t); (text "names", n)] b k rd eof [] ev) =
  Ok (ST2 a hf v (WMutex slock) [(text "types", t); (text "names", n)] b k rd eof [slock] (ev ++ [EvLockInit slock])).
Proof. reflexivity. Qed.
Definition out_of (v : uval) : outcome stream := match v with WStream (FileIn _) => UB UUninit | WStream f => Ok f | WNull => UB UNull | _ => UB UUninit end.
Lemma header_call : forall t n a hf v b k rd eof ev i j,
  exec_u file fuel w (UExpr (UCall (text "__write_trace_header") [UVar log_var; UVar lock_var; UVar (text "names"); UNum i; UVar (text "types"); UNum j]))
    (ST2 a hf v (WMutex slock) [(text "types", t); (text "names", n)] b k rd eof [slock] ev) =
  bind (out_of v) (fun f => bind (names_arg n) (fun ns => bind (types_arg file t) (fun ts =>
    bind (call_fun Datatypes.unit (fun _ _ => Abort) fuel file (text "__write_trace_header") [VOut; VLock; ns; VI (Z.of_N i); ts; VI (Z.of_N j)] tt) (fun acts =>
      Ok (ST2 a hf v (WMutex slock) [(text "types", t); (text "names", n)] b k rd eof [slock] (ev ++ [EvWrite f acts])))))).
Proof.
  intros t n a hf v b k rd eof ev i j. set (s := ST2 a hf v (WMutex slock) [(text "types", t); (text "names", n)] b k rd eof [slock] ev).
  assert (A : eval_u file fuel w (UCall (text "__write_trace_header") [UVar log_var; UVar lock_var; UVar (text "names"); UNum i; UVar (text "types"); UNum j]) s =
    call_u file fuel w (text "__write_trace_header") [v; WMutex slock; n; WInt (Z.of_N i); t; WInt (Z.of_N j)] s) by reflexivity.
  remember (UCall (text "__write_trace_header") [UVar log_var; UVar lock_var; UVar (text "names"); UNum i; UVar (text "types"); UNum j]) as c eqn:C. clear C. cbn [exec_u]. rewrite A.
  assert (B : call_u file fuel w (text "__write_trace_header") [v; WMutex slock; n; WInt (Z.of_N i); t; WInt (Z.of_N j)] s =
    bind (out_of v) (fun f => bind (names_arg n) (fun ns => bind (types_arg file t) (fun ts =>
      bind (call_fun Datatypes.unit (fun _ _ => Abort) fuel file (text "__write_trace_header") [VOut; VLock; ns; VI (Z.of_N i); ts; VI (Z.of_N j)] tt) (fun acts =>
        Ok (WInt 0, event_of (EvWrite f acts) s)))))).
  { unfold call_u. change (bytes_eqb (text "__write_trace_header") (text "__write_trace_header")) with true. change (is_ready slock s) with true. destruct v as [| | | |[]| | |]; reflexivity. }
  rewrite B. destruct (out_of v); try reflexivity. cbn [bind]. destruct (names_arg n); try reflexivity. cbn [bind]. destruct (types_arg file t); try reflexivity. cbn [bind].
  destruct (call_fun _ _ _ _ _ _ _); reflexivity.
Qed.

Lemma rest_run : forall g names types i j a hf b k rd eof ev, clean (w_env w) -> named g ->
  block_u file fuel w (rest g names types i j) (ST a hf b k rd eof ev) =
  bind (target (w_env w) b (choice_of g)) (fun d =>
  bind (out_of (log_value d)) (fun f => bind (names_arg (names_value names)) (fun ns => bind (types_arg file (types_value types)) (fun ts =>
    bind (call_fun Datatypes.unit (fun _ _ => Abort) fuel file (text "__write_trace_header") [VOut; VLock; ns; VI (Z.of_N i); ts; VI (Z.of_N j)] tt) (fun acts =>
      Ok (ST2 a hf (log_value d) (WMutex slock) [(text "types", types_value types); (text "names", names_value names)] b k rd eof [slock]
        (ev ++ log_opened d ++ [EvLockInit slock; EvWrite f acts]))))))).
Proof.
  intros g names types i j a hf b k rd eof ev CL NM. pose proof (log_eval g a hf b k rd eof ev CL NM) as LE. unfold rest. cbn [block_u].
  destruct (target (w_env w) b (choice_of g)) as [d| |u| |]; cbn [bind] in LE |- *.
  - rewrite (set_log _ _ _ _ _ _ _ _ _ _ LE). cbn [bind]. rewrite set_lock. cbn [bind]. rewrite set_names. cbn [bind]. rewrite set_types. cbn [bind]. rewrite set_init. cbn [bind].
    rewrite header_call. destruct (out_of (log_value d)); try reflexivity. cbn [bind]. destruct (names_arg _); try reflexivity. cbn [bind]. destruct (types_arg _ _); try reflexivity. cbn [bind].
    destruct (call_fun _ _ _ _ _ _ _); try reflexivity. cbn [bind]. rewrite <- !app_assoc. reflexivity.
  - cbn [exec_u]. rewrite LE. reflexivity.
  - cbn [exec_u]. rewrite LE. reflexivity.
  - cbn [exec_u]. rewrite LE. reflexivity.
  - cbn [exec_u]. rewrite LE. reflexivity.
Qed.

Lemma out_ok : forall d, log_opens w d -> log_value d = WStream (stream_of d) /\ out_of (log_value d) = Ok (stream_of d).
Proof. intros [| |q] H; cbn [log_value stream_of log_opens] in *; [auto|auto|]. rewrite H. auto. Qed.
Lemma out_null : forall d, ~ log_opens w d -> out_of (log_value d) = UB UNull.
Proof. intros [| |q] H; cbn [log_value log_opens] in *; [tauto|tauto|]. destruct (w_opens w q (text "w")); [congruence|reflexivity]. Qed.
Lemma names_ok : forall names, names_arg (names_value names) = Ok (names_in_memory names).
Proof. destruct names; reflexivity. Qed.

(** ** From the start *)
Lemma body_split : forall h g names types i j, setup_body h g names types i j =
  firstn 4 (first_stmts h) ++ [UIf (UVar hfp) handshake_block] ++ rest g names types i j.
Proof. reflexivity. Qed.
Lemma if_run : forall a hf b k rd eof ev, exec_u file fuel w (UIf (UVar hfp) handshake_block) (ST a hf b k rd eof ev) =
  bind (truth_u a) (fun t => if t then block_u file fuel w handshake_block (ST a hf b k rd eof ev) else Ok (ST a hf b k rd eof ev)).
Proof.
  intros a hf b k rd eof ev.
  assert (X : exec_u file fuel w (UIf (UVar hfp) handshake_block) (ST a hf b k rd eof ev) =
    bind (cond_u file fuel w (UVar hfp) (ST a hf b k rd eof ev)) (fun x => let '(t, s) := x in if t then block_u file fuel w handshake_block s else Ok s)) by reflexivity.
  rewrite X. unfold cond_u. cbn [eval_u]. change (var_u hfp (ST a hf b k rd eof ev)) with (Ok a). cbn [bind]. destruct (truth_u a); reflexivity.
Qed.
Lemma single : forall c s, block_u file fuel w [c] s = exec_u file fuel w c s.
Proof. intros c s. cbn [block_u]. destruct (exec_u file fuel w c s); reflexivity. Qed.

Variables (h : name) (g : logfile) (names : list name) (types : list tdesc) (header : list action).
Hypothesis H_clean : clean (w_env w).
Hypothesis H_named : named g.
Hypothesis H_h : ~ In x00 h.
Hypothesis H_header : exists tm, types_arg file (types_value types) = Ok tm /\
  call_fun Datatypes.unit (fun _ _ => Abort) fuel file (text "__write_trace_header") [VOut; VLock; names_in_memory names; VI (Z.of_N (lenN names)); tm; VI (Z.of_N (lenN types))] tt = Ok header.
Notation u := (setup_unit h g names types (lenN names) (lenN types)).

Lemma start_run : run_unit file fuel w u =
  bind (match w_env w h with
        | Some r => block_u file fuel w handshake_block (ST (WStr (r ++ [x00])) WNull buffer0 (w_waits w) (w_reads w) false [])
        | None => Ok (ST WNull WNull buffer0 (w_waits w) (w_reads w) false [])
        end) (fun s => bind (block_u file fuel w (rest g names types (lenN names) (lenN types)) s) (fun s =>
    Ok (mkStarted (find_var log_var (v_vars s)) (find_var lock_var (v_vars s)) (v_ready s) (v_events s)))).
Proof.
  unfold run_unit. change (u_body u) with (setup_body h g names types (lenN names) (lenN types)). rewrite body_split, !block_app.
  change (ustate0 w u) with (mkU [(log_var, WNull); (lock_var, WNull)] [] [] (w_waits w) (w_reads w) false []).
  rewrite (first_run file fuel w h (w_env w h)) by (reflexivity || (apply before_nul_end; exact H_h)). cbn [bind]. rewrite block_app, single, if_run.
  destruct (w_env w h) as [r|]; cbn [truth_u bind]; [|reflexivity]. destruct (block_u file fuel w handshake_block _); reflexivity.
Qed.
Lemma rest_ok : forall a hf b k rd eof ev d, target (w_env w) b (choice_of g) = Ok d -> log_opens w d ->
  bind (block_u file fuel w (rest g names types (lenN names) (lenN types)) (ST a hf b k rd eof ev)) (fun s =>
    Ok (mkStarted (find_var log_var (v_vars s)) (find_var lock_var (v_vars s)) (v_ready s) (v_events s))) =
  Ok (mkStarted (Some (WStream (stream_of d))) (Some (WMutex slock)) [slock] (ev ++ log_opened d ++ [EvLockInit slock; EvWrite (stream_of d) header])).
Proof.
  intros a hf b k rd eof ev d T O. rewrite rest_run by assumption. rewrite T. cbn [bind]. destruct (out_ok d O) as [E1 E2]. rewrite E2. cbn [bind]. rewrite names_ok. cbn [bind].
  destruct H_header as (tm & TA & CF). rewrite TA. cbn [bind]. rewrite CF. cbn [bind]. rewrite E1. reflexivity.
Qed.

Lemma run_ok : forall d, (w_waits w < fuel)%nat -> (length (w_reads w) < fuel)%nat -> handshake_opens w h ->
  bi_setup (w_env w) h (w_sticky w) (w_reads w) (choice_of g) = Ok d -> log_opens w d ->
  exists m, (m <= length (w_reads w))%nat /\ run_unit file fuel w u = Ok (started_right w h d header m).
Proof.
  intros d LW LR HO B LO. rewrite start_run. unfold bi_setup in B. unfold started_right, handshake_part. destruct (w_env w h) as [p|] eqn:E.
  - destruct (handshake (w_sticky w) (w_reads w)) as [b| | | |] eqn:HS; try discriminate B. cbn [bind] in B.
    assert (PZ : before_nul (p ++ [x00]) = Ok p) by (apply before_nul_end; eapply H_clean; exact E).
    destruct (handshake_run file fuel w p _ PZ (w_waits w) [] b LW LR (HO p E) HS) as (m & rd & eof & Lm & R).
    exists m. split; [exact Lm|]. rewrite R. cbn [bind]. rewrite (rest_ok _ _ _ _ _ _ _ d B LO). reflexivity.
  - cbn [bind] in B. exists 0%nat. split; [lia|]. cbn [bind]. rewrite (rest_ok _ _ buffer0 _ _ _ _ d B LO). reflexivity.
Qed.
Lemma run_unopened : forall d, (w_waits w < fuel)%nat -> (length (w_reads w) < fuel)%nat -> handshake_opens w h ->
  bi_setup (w_env w) h (w_sticky w) (w_reads w) (choice_of g) = Ok d -> ~ log_opens w d -> run_unit file fuel w u = UB UNull.
Proof.
  intros d LW LR HO B LO. rewrite start_run. unfold bi_setup in B. destruct (w_env w h) as [p|] eqn:E.
  - destruct (handshake (w_sticky w) (w_reads w)) as [b| | | |] eqn:HS; try discriminate B. cbn [bind] in B.
    assert (PZ : before_nul (p ++ [x00]) = Ok p) by (apply before_nul_end; eapply H_clean; exact E).
    destruct (handshake_run file fuel w p _ PZ (w_waits w) [] b LW LR (HO p E) HS) as (m & rd & eof & Lm & R).
    rewrite R. cbn [bind]. rewrite rest_run by assumption. fold (target (w_env w) b (choice_of g)) in B. rewrite B. cbn [bind]. rewrite out_null by exact LO. reflexivity.
  - cbn [bind] in B |- *. rewrite rest_run by assumption. fold (target (w_env w) buffer0 (choice_of g)) in B. rewrite B. cbn [bind]. rewrite out_null by exact LO. reflexivity.
Qed.
Lemma run_no_handshake_file : forall p, (w_waits w < fuel)%nat -> w_env w h = Some p -> w_opens w p (text "r") = false -> run_unit file fuel w u = UB UNull.
Proof.
  intros p LW E O. rewrite start_run, E. assert (PZ : before_nul (p ++ [x00]) = Ok p) by (apply before_nul_end; eapply H_clean; exact E).
  rewrite (no_handshake_file file fuel w p _ PZ) by assumption. reflexivity.
Qed.
Lemma run_waits : forall p, w_env w h = Some p -> (fuel <= w_waits w)%nat -> run_unit file fuel w u = Diverge.
Proof.
  intros p E L. rewrite start_run, E. assert (PZ : before_nul (p ++ [x00]) = Ok p) by (apply before_nul_end; eapply H_clean; exact E).
  rewrite (no_access file fuel w p _ PZ) by exact L. reflexivity.
Qed.
Lemma run_same : (w_waits w < fuel)%nat -> (length (w_reads w) < fuel)%nat -> handshake_opens w h ->
  (handshake (w_sticky w) (w_reads w) = Diverge \/ exists b, handshake (w_sticky w) (w_reads w) = Ok b) ->
  (bi_setup (w_env w) h (w_sticky w) (w_reads w) (choice_of g) = Diverge -> run_unit file fuel w u = Diverge) /\
  (forall x, bi_setup (w_env w) h (w_sticky w) (w_reads w) (choice_of g) = UB x -> run_unit file fuel w u = UB x).
Proof.
  intros LW LR HO HB. rewrite start_run. unfold bi_setup. destruct (w_env w h) as [p|] eqn:E.
  - assert (PZ : before_nul (p ++ [x00]) = Ok p) by (apply before_nul_end; eapply H_clean; exact E). destruct HB as [HB|[b HB]]; rewrite HB; cbn [bind].
    + rewrite (handshake_waits file fuel w p _ PZ) by auto. cbn [bind]. split; [reflexivity|discriminate].
    + destruct (handshake_run file fuel w p _ PZ (w_waits w) [] b LW LR (HO p E) HB) as (m & rd & eof & Lm & R). rewrite R. cbn [bind].
      fold (target (w_env w) b (choice_of g)). rewrite rest_run by assumption. split; [|intros x]; intros T; rewrite T; reflexivity.
  - cbn [bind]. fold (target (w_env w) buffer0 (choice_of g)). rewrite rest_run by assumption. split; [|intros x]; intros T; rewrite T; reflexivity.
Qed.
End Rest.
