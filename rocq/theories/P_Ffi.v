(** Property C76: Lisp and the library agree on the foreign interface. *)
From Coq Require Import Strings.String.
From Verif Require Import Base BaseProofs Types Compare Predicate Query CApi Lisp Ffi FfiSpec FfiProofs FfiProofs2 FfiProofs3.
Local Open Scope string_scope.
Local Open Scope N_scope.

(** If memory holds an array of points as the library lays them out, the Lisp client,
    which reads the same bytes with its own declarations, obtains these points. *)
Theorem C76_read : forall names m a xs,
  c_points_at m a xs ->
  l_read_points names m a (length xs) = mapO (expand_point names) xs.
Proof. exact l_points_ok. Qed.
Print Assumptions C76_read.

(** Points which the library writes into blocks from any allocator reach Lisp
    unchanged, provided they fit and the memory does not exceed the address space. *)
Theorem C76_written : forall room names xs p a p',
  Forall fits_point xs -> c_points_array room xs p = (a, p') -> pr_brk p' < two64 ->
  l_read_points names (pr_mem p') a (length xs) = mapO (expand_point names) xs.
Proof. intros room names xs p a p' Hf H Hb. apply l_points_ok. now apply (points_written room xs p a p'). Qed.
Print Assumptions C76_written.

(** A predicate which Lisp writes is the predicate the library reads. *)
Theorem C76_predicate : forall room c p a p' fuel,
  match c with Some c => fits_pred c | None => True end ->
  l_put_predicate room c p = (a, p') -> pr_brk p' < two64 -> (depth_opt c <= fuel)%nat ->
  c_read_predicate fuel (pr_mem p') a = Some c.
Proof. exact predicate_written. Qed.
Print Assumptions C76_predicate.

(** In particular every predicate that Lisp compiles from an expression. *)
Theorem C76_compiled : forall room vars e c p a p',
  lenN vars < two64 -> sexp_fits e -> build vars e = Ok c ->
  l_put_predicate room (Some c) p = (a, p') -> pr_brk p' < two64 ->
  c_read_predicate (depth c) (pr_mem p') a = Some (Some c).
Proof.
  intros room vars e c p a p' Hv He Hc H Hb.
  apply (predicate_written room (Some c) p a p'); [now apply (build_fits vars e)|exact H|exact Hb|apply le_n].
Qed.
Print Assumptions C76_compiled.

(** The allowed types of the free variables arrive as Lisp wrote them. *)
Theorem C76_free_variables : forall room ts p a p',
  l_put_free room ts p = (a, p') ->
  Forall (fun us => lenN us < two32 /\ Forall (fun u => u < two32) us) ts -> pr_brk p' < two64 ->
  c_read_free (pr_mem p') a (length ts) = ts.
Proof. exact free_written. Qed.
Print Assumptions C76_free_variables.

(** Arguments that Lisp accepts and that are not negative arrive unchanged, whatever the
    unspecified bytes of the registers contain. *)
Theorem C76_calls : forall f args junk r,
  call_args f args junk = Ok r -> Forall (fun z => (0 <= z)%Z) args -> r = args.
Proof. exact calls_ok. Qed.
Print Assumptions C76_calls.

(** For every function but add_trace, Lisp accepts all arguments of the C types. *)
Theorem C76_accepts : forall f ct cr args junk,
  f <> "add_trace" -> find_sig c_functions f = Some (ct, cr) -> in_ranges ct args ->
  exists r, call_args f args junk = Ok r.
Proof. exact accepts_ok. Qed.
Print Assumptions C76_accepts.

(** Results of the C type arrive unchanged. *)
Theorem C76_results : forall f ct cr z junk,
  find_sig c_functions f = Some (ct, Some cr) -> in_range cr z = true -> call_result f z junk = Some z.
Proof. exact results_ok. Qed.
Print Assumptions C76_results.

(** The enumerations: the names correspond, in the same order. *)
Theorem C76_enums :
  l_type_format = map lisp_name c_type_format /\ l_predicate_kind = map lisp_name c_predicate_kind.
Proof. split; reflexivity. Qed.
Print Assumptions C76_enums.

(** The structures: each field of one side has the name, the place and the width of the
    field of the other. *)
Theorem C76_structures : forall c l,
  In (c, l) [(c_var_info, l_var_info); (c_trace_point, l_trace_point); (c_predicate, l_predicate);
             (c_free_variable, l_free_variable)] ->
  sizeof l = sizeof c /\
  Forall2 (fun x y => fst y = lisp_name (fst x) /\ fst (snd y) = fst (snd x) /\ size (snd (snd y)) = size (snd (snd x)))
    (layout 0 c) (layout 0 l).
Proof.
  intros c l H. cbn [In] in H.
  repeat (destruct H as [H|H]; [injection H as <- <-; split; [reflexivity|repeat constructor]|]). destruct H.
Qed.
Print Assumptions C76_structures.

(** add_trace takes a timeout of type uint32_t, as read_trace does, but Lisp declares it
    as int: a timeout of 2^31 or more is accepted for reading a trace and refused for
    adding one. *)
Theorem C76_timeout_refuted : forall db file t max junk,
  (2 ^ 31 <= t < 2 ^ 32)%Z -> in_range TPtr db = true -> in_range TPtr file = true -> in_range TU64 max = true ->
  call_args "read_trace" [file; t; max] junk = Ok [file; t; max] /\
  in_ranges [TPtr; TPtr; TU32; TU64] [db; file; t; max] /\
  call_args "add_trace" [db; file; t; max] junk = Throw ELisp.
Proof.
  intros db file t max junk Ht Hd Hf Hm.
  assert (H32 : in_range TU32 t = true).
  { unfold in_range. cbn [signed]. change (modulus TU32) with 4294967296%Z.
    apply andb_true_iff. split; [apply Z.leb_le|apply Z.ltb_lt]; lia. }
  assert (Hpos : forall u z, signed u = false -> in_range u z = true -> (0 <= z)%Z).
  { intros u z Hu Hz. unfold in_range in Hz. rewrite Hu in Hz. apply andb_true_iff in Hz. now apply Z.leb_le. }
  split; [|split; [repeat split; assumption|]].
  - destruct (accepts_ok "read_trace" [TPtr; TU32; TU64] (Some TPtr) [file; t; max] junk) as [r Hr];
      [discriminate|reflexivity|repeat split; assumption|].
    rewrite Hr. f_equal. eapply calls_ok; [exact Hr|].
    repeat constructor; [apply (Hpos TPtr)|lia|apply (Hpos TU64)]; auto.
  - unfold call_args. cbn [find_sig l_functions c_functions String.eqb Ascii.eqb Bool.eqb length].
    assert (E : in_range TI32 t = false).
    { unfold in_range. cbn [signed]. change (modulus TI32 / 2)%Z with 2147483648%Z.
      apply andb_false_iff. right. apply Z.ltb_ge. lia. }
    cbn [combine forallb fst snd]. rewrite E, Hd, Hf. reflexivity.
Qed.
Print Assumptions C76_timeout_refuted.

(** ** Examples *)
Definition ex_room (b : N) : N := 4000 + b mod 7.
Definition ex_points : list ipoint :=
  [mkIP 4294967298 [mkCV (VBits 18446744073709551615) SIGNED 0 1 4 0 0; mkCV (VBlob [x68; x69; x00]%byte) BLOB 1 0 3 16 1] [7; 8];
   mkIP 3 [] []].
Example C76_written_ex : exists a p',
  c_points_array ex_room ex_points (mkProc (fun _ => xaa%byte) 99) = (a, p') /\ Forall fits_point ex_points /\ pr_brk p' < two64 /\
  l_read_points [[x78]; [x79]] (pr_mem p') a 2 = mapO (expand_point [[x78]; [x79]]) ex_points /\
  exists l, mapO (expand_point [[x78]; [x79]]) ex_points = Ok l.
Proof.
  eexists. eexists. split; [reflexivity|]. split.
  - repeat constructor; vm_compute; intuition discriminate.
  - split; [vm_compute; reflexivity|]. split; [vm_compute; reflexivity|]. eexists. vm_compute. reflexivity.
Qed.

(** (and (> v -3) (= 2 v)) *)
Definition ex_sexp : sexp := SList OAnd [SList OGt [SSym 5; SInt (-3)]; SList OEq [SInt 2; SSym 6]].
Example C76_predicate_ex : exists c a p',
  build [5; 6] ex_sexp = Ok c /\ sexp_fits ex_sexp /\ fits_pred c /\ depth c = 3%nat /\
  l_put_predicate ex_room (Some c) (mkProc (fun _ => xaa%byte) 99) = (a, p') /\ pr_brk p' < two64 /\
  c_read_predicate 3 (pr_mem p') a = Some (Some c).
Proof.
  eexists. eexists. eexists. split; [reflexivity|]. split; [vm_compute; intuition reflexivity|]. split.
  - apply (build_fits [5; 6] ex_sexp); [reflexivity|vm_compute; intuition reflexivity|reflexivity].
  - split; [reflexivity|]. split; [reflexivity|]. split; vm_compute; reflexivity.
Qed.

Example C76_free_ex : exists a p', l_put_free ex_room [[1; 2]; []; [4294967295]] (mkProc (fun _ => xaa%byte) 99) = (a, p') /\
  pr_brk p' < two64 /\ c_read_free (pr_mem p') a 3 = [[1; 2]; []; [4294967295]].
Proof. eexists. eexists. split; [reflexivity|]. split; vm_compute; reflexivity. Qed.

Example C76_calls_ex : forall junk,
  call_args "get_trace" [140737488355328; 4294967295]%Z junk = Ok [140737488355328; 4294967295]%Z.
Proof.
  intros. destruct (accepts_ok "get_trace" [TPtr; TU32] (Some TPtr) [140737488355328; 4294967295]%Z junk) as [r Hr];
    [discriminate|reflexivity|repeat split; reflexivity|].
  rewrite Hr. f_equal. eapply calls_ok; [exact Hr|]. repeat constructor; lia.
Qed.
Example C76_results_ex : call_result "add_trace" 1 [] = Some 1%Z /\ call_result "n_traces" 4294967295 [] = Some 4294967295%Z.
Proof. split; vm_compute; reflexivity. Qed.
Example C76_timeout_ex : forall junk, call_args "add_trace" [1; 2; 2147483648; 0]%Z junk = Throw ELisp.
Proof. intros. vm_compute. reflexivity. Qed.
