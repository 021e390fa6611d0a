(** Property C88: programs that log the sizes of their buffers
    (instrumentation/c-cpp.lisp, __write_buffer_size), and reading their logs. *)
From Coq Require Import Strings.String Permutation.
From Verif Require Import BaseProofs Types Stream SkipList AMap MemMapSpec Reader Compare PrintPred FormatSpec ReaderMore ReaderProps.
From Verif Require Import Instr InstrRun InstrSpec InstrText InstrTable InstrConc InstrProofs InstrEnd InstrReq InstrSize InstrSizeSpec InstrSizeProofs.

Ltac crunch := vm_compute; reflexivity.

(** The program of the examples: one place logs that the buffer at p has n
    bytes, and then p; another one logs the pointers p and q. *)
Definition s_ptr := mkC [DPointer] [mkSpec KOther (text "int")].
Definition s_kf (_ : name) : skind := KOther.
Definition s_sites : list xsite :=
  [(5, [XVars (false, [(text "p", s_ptr)]); XBuf (text "p") (text "n"); XVars (false, [(text "p", s_ptr)])]);
   (6, [XVars (false, [(text "p", s_ptr); (text "q", s_ptr)])])].
Definition s_env (p q n : Z) (x : name) : rvalue :=
  if bytes_eqb x (text "p") then RPtr (Z.to_N p) [] else if bytes_eqb x (text "q") then RPtr (Z.to_N q) [] else RInt n.
Definition s_names : list name := [text "*int"; text "p"; text "q"].
Definition s_types : list tdesc := [mkT 0 POINTER 8].
Definition s_code : list (list xstmt) := Eval vm_compute in fst (x_all equal_test s_sites istate0).

(** C88.  Several threads pass places that log variables and buffer sizes.  Once
    they have finished, whatever the schedule, reading the log yields the passes
    in an order that respects each thread's order; each point has the sizes
    logged in that pass, and each pointer variable has what is left of its buffer
    according to the sizes logged before it, in that order, by any thread. *)
Theorem C88_read_back : forall test kf sites names types code,
  Forall (site_ok kf) (map plain sites) -> tells_apart test (all_texts (map plain sites)) ->
  xinstrumented test sites names types code -> fits names types ->
  forall ths, Forall (Forall (xevent_ok sites)) ths ->
  exists acts, Forall2 (Forall2 (fun e a => xevent_run code e = Ok a)) ths acts /\
    forall s, rsteps (rstart names types (map (@concat action) acts)) s -> Forall (eq []) (r_threads s) ->
    forall ok coins pos t, (forall n, n <= lenN (r_out s) -> ok n = true) ->
    exists order tr, merge ths order /\ reads ok coins pos t 0 (r_out s) = Ok tr /\
      tr_names tr = names /\ tr_types tr = types /\ xpoints_show sites tr [] order (tr_points tr) /\
      (order <> [] -> r_disk s = lenN (r_out s)).
Proof. intros test kf sites names types code S T. exact (x_end test kf sites S T names types code). Qed.
Print Assumptions C88_read_back.

Lemma s_events_ok : forall p q n, (0 <= p < 2 ^ 60)%Z -> (0 <= q < 2 ^ 60)%Z -> (0 <= n < 2 ^ 60)%Z ->
  xevent_ok s_sites (0%nat, s_env p q n) /\ xevent_ok s_sites (1%nat, s_env p q n).
Proof.
  intros p q n Hp Hq Hn.
  assert (Vp : s_env p q n (text "p") = RPtr (Z.to_N p) []) by reflexivity.
  assert (Vq : s_env p q n (text "q") = RPtr (Z.to_N q) []) by reflexivity.
  assert (Vn : s_env p q n (text "n") = RInt n) by reflexivity.
  assert (LG : forall z, (0 <= z < 2 ^ 60)%Z -> forall k, has_kind s_ptr k -> loggable k (RPtr (Z.to_N z) [])).
  { intros z Hz k HK. apply has_kind_fn in HK. assert (E : kind_fn s_ptr = Some CPointer) by crunch. rewrite E in HK. injection HK as <-.
    split; [|exact I]. cbn [inhabits]. change (2 ^ 64) with (Z.to_N (2 ^ 64)). apply Z2N.inj_lt; lia. }
  split; eexists; (split; [reflexivity|split]).
  - unfold env_ok. cbn [plain snd fst flat_map app].
    repeat (apply Forall_cons || apply Forall_nil); cbn [snd fst]; rewrite Vp; apply LG; auto.
  - cbn [snd]. apply Forall_cons; [exact I|]. apply Forall_cons; [|apply Forall_cons; [exact I|apply Forall_nil]]. cbn [snd].
    exists (Z.to_N p), [], n. repeat match goal with |- _ /\ _ => split end; auto; lia.
  - unfold env_ok. cbn [plain snd fst flat_map app].
    repeat (apply Forall_cons || apply Forall_nil); cbn [snd fst]; rewrite ?Vp, ?Vq; apply LG; auto.
  - cbn [snd]. repeat (apply Forall_cons || apply Forall_nil); auto.
Qed.

Example C88_hyps : Forall (site_ok s_kf) (map plain s_sites) /\ tells_apart equal_test (all_texts (map plain s_sites)) /\
  xinstrumented equal_test s_sites s_names s_types s_code /\ fits s_names s_types /\
  Forall (Forall (xevent_ok s_sites)) [[(0%nat, s_env 4096 0 16); (1%nat, s_env 4096 4100 0)]; [(1%nat, s_env 4111 4112 0); (0%nat, s_env 4096 0 0)]].
Proof.
  split; [|split; [apply equal_tells|split; [|split; [split; [|split]; crunch|]]]].
  - assert (W : forall s, forallb word_char (text s) = true -> text s <> [] -> word (text s)) by (split; auto).
    assert (T : type_ok s_kf s_ptr) by (repeat constructor; try (intro H; discriminate H); try crunch; intro H; vm_compute in H; discriminate H).
    assert (NF : forall l, existsb (Byte.eqb x00) l = false -> nul_free l).
    { intros l E H. assert (X : existsb (Byte.eqb x00) l = true) by (apply existsb_exists; exists x00; split; [auto|reflexivity]). congruence. }
    constructor; [|constructor; [|constructor]]; (split; [reflexivity|split; [|split]]).
    + repeat (constructor; [apply NF; crunch|]). constructor.
    + repeat (constructor; [assumption|]). constructor.
    + repeat (constructor; [intro X; discriminate X|]). constructor.
    + repeat (constructor; [apply NF; crunch|]). constructor.
    + repeat (constructor; [assumption|]). constructor.
    + repeat (constructor; [intro X; discriminate X|]). constructor.
  - do 3 eexists. split; [crunch|]. split; [apply Permutation_refl|]. split; [apply Permutation_refl|]. split; crunch.
  - repeat (apply Forall_cons || apply Forall_nil); apply s_events_ok; lia.
Qed.

(** The value logged before the size has none, the others have the rest of the
    buffer; after the size 0 is logged the pointers have none. *)
Example C88_ex : exists a b c d tr,
  xevent_run s_code (0%nat, s_env 4096 0 16) = Ok a /\ xevent_run s_code (1%nat, s_env 4100 4112 0) = Ok b /\
  xevent_run s_code (0%nat, s_env 4096 0 0) = Ok c /\ xevent_run s_code (1%nat, s_env 4100 4112 0) = Ok d /\
  (forall coins pos t, reads (fun _ => true) coins pos t 0 (written (write_trace_header s_names s_types) ++ written a ++ written b ++ written c ++ written d) = Ok tr) /\
  tr_points tr = [mkP 0 (Some 5) [mkB 4096 16] [mkV (VBits 4096) 1 0 POINTER 8 0 0; mkV (VBits 4096) 1 0 POINTER 8 16 1] [];
                  mkP 1 (Some 6) [] [mkV (VBits 4100) 1 0 POINTER 8 12 1; mkV (VBits 4112) 2 0 POINTER 8 0 1] [];
                  mkP 2 (Some 5) [mkB 4096 0] [mkV (VBits 4096) 1 0 POINTER 8 16 1; mkV (VBits 4096) 1 0 POINTER 8 0 0] [];
                  mkP 3 (Some 6) [] [mkV (VBits 4100) 1 0 POINTER 8 0 0; mkV (VBits 4112) 2 0 POINTER 8 0 0] []].
Proof.
  do 4 eexists. exists (mkTr s_names s_types [mkP 0 (Some 5) [mkB 4096 16] [mkV (VBits 4096) 1 0 POINTER 8 0 0; mkV (VBits 4096) 1 0 POINTER 8 16 1] [];
                  mkP 1 (Some 6) [] [mkV (VBits 4100) 1 0 POINTER 8 12 1; mkV (VBits 4112) 2 0 POINTER 8 0 1] [];
                  mkP 2 (Some 5) [mkB 4096 0] [mkV (VBits 4096) 1 0 POINTER 8 16 1; mkV (VBits 4096) 1 0 POINTER 8 0 0] [];
                  mkP 3 (Some 6) [] [mkV (VBits 4100) 1 0 POINTER 8 0 0; mkV (VBits 4112) 2 0 POINTER 8 0 0] []]).
  split; [crunch|]. split; [crunch|]. split; [crunch|]. split; [crunch|]. split; [|reflexivity].
  intros. unfold reads. rewrite read_trace_transfer. destruct t; crunch.
Qed.

(** If the sizes logged before a pass are those of the program's buffers [b]
    (allocations logged with their size, frees with size 0), then in the trace a
    pointer into a buffer has the number of bytes from it to the buffer's end, a
    pointer to just after a buffer (and into no other) has 0 bytes, and a pointer
    outside of all buffers has no size.  The place logs only variables. *)
Theorem C88_sizes : forall sites tr order, xpoints_show sites tr [] order (tr_points tr) ->
  forall i k env id g p b, nth_error order i = Some (k, env) -> nth_error (tr_points tr) i = Some p ->
  nth_error sites k = Some (id, [XVars g]) -> kept (sizes_of sites (firstn i order)) b ->
  forall x a, In x (p_vars p) -> v_fmt x = POINTER -> v_val x = VBits a -> a < 2 ^ 64 - 1 ->
  (forall y v, In (y, v) b -> y <= a < y + v -> v_has x = 1 /\ v_bsz x = y + v - a) /\
  (forall y v, In (y, v) b -> a = y + v -> (forall y' v', In (y', v') b -> ~ (y' <= a < y' + v')) -> v_has x = 1 /\ v_bsz x = 0) /\
  ((forall y v, In (y, v) b -> ~ (y <= a <= y + v)) -> v_has x = 0 /\ v_bsz x = 0).
Proof. exact sizes_lemma. Qed.
Print Assumptions C88_sizes.

(** Two buffers, one freed and allocated again with another size. *)
Example C88_sizes_hyps : kept (sizes_of s_sites [(0%nat, s_env 4096 0 16); (0%nat, s_env 8192 0 8); (0%nat, s_env 4096 0 0); (0%nat, s_env 4096 0 32)])
  [(4096, 32); (8192, 8)].
Proof.
  split; [|split].
  - intros k v. unfold live, last_size.
    assert (E : sizes_of s_sites [(0%nat, s_env 4096 0 16); (0%nat, s_env 8192 0 8); (0%nat, s_env 4096 0 0); (0%nat, s_env 4096 0 32)] = [(4096, 16); (8192, 8); (4096, 0); (4096, 32)]) by crunch.
    rewrite E. cbn [last_size In].
    repeat match goal with |- context [4096 =? k] => destruct (N.eqb_spec 4096 k); [subst k|] | |- context [8192 =? k] => destruct (N.eqb_spec 8192 k); [subst k|] end;
      cbn; intuition (try discriminate; try congruence; try lia).
  - intros k v [E|[E|[]]]; injection E as <- <-; lia.
  - intros k v k' v' [E|[E|[]]] [E'|[E'|[]]]; injection E as <- <-; injection E' as <- <-; lia.
Qed.
