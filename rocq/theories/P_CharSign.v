(** C106: variables of type char and wchar_t, whichever signedness the compiler gives them. *)
From Coq Require Import Strings.String Permutation.
From Verif Require Import BaseProofs Types Stream SkipList MemMapSpec Reader Compare PrintPred FormatSpec ReaderMore ReaderProps.
From Verif Require Import Instr InstrRun InstrSpec InstrText InstrTable InstrConc InstrProofs InstrEnd InstrReq CharSign CharSignProofs P_Instr.

(** Logs of programs on such machines are read, with all variables; those of a type that
    the instrumenter takes for signed have the value [shown]. *)
Theorem C106_log_read_back : forall cu wu test kf sites names types code,
  Forall (site_ok kf) sites -> tells_apart test (all_texts sites) ->
  instrumented test sites names types code -> fits names types ->
  forall ths, Forall (Forall (event_on cu wu sites)) ths ->
  exists acts, Forall2 (Forall2 (fun e a => event_run code e = Ok a)) ths acts /\
    forall s, rsteps (rstart names types (map (@concat action) acts)) s -> Forall (eq []) (r_threads s) ->
    forall ok coins pos t, (forall n, n <= lenN (r_out s) -> ok n = true) ->
    exists order tr, merge ths order /\ read_trace ok (skip_map coins pos) 0 (open_stream (r_out s) t) = Ok tr /\
      tr_names tr = names /\ tr_types tr = types /\ Forall2 (event_shows_on cu wu sites tr) order (tr_points tr).
Proof. intros cu wu test kf sites names types code S T I F. exact (log_on cu wu test kf sites names types code S T I F). Qed.
Print Assumptions C106_log_read_back.

(** That is the value of the variable if it is in the lower half of its type (for char:
    below 128, so for all ASCII characters), and for all variables of other types. *)
Theorem C106_small : forall cu wu sites e tr p s, nth_error sites (fst e) = Some s ->
  Forall (fun x => forall n, mistaken cu wu (snd x) = Some n -> exists z, snd e (fst x) = RInt z /\ (z < 2 ^ (8 * Z.of_N n - 1))%Z) (variables s) ->
  event_shows_on cu wu sites tr e p -> event_shows sites tr e p.
Proof.
  intros cu wu sites e tr p s N V (s' & N' & A1 & A2 & A3 & l & A4 & A5). rewrite N in N'. injection N' as <-. exists s. split; [exact N|]. repeat split; auto. exists l. split; [exact A4|].
  pose proof (site_in _ _ A4) as SI. clear A4. induction A5 as [|y x l m H F IH]; constructor.
  - rewrite Forall_forall in V. specialize (V _ (SI _ (or_introl eq_refl))). cbn [fst snd] in V. unfold shown in H. destruct (mistaken cu wu (snd y)) as [n|]; [|exact H].
    destruct (V n eq_refl) as (z & E & L). rewrite E in *. apply Z.ltb_lt in L. rewrite L in H. exact H.
  - apply IH. intros z I. apply SI. now right.
Qed.
Print Assumptions C106_small.

(** A variable of a mistaken type whose value is in the upper half is shown with another
    value, in every trace. *)
Theorem C106_upper_refuted : forall cu wu n t z tr ps name x, mistaken cu wu t = Some n -> (2 ^ (8 * Z.of_N n - 1) <= z < 2 ^ (8 * Z.of_N n))%Z ->
  var_shows tr ps name t (shown cu wu t (RInt z)) x ->
  exists u, v_fmt x = SIGNED /\ v_size x = n /\ v_val x = VBits u /\ s64 u = (z - 2 ^ (8 * Z.of_N n))%Z /\ s64 u <> z.
Proof.
  intros cu wu n t z tr ps name x M R (_ & _ & k & K & S). destruct (mistaken_kind _ _ _ _ M) as (F & N4 & _). apply has_kind_fn in K. rewrite F in K. injection K as <-.
  unfold shown in S. rewrite M in S. destruct (Z.ltb_spec z (2 ^ (8 * Z.of_N n - 1))) as [L|_]; [lia|].
  inversion S as [n' z' u U1 U2| | | | | |]; subst; exists u; repeat split; auto; rewrite U2; destruct N4 as [-> | ->]; cbn; lia.
Qed.
Print Assumptions C106_upper_refuted.

(** A program with one place and [char c]: every value from 128 to 255 of [c] is read as
    a negative number where char is unsigned. *)
Definition t_char := mkC [] [mkSpec KOther (text "char")].
Definition c106_sites : list site := [(3, [(false, [(text "c", t_char)])])].
Definition c106_names : list name := [text "char"; text "c"].
Definition c106_types : list tdesc := [mkT 0 SIGNED 1].
Definition c106_code : list (list istmt) := [[IId 3; IVars [mkVA 1 0 1 SIGNED (text "c")]; IEnd]].

Lemma c106_program : Forall (site_ok ex_kf) c106_sites /\ tells_apart equal_test (all_texts c106_sites) /\
  instrumented equal_test c106_sites c106_names c106_types c106_code /\ fits c106_names c106_types.
Proof.
  split; [|split; [apply equal_tells|split]].
  - constructor; [|constructor]. split; [reflexivity|]. split; [|split].
    + constructor; [|constructor]. intro H. vm_compute in H. intuition discriminate.
    + constructor; [|constructor]. split; [discriminate|]. constructor; [|constructor]. split; [split; first [crunch | intro X; vm_compute in X; discriminate X]|crunch].
    + constructor; [intro H; discriminate H|constructor].
  - do 3 eexists. split; [crunch|]. split; [apply Permutation_refl|]. split; [apply Permutation_refl|]. split; crunch.
  - repeat split.
Qed.
Lemma c106_event : forall z, (0 <= z < 256)%Z -> event_on true false c106_sites (0%nat, fun _ => RInt z).
Proof.
  intros z R. exists (3, [(false, [(text "c", t_char)])]). split; [reflexivity|]. split.
  - intros n t t' [A|[]] [B|[]]. congruence.
  - constructor; [|constructor]. exists z. split; [reflexivity|]. exact R.
Qed.
Lemma c106_vars : forall l, site_vars [(false, [(text "c", t_char)])] l -> l = [(false, text "c", t_char)].
Proof.
  assert (K : kind_fn t_char = Some (CInt true 1)) by crunch.
  assert (H : forall k, has_kind t_char k -> k = CInt true 1) by (intros k X; apply has_kind_fn in X; congruence).
  assert (HK : has_kind t_char (CInt true 1)) by (apply has_kind_fn; exact K).
  intros l S. inversion S as [|ps l0 a b gs r A B S']; subst. inversion S'; subst. rewrite app_nil_r.
  assert (EA : a = [(text "c", t_char)]).
  { inversion A as [|n t k l1 r1 X1 X2 X3 X4|n t k l1 r1 X1 X2 X3|n t l1 r1 X1 X2]; subst.
    - inversion X4; subst. reflexivity.
    - discriminate.
    - destruct (X1 _ HK) as [X _]. discriminate X. }
  assert (EB : b = []).
  { inversion B as [|n t k l1 r1 X1 X2 X3 X4|n t k l1 r1 X1 X2 X3|n t l1 r1 X1 X2]; subst.
    - discriminate.
    - inversion X3; subst. reflexivity.
    - inversion X2; subst. reflexivity. }
  rewrite EA, EB. reflexivity.
Qed.

Theorem C106_char_refuted : forall z, (128 <= z < 256)%Z ->
  event_on true false c106_sites (0%nat, fun _ => RInt z) /\
  exists a, event_run c106_code (0%nat, fun _ => RInt z) = Ok a /\
  forall s, rsteps (rstart c106_names c106_types [a]) s -> Forall (eq []) (r_threads s) ->
  forall ok coins pos t, (forall n, n <= lenN (r_out s) -> ok n = true) ->
  exists tr p x u, read_trace ok (skip_map coins pos) 0 (open_stream (r_out s) t) = Ok tr /\ tr_points tr = [p] /\ p_vars p = [x] /\
    nthN (tr_names tr) (v_name x) = Some (text "c") /\ v_val x = VBits u /\ s64 u = (z - 256)%Z.
Proof.
  intros z R. assert (EO : event_on true false c106_sites (0%nat, fun _ => RInt z)) by (apply c106_event; lia). split; [exact EO|].
  destruct c106_program as (P1 & P2 & P3 & P4).
  destruct (C106_log_read_back true false _ _ _ _ _ _ P1 P2 P3 P4 [[(0%nat, fun _ => RInt z)]]) as (acts & A & G); [repeat constructor; exact EO|].
  inversion A as [|? l ? ? A1 A2]; subst. inversion A2; subst. inversion A1 as [|? a ? ? A3 A4]; subst. inversion A4; subst.
  exists a. split; [exact A3|]. intros s ST FI ok coins pos t OK. cbn [map concat] in G. rewrite app_nil_r in G.
  destruct (G s ST FI ok coins pos t OK) as (order & tr & M & RD & _ & _ & SH).
  assert (EO' : order = [(0%nat, fun _ => RInt z)]).
  { inversion M as [? Z|? i x r o NT M']; subst; [inversion Z; discriminate|]. destruct i as [|i]; [|destruct i; discriminate]. cbn in NT. injection NT as <- <-. f_equal.
    cbn in M'. inversion M' as [|? i ? ? ? NT' _]; subst; [reflexivity|]. destruct i as [|[|i]]; discriminate. }
  subst order. inversion SH as [|? p ? ? PS SH']; subst. inversion SH'; subst. destruct PS as (s0 & N & _ & _ & _ & l & L1 & L2).
  cbn in N. injection N as <-. cbn [snd] in L1. apply c106_vars in L1. subst l. inversion L2 as [|? x ? ? V L3]; subst. inversion L3; subst. cbn [fst snd] in V.
  assert (MT : mistaken true false t_char = Some 1) by crunch.
  destruct (C106_upper_refuted _ _ _ _ _ _ _ _ _ MT R V) as (u & _ & _ & U1 & U2 & _).
  exists tr, p, x, u. repeat split; auto. apply V.
Qed.
Print Assumptions C106_char_refuted.

(** The hypotheses are met by this program with the letter A in one thread and the byte
    0xe4 in another; wchar_t is mistaken where it is unsigned. *)
Example C106_case : Forall (Forall (event_on true false c106_sites)) [[(0%nat, fun _ => RInt 65)]; [(0%nat, fun _ => RInt 228)]] /\
  mistaken true true (mkC [] [mkSpec KOther (text "wchar_t")]) = Some 4 /\ mistaken false true t_char = None /\
  shown true false t_char (RInt 65) = RInt 65 /\ shown true false t_char (RInt 228) = RInt (-28).
Proof. split; [|split; [crunch|split; [crunch|split; crunch]]]. repeat constructor; apply c106_event; lia. Qed.
