(** Proofs about the foreign memory of Lisp operations: results, arguments, operations. *)
From Verif Require Import Base Types Predicate CApi Lisp LispMem LispMemSpec LispMemProofs.
Local Ltac conj_split := repeat match goal with |- _ /\ _ => split end.

Lemma lbind_ok : forall A B (m : lmem A) (f : A -> lmem B) h h' a, m h = (Ok a, h') -> lbind m f h = f a h'.
Proof. intros A B m f h h' a E. unfold lbind. rewrite E. reflexivity. Qed.
Arguments lbind_ok {A B}.

Definition fields (fs : list (N * N)) : list (N * blk) := flat_map (fun f => [(fst f, BWords); (snd f, BWords)]) fs.
Inductive pts : list (N * blk) -> N -> nat -> Prop :=
| pts_none : pts [] 0 0
| pts_some : forall a f fs, pts ((a, BPoints (f :: fs)) :: fields (f :: fs)) a (S (length fs)).

Lemma each_fields : forall n h, sound h ->
  exists fs h', each (fun _ : unit => v <~~ obtain BWords ;; x <~~ obtain BWords ;; ret (Ok (v, x))) (repeat tt n) h = (Ok fs, h') /\ grows h h' (fields fs) /\ length fs = n.
Proof.
  induction n as [|n IH]; intros h S.
  - exists [], h. conj_split; [reflexivity|apply (grows_nil h S)|reflexivity].
  - destruct (obtain_grows h BWords S) as (h1 & E1 & G1). destruct (obtain_grows h1 BWords (proj2 G1)) as (h2 & E2 & G2).
    destruct (IH h2 (proj2 G2)) as (fs & h3 & E3 & G3 & L). exists ((h_next h, h_next h1) :: fs), h3. cbn [repeat each].
    rewrite (lbind_ok _ _ h h2 (h_next h, h_next h1)) by (rewrite (lbind_ok _ _ _ _ _ E1), (lbind_ok _ _ _ _ _ E2); reflexivity). rewrite (lbind_ok _ _ _ _ _ E3).
    split; [reflexivity|]. split; [|cbn; congruence]. exact (grows_trans _ _ _ _ _ (grows_trans _ _ _ _ _ G1 G2) G3).
Qed.
Lemma points_array_ok : forall n h, sound h -> exists a h' l, points_array n h = (Ok a, h') /\ grows h h' l /\ pts l a n.
Proof.
  intros [|n] h S; [exists 0, h, []; conj_split; [reflexivity|apply (grows_nil h S)|constructor]|].
  unfold points_array. destruct (obtain_grows h (BPoints []) S) as (h1 & E1 & G1). destruct (each_fields (Datatypes.S n) h1 (proj2 G1)) as (fs & h2 & E2 & G2 & L).
  pose proof (grows_trans _ _ _ _ _ G1 G2) as (G3 & S3). cbn [app] in G3. destruct h2 as [nx live]. cbn [h_live] in G3. subst live.
  destruct fs as [|f fs]; [discriminate|]. exists (h_next h). eexists. eexists. unfold lbind at 1. rewrite E1. unfold lbind at 1. rewrite E2. unfold lbind at 1.
  rewrite fill_ok by (apply (sound_good _ S3)). split; [reflexivity|]. split; [split; [reflexivity|eapply sound_fill; exact S3]|].
  injection L as <-. constructor.
Qed.
Lemma release_fields : forall fs nx A B, good (A ++ fields fs ++ B) ->
  exists us, each (fun f : N * N => _ <~~ release (fst f) ;; release (snd f)) fs (mkH nx (A ++ fields fs ++ B)) = (Ok us, mkH nx (A ++ B)).
Proof.
  induction fs as [|f fs IH]; intros nx A B G; [eexists; reflexivity|]. cbn [fields flat_map app] in *. fold (fields fs) in *. cbn [each]. unfold lbind at 1.
  unfold lbind at 1. rewrite release_ok by exact G.
  change (A ++ (fst f, BWords) :: (snd f, BWords) :: fields fs ++ B) with (A ++ [(fst f, BWords)] ++ (snd f, BWords) :: fields fs ++ B) in G. apply good_drop in G.
  rewrite release_ok by exact G. change (A ++ (snd f, BWords) :: fields fs ++ B) with (A ++ [(snd f, BWords)] ++ fields fs ++ B) in G. apply good_drop in G.
  destruct (IH nx A B G) as (us & EU). rewrite (lbind_ok _ _ _ _ _ EU). eexists. reflexivity.
Qed.
Lemma free_points_ok : forall l a n nx A, pts l a n -> good (A ++ l) -> free_points a n (mkH nx (A ++ l)) = (Ok tt, mkH nx A).
Proof.
  intros l a n nx A H G. destruct H as [|a f fs]; [cbn; rewrite app_nil_r; reflexivity|]. unfold free_points. unfold lbind at 1. rewrite contents_ok by exact G.
  change (S (length fs)) with (length (f :: fs)). rewrite firstn_all.
  pose proof (release_fields (f :: fs) nx (A ++ [(a, BPoints (f :: fs))]) []) as R. rewrite !app_nil_r, <- app_assoc in R. destruct (R G) as (us & EU). cbn [app] in EU. rewrite (lbind_ok _ _ _ _ _ EU).
  assert (G2 : good (A ++ [(a, BPoints (f :: fs))])).
  { pose proof (good_drop (A ++ [(a, BPoints (f :: fs))]) (fields (f :: fs)) []) as D. rewrite !app_nil_r, <- app_assoc in D. apply D. exact G. }
  rewrite release_ok by exact G2. rewrite app_nil_r. reflexivity.
Qed.

Lemma read_strings_ok : forall r h, sound h -> exists h',
  (r = true /\ read_strings r h = (Ok tt, h') /\ grows h h' []) \/
  (r = false /\ read_strings r h = (Throw ELisp, h') /\ exists a, grows h h' [(a, BWords)]).
Proof.
  intros r h S. unfold read_strings. destruct (obtain_grows h BWords S) as (h1 & E1 & G1 & S1). destruct r.
  - destruct h1 as [nx live]. cbn in G1. subst live. exists (mkH nx (h_live h)). left. split; [reflexivity|]. unfold lbind. rewrite E1. rewrite release_ok by (apply (sound_good _ S1)). rewrite app_nil_r.
    split; [reflexivity|]. split; [cbn; rewrite app_nil_r; reflexivity|]. pose proof (sound_drop nx (h_live h) [(h_next h, BWords)] []) as D. rewrite !app_nil_r in D. apply D. exact S1.
  - exists h1. right. split; [reflexivity|]. unfold lbind. rewrite E1. split; [reflexivity|]. eexists. split; eassumption.
Qed.

Lemma convert_each_ok : forall l h, (Forall (eq true) l /\ convert_each l h = (Ok tt, h)) \/ (~ Forall (eq true) l /\ l <> [] /\ convert_each l h = (Throw ELisp, h)).
Proof.
  induction l as [|g l IH]; intros h; [left; split; [constructor|reflexivity]|]. destruct g.
  - destruct (IH h) as [[F E]|(F & _ & E)]; [left; split; [constructor; auto|exact E]|right]. conj_split; [intro H; inversion H; auto|discriminate|exact E].
  - right. conj_split; [intro H; inversion H; discriminate|discriminate|reflexivity].
Qed.
Lemma convert_points_ok : forall ti points h A l a, sound h -> h_live h = A ++ l -> pts l a (length points) ->
  exists o h', convert_points ti a points h = (o, h') /\ sound h' /\
    ((o = Ok tt /\ h_live h' = A /\ ti_names ti = true /\ Forall (eq true) points) \/
     (o = Throw ELisp /\ (exists x, x <> [] /\ h_live h' = A ++ x) /\ ~ (ti_names ti = true /\ Forall (eq true) points))).
Proof.
  intros ti points h A l a S EL HP. unfold convert_points. destruct (read_strings_ok (ti_names ti) h S) as (h1 & [(T & E1 & G1 & S1)|(T & E1 & b & G1 & S1)]).
  - unfold lbind at 1. rewrite E1. rewrite EL, app_nil_r in G1. destruct (convert_each_ok points h1) as [(F & E2)|(F & NE & E2)].
    + unfold lbind. rewrite E2. destruct h1 as [nx live]. cbn in G1. subst live. rewrite (free_points_ok _ _ _ nx A HP) by (apply (sound_good _ S1)).
      eexists _, _. split; [reflexivity|]. split; [|left; conj_split; auto]. pose proof (sound_drop nx A l []) as D. rewrite !app_nil_r in D. apply D. exact S1.
    + unfold lbind. rewrite E2. eexists _, _. split; [reflexivity|]. split; [exact S1|]. right. conj_split; [reflexivity| |intros [_ HF]; contradiction].
      exists l. split; [|exact G1]. intros ->. inversion HP as [H0 H1 H2|]. destruct points; [contradiction|discriminate].
  - unfold lbind. rewrite E1. eexists _, _. split; [reflexivity|]. split; [exact S1|]. right. conj_split; [reflexivity| |intros [HT _]; congruence].
    exists (l ++ [(b, BWords)]). split; [destruct l; discriminate|]. rewrite G1, EL, app_assoc. reflexivity.
Qed.

(** ** The arguments of a query *)
Definition known (ts : list (option N)) : Prop := Forall (fun t => t <> None) ts.
Lemma known_forallb : forall ts, forallb (fun t : option N => match t with Some _ => true | None => false end) ts = true <-> known ts.
Proof.
  intros ts. rewrite forallb_forall. unfold known. rewrite Forall_forall. split; intros H x Hx; specialize (H x Hx); destruct x; congruence.
Qed.
Definition typ (tas : list N) : list (N * blk) := map (fun a => (a, BWords)) tas.
Lemma fill_vars_ok : forall types A va done nx, sound (mkH nx (A ++ (va, BFree done) :: typ done)) ->
  exists o h' done', fill_vars va done types (mkH nx (A ++ (va, BFree done) :: typ done)) = (o, h') /\ sound h' /\
   ((o = Ok done' /\ h_live h' = A ++ (va, BFree done') :: typ done' /\ Forall known types) \/
    (o = Throw ELisp /\ (exists x, x <> [] /\ h_live h' = A ++ x) /\ ~ Forall known types)).
Proof.
  induction types as [|ts types IH]; intros A va done nx S.
  - eexists _, _, done. split; [reflexivity|]. split; [exact S|]. left. conj_split; [reflexivity|reflexivity|constructor].
  - cbn [fill_vars]. destruct (obtain_grows _ BWords S) as (h1 & E1 & G1 & S1). cbn [h_live h_next] in *. unfold lbind at 1. rewrite E1.
    destruct (forallb _ ts) eqn:EK.
    + apply known_forallb in EK. rewrite <- app_assoc in G1. cbn [app] in G1. destruct h1 as [nx1 live]. cbn [h_live] in G1. subst live.
      unfold lbind. rewrite fill_ok by (apply (sound_good _ S1)). apply (sound_fill _ _ _ _ (BFree (done ++ [nx]))) in S1.
      replace (typ done ++ [(nx, BWords)]) with (typ (done ++ [nx])) in * by (unfold typ; rewrite map_app; reflexivity).
      destruct (IH A va (done ++ [nx]) nx1 S1) as (o & h2 & d' & E2 & S2 & H). exists o, h2, d'. split; [exact E2|]. split; [exact S2|].
      destruct H as [(H1 & H2 & H3)|(H1 & H2 & H3)]; [left|right]; conj_split; auto. intro HF. inversion HF; auto.
    + eexists _, _, []. split; [reflexivity|]. split; [exact S1|]. right. split; [reflexivity|]. rewrite G1, <- app_assoc. split; [eexists; split; [|reflexivity]; discriminate|].
      intro HF. inversion HF as [|? ? HK _]; subst. apply known_forallb in HK. congruence.
Qed.
Lemma release_types : forall tas nx A B, good (A ++ typ tas ++ B) -> exists us, each release tas (mkH nx (A ++ typ tas ++ B)) = (Ok us, mkH nx (A ++ B)).
Proof.
  induction tas as [|a tas IH]; intros nx A B G; [eexists; reflexivity|]. cbn [typ map app each] in *. fold (typ tas) in *. unfold lbind at 1. rewrite release_ok by exact G.
  destruct (IH nx A B) as (us & EU); [apply (good_drop A [(a, BWords)]); exact G|]. unfold lbind. rewrite EU. eexists. reflexivity.
Qed.

Definition cleanup (hp : N) (sps : list N) (sa va : N) : lmem unit :=
  _ <~~ free_pred hp ;;
  _ <~~ each free_pred sps ;;
  _ <~~ release sa ;;
  b <~~ contents va ;;
  match b with
  | BFree tas => _ <~~ each release tas ;; release va
  | _ => ret (UB UUninit)
  end.
Lemma cleanup_ok : forall nx A va tas LH hp LS sps sa sb X, powns LH hp -> powns_list LS sps ->
  sound (mkH nx (A ++ ((va, BFree tas) :: typ tas) ++ LH ++ LS ++ [(sa, sb)] ++ X)) ->
  cleanup hp sps sa va (mkH nx (A ++ ((va, BFree tas) :: typ tas) ++ LH ++ LS ++ [(sa, sb)] ++ X)) = (Ok tt, mkH nx (A ++ X)).
Proof.
  intros nx A va tas LH hp LS sps sa sb X HH HS S. apply sound_good in S. cbn [h_live] in S. unfold cleanup. unfold lbind at 1.
  rewrite (app_assoc A) in *. rewrite (free_pred_ok _ _ _ _ _ HH) by exact S. apply good_drop in S.
  unfold lbind at 1. destruct (free_preds_ok _ _ HS nx (A ++ (va, BFree tas) :: typ tas) ([(sa, sb)] ++ X) S) as (us & EU). rewrite EU. apply good_drop in S.
  unfold lbind at 1. cbn [app] in *. rewrite release_ok by exact S. apply (good_drop _ [(sa, sb)]) in S.
  unfold lbind at 1. rewrite <- app_assoc in *. cbn [app] in *. rewrite contents_ok by exact S.
  pose proof (release_types tas nx (A ++ [(va, BFree tas)]) X) as R. rewrite <- !app_assoc in R. cbn [app] in R. destruct (R S) as (us2 & EU2). unfold lbind. rewrite EU2.
  apply release_ok. pose proof (good_drop (A ++ [(va, BFree tas)]) (typ tas) X) as D. rewrite <- !app_assoc in D. apply D. exact S.
Qed.

(** ** Operations *)
(** what an operation does: its outcome, what it loses, is that nothing *)
Definition result (o : op) (r : outcome unit) (h h' : heap) : Prop :=
  sound h' /\ exists x, loses h h' x /\
    match r with
    | Ok _ => looks o -> x = []
    | Throw ELisp => looks o -> (x = [] <-> harmless o)
    | Abort => crashes o
    | _ => False
    end.

Lemma types_result : forall t h, sound h -> exists r h', trace_types t h = (r, h') /\ result (OTypes t) r h h'.
Proof.
  intros [ti|] h S.
  - unfold trace_types. destruct (read_strings_ok (ti_types ti) h S) as (h1 & [(T & E1 & G1 & S1)|(T & E1 & b & G1 & S1)]); rewrite E1; eexists _, _; (split; [reflexivity|]); (split; [exact S1|]).
    + exists []. split; [exact G1|reflexivity].
    + exists [(b, BWords)]. split; [exact G1|]. intros _. split; [discriminate|intros []].
  - eexists _, h. split; [reflexivity|]. split; [exact S|]. exists []. split; [red; rewrite app_nil_r; reflexivity|]. intros _. split; [intros _; exact Logic.I|reflexivity].
Qed.
Lemma get_result : forall t points meta h, sound h -> exists r h', get_trace t points meta h = (r, h') /\ result (OGet t points meta) r h h'.
Proof.
  intros [ti|] points meta h S.
  - unfold get_trace. destruct (points_array_ok (length points) h S) as (a & h1 & l & E1 & (G1 & S1) & HP). unfold lbind at 1. rewrite E1.
    destruct (convert_points_ok ti points h1 (h_live h) l a S1 G1 HP) as (o & h2 & E2 & S2 & [(-> & H2 & H3 & H4)|(-> & (x & NX & H2) & H3)]).
    + unfold lbind. rewrite E2. eexists _, _. split; [reflexivity|]. split; [exact S2|]. exists []. split; [red; rewrite app_nil_r; exact H2|]. destruct meta; [reflexivity|].
      intros _. cbn [harmless]. tauto.
    + unfold lbind. rewrite E2. eexists _, _. split; [reflexivity|]. split; [exact S2|]. exists x. split; [exact H2|]. intros _. cbn [harmless]. split; [contradiction|tauto].
  - eexists _, h. split; [reflexivity|]. split; [exact S|]. exists []. split; [red; rewrite app_nil_r; reflexivity|]. intros _. split; [intros _; exact Logic.I|reflexivity].
Qed.
Lemma read_result : forall t h, sound h -> exists r h', read_binary_trace t h = (r, h') /\ sound h' /\
  (t = None /\ r = Ok tt /\ h' = h \/ t <> None /\ r = Ok tt /\ (exists a, loses h h' [(a, BTraceObj)]) \/
   t <> None /\ r = Throw ELisp /\ exists a b x, loses h h' ((a, BTraceObj) :: b :: x)).
Proof.
  intros [(ti, points)|] h S.
  - unfold read_binary_trace. destruct (obtain_grows h BTraceObj S) as (h1 & E1 & G1 & S1).
    destruct (points_array_ok (length points) h1 S1) as (a & h2 & l & E2 & (G2 & S2) & HP). unfold lbind. rewrite E1, E2.
    destruct (convert_points_ok ti points h2 (h_live h1) l a S2 G2 HP) as (o & h3 & E3 & S3 & [(-> & H2 & H3 & H4)|(-> & (x & NX & H2) & H3)]); rewrite E3; eexists _, _; (split; [reflexivity|]); (split; [exact S3|]); right.
    + left. conj_split; [discriminate|reflexivity|]. eexists. red. rewrite H2. exact G1.
    + right. destruct x as [|b x]; [contradiction|]. conj_split; [discriminate|reflexivity|]. eexists _, b, x. red. rewrite H2, G1, <- app_assoc. reflexivity.
  - eexists _, h. split; [reflexivity|]. split; [exact S|]. left. auto.
Qed.

Lemma each_words : forall points h, sound h -> exists o h' l,
  each (fun p : option (bool * bool) => match p with None => ret (Throw ELisp) | Some (v, s) => _ <~~ obtain BWords ;; ret (if v then Ok s else Throw ELisp) end) points h = (o, h') /\
  grows h h' l /\ match o with Ok ss => length l = length points | Throw ELisp => True | _ => False end.
Proof.
  induction points as [|p points IH]; intros h S.
  - eexists _, h, []. split; [reflexivity|]. split; [apply grows_nil; exact S|reflexivity].
  - destruct p as [[v s]|]; cbn [each].
    2:{ eexists _, h, []. split; [reflexivity|]. split; [apply grows_nil; exact S|exact Logic.I]. }
    destruct (obtain_grows h BWords S) as (h1 & E1 & G1). unfold lbind at 1. unfold lbind at 1. rewrite E1. destruct v.
    2:{ eexists _, h1, _. split; [reflexivity|]. split; [exact G1|exact Logic.I]. }
    destruct (IH h1 (proj2 G1)) as (o & h2 & l & E2 & G2 & B). unfold ret at 1. unfold lbind at 1. rewrite E2.
    destruct o as [ss|[]| | |]; try contradiction B; eexists _, h2, _; (split; [reflexivity|]); (split; [exact (grows_trans _ _ _ _ _ G1 G2)|]); [cbn; congruence|exact Logic.I].
Qed.
Lemma each_strings : forall n h, sound h -> exists us h' l, each (fun _ : unit => obtain BString) (repeat tt n) h = (Ok us, h') /\ grows h h' l /\ length l = n.
Proof.
  induction n as [|n IH]; intros h S.
  - eexists _, h, []. split; [reflexivity|]. split; [apply grows_nil; exact S|reflexivity].
  - destruct (obtain_grows h BString S) as (h1 & E1 & G1). destruct (IH h1 (proj2 G1)) as (us & h2 & l & E2 & G2 & L). cbn [repeat each]. unfold lbind. rewrite E1, E2.
    eexists _, h2, _. split; [reflexivity|]. split; [exact (grows_trans _ _ _ _ _ G1 G2)|]. cbn. congruence.
Qed.
Lemma add_result : forall points names h, sound h -> exists r h', add_points points names h = (r, h') /\ sound h' /\ exists x, loses h h' x /\
  (r = Ok tt /\ length x = (length points + names + 2)%nat \/ r = Throw ELisp).
Proof.
  intros points names h S. unfold add_points. destruct (each_words points h S) as (o & h1 & l1 & E1 & G1 & B1). unfold lbind at 1. rewrite E1. destruct o as [ss|[]| | |]; try contradiction B1.
  2:{ eexists _, _. split; [reflexivity|]. split; [apply G1|]. exists l1. split; [apply G1|]. right. reflexivity. }
  destruct (obtain_grows h1 (BPoints []) (proj2 G1)) as (h2 & E2 & G2). unfold lbind at 1. rewrite E2. pose proof (grows_trans _ _ _ _ _ G1 G2) as G3. destruct (forallb _ ss).
  - destruct (obtain_grows h2 (BPtrs []) (proj2 G2)) as (h3 & E3 & G4). unfold lbind at 1. rewrite E3. pose proof (grows_trans _ _ _ _ _ G3 G4) as G5.
    destruct (each_strings names h3 (proj2 G4)) as (us & h4 & l & E4 & G6 & L). unfold lbind at 1. rewrite E4. pose proof (grows_trans _ _ _ _ _ G5 G6) as G7.
    eexists _, _. split; [reflexivity|]. split; [apply G7|]. eexists. split; [apply G7|]. left. split; [reflexivity|]. rewrite !app_length. cbn. lia.
  - eexists _, _. split; [reflexivity|]. split; [apply G3|]. eexists. split; [apply G3|]. right. reflexivity.
Qed.

Lemma query_result : forall t vn vt p sp rep h, sound h -> exists r h', query_trace t vn vt p sp rep h = (r, h') /\ result (OQuery t vn vt p sp rep) r h h'.
Proof.
  intros [ti|] vn vt p sp rep h S.
  2:{ eexists _, h. split; [reflexivity|]. split; [exact S|]. exists []. split; [red; rewrite app_nil_r; reflexivity|]. intros _. split; [intros _; exact Logic.I|reflexivity]. }
  unfold query_trace.
  set (c := match p, sp, vn with None, [], _ => true | _, _, [] => false | _, _, _ => true end).
  assert (HC : c = false <-> (vn = [] /\ (p <> None \/ sp <> []))).
  { subst c. destruct p, sp, vn; split; intros H; try discriminate; try (split; [reflexivity|]; (left; discriminate) || (right; discriminate)); try reflexivity; destruct H as (H & [H2|H2]); congruence. }
  destruct c.
  2:{ eexists _, h. split; [reflexivity|]. split; [exact S|]. exists []. split; [red; rewrite app_nil_r; reflexivity|]. intros _. cbn [harmless]. split; [|reflexivity]. intros _. left. apply HC. reflexivity. }
  assert (HN : ~ (vn = [] /\ (p <> None \/ sp <> []))) by (intro H; apply HC in H; discriminate). clear HC.
  destruct (read_strings_ok (ti_types ti) h S) as (h1 & [(T & E1 & G1 & S1)|(T & E1 & b & G1 & S1)]).
  2:{ unfold lbind at 1. rewrite E1. eexists _, _. split; [reflexivity|]. split; [exact S1|]. exists [(b, BWords)]. split; [exact G1|]. intros _. cbn [harmless]. split; [discriminate|]. intros [H|(H & _)]; [contradiction|congruence]. }
  unfold lbind at 1. rewrite E1. rewrite app_nil_r in G1.
  destruct (obtain_grows h1 (BFree []) S1) as (h2 & E2 & G2 & S2). unfold lbind at 1. rewrite E2. rewrite G1 in G2. set (va := h_next h1) in *.
  destruct h2 as [nx2 live2]. cbn [h_live] in G2. subst live2.
  destruct (fill_vars_ok vt (h_live h) va [] nx2 S2) as (o3 & h3 & tas & E3 & S3 & H3). cbn [typ map] in E3. unfold lbind at 1. rewrite E3.
  destruct H3 as [(-> & L3 & KT)|(-> & (x & NX & L3) & KT)].
  2:{ eexists _, _. split; [reflexivity|]. split; [exact S3|]. exists x. split; [exact L3|]. intros _. cbn [harmless]. split; [contradiction|]. intros [H|(_ & _ & H & _)]; [contradiction|]. exfalso. exact (KT H). }
  destruct (build_pred_ok vn p h3 S3) as (o4 & h4 & LH & E4 & (G4 & S4) & B4 & _). unfold lbind at 1. rewrite E4. rewrite L3 in G4. rewrite <- app_assoc in G4.
  destruct o4 as [hp|[]| | |]; try contradiction B4.
  2:{ eexists _, _. split; [reflexivity|]. split; [exact S4|]. eexists. split; [exact G4|]. intros _. cbn [harmless]. split; [discriminate|]. intros [H|(_ & _ & _ & H & _)]; [contradiction|].
      destruct (build_pred_ok vn p h3 S3) as (o4' & h4' & LH' & E4' & _ & _ & C4). rewrite E4 in E4'. destruct C4 as (q & Hq); [exact H|]. congruence. }
  destruct B4 as (PH & CH).
  destruct (build_preds_ok vn sp h4 S4) as (o5 & h5 & LS & E5 & (G5 & S5) & B5 & C5). unfold lbind at 1. rewrite E5. rewrite G4 in G5. rewrite <- !app_assoc in G5.
  destruct o5 as [sps|[]| | |]; try contradiction B5.
  2:{ eexists _, _. split; [reflexivity|]. split; [exact S5|]. eexists. split; [exact G5|]. intros _. cbn [harmless]. split; [discriminate|]. intros [H|(_ & _ & _ & _ & H)]; [contradiction|].
      destruct C5 as (q & Hq); [exact H|]. congruence. }
  destruct B5 as (PS & CS). clear C5.
  destruct (obtain_grows h5 (BPtrs sps) S5) as (h6 & E6 & G6 & S6). unfold lbind at 1. rewrite E6. rewrite G5 in G6. rewrite <- !app_assoc in G6. set (sa := h_next h5) in *.
  fold (cleanup hp sps sa va). unfold unwind_protect. destruct rep as [| |points].
  - eexists _, _. split; [reflexivity|]. split; [exact S6|]. eexists. split; [exact G6|]. exact Logic.I.
  - unfold ret at 1. destruct h6 as [nx6 live6]. cbn [h_live] in G6. subst live6.
    pose proof (cleanup_ok nx6 (h_live h) va tas LH hp LS sps sa (BPtrs sps) [] PH PS S6) as EC. cbn [app] in EC, S6 |- *. rewrite app_nil_r in EC. rewrite EC.
    eexists _, _. split; [reflexivity|]. split.
    + pose proof (sound_drop nx6 (h_live h) ((va, BFree tas) :: typ tas ++ LH ++ LS ++ [(sa, BPtrs sps)]) []) as D. rewrite !app_nil_r in D. apply D. exact S6.
    + exists []. split; [red; cbn; rewrite app_nil_r; reflexivity|]. intros _. cbn [harmless]. split; [|reflexivity]. intros _. right. conj_split; auto.
  - destruct (points_array_ok (length points) h6 S6) as (a & h7 & l & E7 & (G7 & S7) & HP). unfold lbind at 1. rewrite E7.
    destruct (convert_points_ok ti points h7 (h_live h6) l a S7 G7 HP) as (o & h8 & E8 & S8 & [(-> & H2 & H3 & H4)|(-> & (x & NX & H2) & H3)]); rewrite E8; rewrite G6 in H2; destruct h8 as [nx8 live8]; cbn [h_live] in H2; subst live8.
    + pose proof (cleanup_ok nx8 (h_live h) va tas LH hp LS sps sa (BPtrs sps) [] PH PS S8) as EC. cbn [app] in EC, S8 |- *. rewrite app_nil_r in EC. rewrite EC.
      eexists _, _. split; [reflexivity|]. split.
      * pose proof (sound_drop nx8 (h_live h) ((va, BFree tas) :: typ tas ++ LH ++ LS ++ [(sa, BPtrs sps)]) []) as D. rewrite !app_nil_r in D. apply D. exact S8.
      * exists []. split; [red; cbn; rewrite app_nil_r; reflexivity|]. reflexivity.
    + rewrite <- !app_assoc in *. pose proof (cleanup_ok nx8 (h_live h) va tas LH hp LS sps sa (BPtrs sps) x PH PS S8) as EC. cbn [app] in EC, S8 |- *. rewrite EC.
      eexists _, _. split; [reflexivity|]. split.
      * pose proof (sound_drop nx8 (h_live h) ((va, BFree tas) :: typ tas ++ LH ++ LS ++ [(sa, BPtrs sps)]) x) as D. cbn [app] in D. rewrite <- !app_assoc in D. apply D. exact S8.
      * exists x. split; [reflexivity|]. intros _. cbn [harmless]. split; [contradiction|]. intros [H|(_ & H & _)]; [contradiction|discriminate].
Qed.

Theorem run_result : forall o h, sound h -> exists r h', run o h = (r, h') /\ result o r h h'.
Proof.
  intros [t|t points meta|t|points names|t vn vt p sp rep] h S; cbn [run].
  - apply types_result; exact S.
  - apply get_result; exact S.
  - destruct (read_result t h S) as (r & h' & E & S' & H). exists r, h'. split; [exact E|]. split; [exact S'|]. destruct H as [(_ & -> & ->)|[(_ & -> & a & L)|(_ & -> & a & b & x & L)]].
    + exists []. split; [red; rewrite app_nil_r; reflexivity|reflexivity].
    + eexists. split; [exact L|]. intros [].
    + eexists. split; [exact L|]. intros [].
  - destruct (add_result points names h S) as (r & h' & E & S' & x & L & H). exists r, h'. split; [exact E|]. split; [exact S'|]. exists x. split; [exact L|]. destruct H as [(-> & _)| ->]; intros [].
  - apply query_result; exact S.
Qed.

(** ** Sessions *)
Lemma session_result : forall os h, sound h -> exists rs h', session os h = (rs, h') /\ sound h' /\ (exists x, loses h h' x) /\
  Forall2 (fun o r => r = Ok tt \/ r = Throw ELisp \/ r = Abort /\ crashes o) os rs.
Proof.
  induction os as [|o os IH]; intros h S.
  - exists [], h. conj_split; [reflexivity|apply S..|exists []; red; rewrite app_nil_r; reflexivity|constructor].
  - destruct (run_result o h S) as (r & h1 & E1 & S1 & x & L & H). destruct (IH h1 S1) as (rs & h2 & E2 & S2 & (y & L2) & F). exists (r :: rs), h2. cbn [session]. rewrite E1, E2.
    conj_split; [reflexivity|apply S2..|exists (x ++ y); red; rewrite L2, L, app_assoc; reflexivity|]. constructor; [|exact F].
    destruct r as [[]|[]| | |]; try contradiction H; auto.
Qed.
Lemma session_constant : forall os h rs h', sound h -> session os h = (rs, h') ->
  Forall2 (fun o r => looks o /\ (r = Ok tt \/ r = Throw ELisp /\ harmless o)) os rs -> h_live h' = h_live h.
Proof.
  induction os as [|o os IH]; intros h rs h' S E F; [cbn in E; injection E as _ <-; reflexivity|]. cbn [session] in E.
  destruct (run_result o h S) as (r & h1 & E1 & S1 & x & L & H). rewrite E1 in E. destruct (session os h1) as (xs & h2) eqn:E2. injection E as <- <-. inversion F as [|? ? ? ? (HL & HR) F']; subst.
  rewrite (IH h1 xs h2 S1 E2 F'). rewrite L. assert (x = []) as ->; [|apply app_nil_r]. destruct HR as [->|(-> & HH)]; [apply H; exact HL|]. apply H; assumption.
Qed.
Lemma session_grows : forall os h rs h', sound h -> session os h = (rs, h') ->
  Forall2 (fun o r => looks o /\ r = Throw ELisp /\ ~ harmless o) os rs -> (length (h_live h) + length os <= length (h_live h'))%nat.
Proof.
  induction os as [|o os IH]; intros h rs h' S E F; [cbn in E; injection E as _ <-; cbn; lia|]. cbn [session] in E.
  destruct (run_result o h S) as (r & h1 & E1 & S1 & x & L & H). rewrite E1 in E. destruct (session os h1) as (xs & h2) eqn:E2. injection E as <- <-. inversion F as [|? ? ? ? (HL & HR & HH) F']; subst.
  specialize (IH h1 xs h2 S1 E2 F'). cbn beta iota in H. red in L. rewrite L, app_length in IH. cbn [length]. destruct x as [|b x]; [exfalso; apply HH, H; auto|]. cbn in IH. lia.
Qed.
