(** Proofs about TypeText.v. *)
From Coq Require Import Strings.String Permutation.
From Verif Require Import BaseProofs Types Compare PrintPred Instr InstrRun InstrSpec InstrText TypeText TypeTextSpec.

Lemma c_kind_eq w : c_kind w = if member w qualifiers then KQualifier else if member w storage_classes then KStorage else KOther.
Proof. reflexivity. Qed.

(** ** The text in parts *)
Definition brackets (l : list name) : name := concat (map (fun z => x5b :: z ++ [x5d]) l).
Lemma dims_sizes t : dims t = brackets (sizes t).
Proof.
  destruct t as [d s]. unfold dims, sizes, brackets. cbn [c_decl]. induction d as [|x d IH]; [reflexivity|].
  cbn [map concat flat_map]. rewrite map_app, concat_app. apply f_equal2; [|exact IH].
  destruct x as [|[[z i]|]]; [reflexivity| |reflexivity]. cbn. rewrite app_nil_r. destruct (integer_text z); reflexivity.
Qed.
Definition plain_size (z : name) : Prop := z = [] \/ integer_text z = true.
Lemma sizes_plain t : Forall plain_size (sizes t).
Proof.
  destruct t as [d s]. unfold sizes. cbn [c_decl]. induction d as [|x d IH]; [constructor|]. cbn [flat_map].
  apply Forall_app. split; [|exact IH]. destruct x as [|[[z i]|]].
  - constructor.
  - constructor; [|constructor]. destruct (integer_text z) eqn:E; [right; exact E|left; reflexivity].
  - constructor; [left; reflexivity|constructor].
Qed.
Lemma size_chars z b : plain_size z -> In b z -> b <> x5b /\ b <> x5d /\ b <> x20 /\ b <> x2a.
Proof.
  intros [->|E] I; [destruct I|]. destruct z as [|z0 z]; [discriminate E|]. unfold integer_text in E.
  rewrite forallb_forall in E. apply E in I. destruct b; vm_compute in I; try discriminate I; repeat split; discriminate.
Qed.

Lemma to_bracket_size z r : (forall b, In b z -> b <> x5b /\ b <> x5d) -> to_bracket (z ++ x5d :: r) = Some (z, r).
Proof.
  induction z as [|b z IH]; intros H; cbn [app to_bracket]; [reflexivity|].
  rewrite IH by (intros c I; apply H; right; exact I).
  destruct (H b (or_introl eq_refl)) as [H1 H2]. destruct b; try reflexivity; congruence.
Qed.
Lemma to_bracket_plain z r : plain_size z -> to_bracket (z ++ x5d :: r) = Some (z, r).
Proof. intros P. apply to_bracket_size. intros b I. destruct (size_chars _ _ P I) as (A & B & _). auto. Qed.

Lemma brackets_cons z l r : brackets (z :: l) ++ r = x5b :: z ++ x5d :: (brackets l ++ r).
Proof. unfold brackets. cbn [map concat]. cbn. rewrite <- !app_assoc. reflexivity. Qed.

(** ** Splitting *)
Lemma split_no_space w : (forall b, In b w -> b <> x20) -> split_space w = [w].
Proof.
  induction w as [|b w IH]; intros H; cbn [split_space]; [reflexivity|].
  rewrite IH by (intros c I; apply H; right; exact I). pose proof (H b (or_introl eq_refl)). destruct b; try reflexivity; congruence.
Qed.
Lemma split_prefix w r : (forall b, In b w -> b <> x20) -> split_space (w ++ x20 :: r) = w :: split_space r.
Proof.
  induction w as [|b w IH]; intros H; cbn [app split_space]; [reflexivity|].
  rewrite IH by (intros c I; apply H; right; exact I). pose proof (H b (or_introl eq_refl)). destruct b; try reflexivity; congruence.
Qed.
Lemma split_join w l : (forall b, In b w -> b <> x20) -> Forall (fun w => forall b, In b w -> b <> x20) l ->
  split_space (join (w :: l)) = w :: l.
Proof.
  revert w. induction l as [|v l IH]; intros w H F; cbn [join].
  - apply split_no_space, H.
  - inversion F as [|? ? Fv Fl]; subst. rewrite split_prefix by exact H. f_equal. exact (IH v Fv Fl).
Qed.

(** ** Stripping *)
Lemma strip_word f w : (match w with b :: _ => b <> x2a /\ b <> x5b | [] => True end) -> strip f w = w.
Proof. destruct f; [reflexivity|]. destruct w as [|b w]; [reflexivity|]. intros [A B]. cbn. destruct b; try reflexivity; congruence. Qed.
Lemma strip_dims l w : Forall plain_size l -> (match w with b :: _ => b <> x2a /\ b <> x5b | [] => True end) ->
  forall f, (length (brackets l ++ w) <= f)%nat -> strip f (brackets l ++ w) = w.
Proof.
  intros F W. induction F as [|z l P _ IH]; intros f L; [apply strip_word, W|].
  rewrite brackets_cons in *. destruct f as [|f]; [cbn in L; lia|]. cbn [strip].
  rewrite (to_bracket_plain _ _ P). apply IH. cbn in L. rewrite app_length in L. cbn in L. lia.
Qed.
Lemma strip_prefix n l w : Forall plain_size l -> (match w with b :: _ => b <> x2a /\ b <> x5b | [] => True end) ->
  strip_array_or_pointer (repeat x2a n ++ brackets l ++ w) = w.
Proof.
  intros F W. unfold strip_array_or_pointer.
  assert (G : forall f, (length (repeat x2a n ++ brackets l ++ w) <= f)%nat -> strip f (repeat x2a n ++ brackets l ++ w) = w).
  { induction n as [|n IH]; intros f L; [apply strip_dims; assumption|].
    destruct f as [|f]; [cbn in L; lia|]. cbn [repeat app strip]. apply IH. cbn in L. lia. }
  apply G. lia.
Qed.

(** ** Arrays *)
Lemma matches_none w : (forall b, In b w -> b <> x5b) -> forall f, array_matches f w = [].
Proof.
  intros H f. revert w H. induction f as [|f IH]; intros w H; [reflexivity|]. destruct w as [|b w]; [reflexivity|].
  pose proof (H b (or_introl eq_refl)). cbn. destruct b; try congruence; apply IH; intros c I; apply H; right; exact I.
Qed.
Lemma matches_dims l w : Forall plain_size l -> (forall b, In b w -> b <> x5b) ->
  forall f, (length (brackets l ++ w) <= f)%nat -> array_matches f (brackets l ++ w) = l.
Proof.
  intros F W. induction F as [|z l P _ IH]; intros f L; [apply matches_none, W|].
  rewrite brackets_cons in *. destruct f as [|f]; [cbn in L; lia|]. cbn [array_matches].
  rewrite (to_bracket_plain _ _ P). f_equal. apply IH. cbn in L. rewrite app_length in L. cbn in L. lia.
Qed.
Lemma matches_prefix n l w : Forall plain_size l -> (forall b, In b w -> b <> x5b) ->
  array_matches (length (repeat x2a n ++ brackets l ++ w)) (repeat x2a n ++ brackets l ++ w) = l.
Proof.
  intros F W.
  assert (G : forall f, (length (repeat x2a n ++ brackets l ++ w) <= f)%nat -> array_matches f (repeat x2a n ++ brackets l ++ w) = l).
  { induction n as [|n IH]; intros f L; [apply matches_dims; assumption|].
    destruct f as [|f]; [cbn in L; lia|]. cbn [repeat app array_matches]. apply IH. cbn in L. lia. }
  apply G. lia.
Qed.

Lemma count_none w : (forall b, In b w -> b <> x2a) -> count_occ Byte.byte_eq_dec w x2a = 0%nat.
Proof. intros H. apply count_occ_not_In. intros I. exact (H _ I eq_refl). Qed.
Lemma count_stars n : count_occ Byte.byte_eq_dec (repeat x2a n) x2a = n.
Proof. induction n as [|n IH]; [reflexivity|]. cbn [repeat count_occ]. destruct (Byte.byte_eq_dec x2a x2a); [rewrite IH; reflexivity|congruence]. Qed.
Lemma count_app (a b : name) c : count_occ Byte.byte_eq_dec (a ++ b) c = (count_occ Byte.byte_eq_dec a c + count_occ Byte.byte_eq_dec b c)%nat.
Proof. induction a as [|x a IH]; [reflexivity|]. cbn. destruct (Byte.byte_eq_dec x c); rewrite IH; reflexivity. Qed.
Lemma brackets_chars l b : Forall plain_size l -> In b (brackets l) -> b <> x2a /\ b <> x20.
Proof.
  induction 1 as [|z l P _ IH]; intros I; [destruct I|]. rewrite <- (app_nil_r (brackets (z :: l))), brackets_cons in I.
  destruct I as [<-|I]; [split; discriminate|]. apply in_app_or in I. destruct I as [I|[<-|I]]; [|split; discriminate|].
  - destruct (size_chars _ _ P I) as (_ & _ & A & B). auto.
  - rewrite app_nil_r in I. auto.
Qed.

(** ** The result *)
Definition recovered (t : ctype) : ptype :=
  mkPT (repeat PPointer (pointers t) ++
        map (fun z => match z with [] => PArray None | _ => PArray (Some (true, z)) end) (sizes t))
       (map (fun s => (PQualifier, sp_text s)) (of_kind KQualifier t) ++
        map (fun s => (PStorage, sp_text s)) (of_kind KStorage t) ++
        map (fun s => (base_class (sp_text s), sp_text s)) (of_kind KOther t)).

Lemma word_chars w b : word w -> In b w -> b <> x2a /\ b <> x5b /\ b <> x20.
Proof. intros [_ W] I. rewrite forallb_forall in W. apply W, word_char_good in I. tauto. Qed.

Lemma disjoint_kinds w : member w qualifiers = true -> member w storage_classes = false.
Proof.
  intros M. apply member_iff in M. cbn in M. destruct M as [<-|[<-|[<-|[]]]]; vm_compute; reflexivity.
Qed.

Lemma filter_kinds (f : name -> bool) (g : spec -> bool) (h : name -> pclass * name) l :
  Forall (fun s => f (sp_text s) = g s) l -> map h (filter f (map sp_text l)) = map (fun s => h (sp_text s)) (filter g l).
Proof.
  induction 1 as [|s l E _ IH]; [reflexivity|]. cbn [map filter]. rewrite E. destruct (g s); cbn [map]; rewrite IH; reflexivity.
Qed.

Lemma recovered_lemma t : type_ok c_kind t -> from_trace_string (type_trace_string t) = recovered t.
Proof.
  intros OK. rewrite (type_trace_string_text _ _ OK). destruct (type_ok_words _ _ OK) as [NE FW].
  rewrite type_text_eq, dims_sizes. unfold stars. fold (pointers t).
  pose proof (sizes_plain t) as FS.
  assert (FJ : forall b, In b (join (map sp_text (c_spec t))) -> b <> x2a /\ b <> x5b).
  { intros b I. apply (join_In _ _ FW) in I. destruct I as [I| ->]; [|split; discriminate].
    apply word_char_good in I. tauto. }
  unfold from_trace_string, recovered. f_equal.
  - unfold pointer_component, array_component.
    rewrite !count_app, count_stars, !count_none.
    2: intros b I; apply (FJ _ I). 2: intros b I; apply (brackets_chars _ _ FS I).
    rewrite !Nat.add_0_r. f_equal. rewrite matches_prefix; [|exact FS|intros b I; apply (FJ _ I)].
    apply map_ext_in. intros z Iz. rewrite Forall_forall in FS. destruct (FS _ Iz) as [->|E]; [reflexivity|].
    rewrite E. destruct z; [discriminate|reflexivity].
  - assert (W : map strip_array_or_pointer
         (split_space (repeat x2a (pointers t) ++ brackets (sizes t) ++ join (map sp_text (c_spec t)))) = map sp_text (c_spec t)).
    { destruct (map sp_text (c_spec t)) as [|w ws]; [contradiction NE; reflexivity|].
      inversion FW as [|? ? Fw Fws]; subst.
      assert (J : repeat x2a (pointers t) ++ brackets (sizes t) ++ join (w :: ws) =
                  join ((repeat x2a (pointers t) ++ brackets (sizes t) ++ w) :: ws)).
      { destruct ws; cbn [join]; rewrite <- ?app_assoc; reflexivity. }
      rewrite J, split_join.
      - cbn [map]. f_equal.
        + apply strip_prefix; [exact FS|]. destruct w as [|b w]; [exact I|]. destruct (word_chars _ b Fw (or_introl eq_refl)) as (A & B & _). auto.
        + rewrite <- (map_id ws) at 2. apply map_ext_in. intros v Iv. unfold strip_array_or_pointer. apply strip_word.
          rewrite Forall_forall in Fws. specialize (Fws _ Iv). destruct v as [|b v]; [exact I|].
          destruct (word_chars _ b Fws (or_introl eq_refl)) as (A & B & _). auto.
      - intros b Ib. apply in_app_or in Ib. destruct Ib as [Ib|Ib]; [apply repeat_spec in Ib; subst; discriminate|].
        apply in_app_or in Ib. destruct Ib as [Ib|Ib]; [apply (brackets_chars _ _ FS Ib)|apply (word_chars _ _ Fw Ib)].
      - apply Forall_forall. intros v Iv b Ib. rewrite Forall_forall in Fws. apply (word_chars _ _ (Fws _ Iv) Ib). }
    rewrite W. destruct OK as [_ F]. unfold of_kind.
    assert (K : Forall (fun s => sp_kind s = c_kind (sp_text s)) (c_spec t)).
    { apply Forall_forall. intros s Is. rewrite Forall_forall in F. apply (F _ Is). }
    f_equal; [|f_equal].
    + apply filter_kinds. eapply Forall_impl; [|exact K]. intros s E. rewrite E, c_kind_eq.
      destruct (member (sp_text s) qualifiers); [reflexivity|]. destruct (member (sp_text s) storage_classes); reflexivity.
    + apply filter_kinds. eapply Forall_impl; [|exact K]. intros s E. rewrite E, c_kind_eq.
      destruct (member (sp_text s) qualifiers) eqn:M; [rewrite (disjoint_kinds _ M); reflexivity|].
      destruct (member (sp_text s) storage_classes); reflexivity.
    + apply filter_kinds. eapply Forall_impl; [|exact K]. intros s E. rewrite E, c_kind_eq.
      destruct (member (sp_text s) qualifiers); [reflexivity|]. destruct (member (sp_text s) storage_classes); reflexivity.
Qed.

(** ** Consequences *)

Definition as_decl (ids : nat -> N) (x : nat * pdecl) : declr :=
  match snd x with
  | PPointer => DPointer
  | PArray None => DArray None
  | PArray (Some (_, s)) => DArray (Some (s, ids (fst x)))
  end.
Lemma combine_app (A B : Type) (a a' : list A) (b b' : list B) : length a = length b ->
  combine (a ++ a') (b ++ b') = combine a b ++ combine a' b'.
Proof. revert b. induction a as [|x a IH]; intros [|y b] L; try discriminate L; [reflexivity|]. cbn. rewrite IH by (cbn in L; lia). reflexivity. Qed.
Lemma as_pointers ids k n : map (as_decl ids) (combine (seq k n) (repeat PPointer n)) = repeat DPointer n.
Proof. revert k. induction n as [|n IH]; intros k; [reflexivity|]. cbn. rewrite IH. reflexivity. Qed.
Fixpoint as_arrays (ids : nat -> N) (k : nat) (l : list name) : list declr :=
  match l with
  | [] => []
  | z :: r => DArray (match z with [] => None | _ => Some (z, ids k) end) :: as_arrays ids (S k) r
  end.
Lemma as_arrays_eq ids l : forall k,
  map (as_decl ids) (combine (seq k (length l)) (map (fun z => match z with [] => PArray None | _ => PArray (Some (true, z)) end) l)) =
  as_arrays ids k l.
Proof.
  induction l as [|z l IH]; intros k; [reflexivity|]. cbn [length seq map combine as_arrays]. rewrite IH. f_equal. destruct z; reflexivity.
Qed.
Lemma back_decl ids t : type_ok c_kind t ->
  c_decl (back ids t) = repeat DPointer (pointers t) ++ as_arrays ids (pointers t) (sizes t).
Proof.
  intros OK. unfold back. rewrite (recovered_lemma _ OK). unfold as_ctype, recovered. cbn [c_decl pt_decl].
  change (fun x : nat * pdecl => match snd x with PPointer => DPointer | PArray (Some (_, s)) => DArray (Some (s, ids (fst x))) | PArray None => DArray None end)
    with (as_decl ids).
  rewrite app_length, repeat_length, map_length, seq_app, combine_app, map_app by (rewrite seq_length, repeat_length; reflexivity).
  rewrite as_pointers. cbn [Nat.add]. rewrite as_arrays_eq. reflexivity.
Qed.
Lemma kind_base w : match base_class w with PQualifier => KQualifier | PStorage => KStorage | _ => KOther end = KOther.
Proof. unfold base_class. destruct (member w modifiers); [reflexivity|]. destruct (member w primitives); reflexivity. Qed.
Lemma of_kind_kind k t s : In s (of_kind k t) -> sp_kind s = k.
Proof. unfold of_kind. intros I. apply filter_In in I. destruct I as [_ I]. destruct (sp_kind s), k; congruence. Qed.
Lemma back_spec ids t : type_ok c_kind t ->
  c_spec (back ids t) = of_kind KQualifier t ++ of_kind KStorage t ++ of_kind KOther t.
Proof.
  intros OK. unfold back. rewrite (recovered_lemma _ OK). unfold as_ctype, recovered. cbn [c_spec pt_spec].
  rewrite !map_app, !map_map. cbn [fst snd]. f_equal; [|f_equal].
  - transitivity (map (fun s : spec => s) (of_kind KQualifier t)); [|apply map_id].
    apply map_ext_in. intros s Is. apply of_kind_kind in Is. destruct s as [k x]. cbn in *. congruence.
  - transitivity (map (fun s : spec => s) (of_kind KStorage t)); [|apply map_id].
    apply map_ext_in. intros s Is. apply of_kind_kind in Is. destruct s as [k x]. cbn in *. congruence.
  - transitivity (map (fun s : spec => s) (of_kind KOther t)); [|apply map_id].
    apply map_ext_in. intros s Is. apply of_kind_kind in Is. destruct s as [k x]. rewrite kind_base. cbn in *. congruence.
Qed.

Lemma filter_filter_other (A : Type) (f g : A -> bool) l : (forall x, f x = true -> g x = false) -> filter g (filter f l) = [].
Proof. intros H. induction l as [|x l IH]; [reflexivity|]. cbn. destruct (f x) eqn:E; [|exact IH]. cbn. rewrite (H _ E). exact IH. Qed.
Lemma filter_idem (A : Type) (f : A -> bool) l : filter f (filter f l) = filter f l.
Proof. induction l as [|x l IH]; [reflexivity|]. cbn. destruct (f x) eqn:E; [|exact IH]. cbn. rewrite E, IH. reflexivity. Qed.
Lemma back_kinds ids t k : type_ok c_kind t -> of_kind k (back ids t) = of_kind k t.
Proof.
  intros OK. unfold of_kind at 1. rewrite (back_spec _ _ OK), !filter_app. unfold of_kind.
  destruct k; rewrite ?filter_idem;
    repeat (rewrite filter_filter_other by (intros x; destruct (sp_kind x); congruence)); rewrite ?app_nil_r; reflexivity.
Qed.
Lemma spec_perm t : Permutation (of_kind KQualifier t ++ of_kind KStorage t ++ of_kind KOther t) (c_spec t).
Proof.
  unfold of_kind. induction (c_spec t) as [|s l IH]; [constructor|]. cbn [filter]. destruct (sp_kind s).
  - rewrite <- IH at 4. symmetry. apply Permutation_middle.
  - cbn [app]. constructor. exact IH.
  - rewrite <- IH at 4. rewrite !app_assoc. symmetry. apply Permutation_middle.
Qed.
Lemma pointers_app l l' s s' s'' : pointers (mkC (l ++ l') s) = (pointers (mkC l s') + pointers (mkC l' s''))%nat.
Proof. unfold pointers. cbn [c_decl]. rewrite filter_app, app_length. reflexivity. Qed.
Lemma pointers_arrays ids k l s : pointers (mkC (as_arrays ids k l) s) = 0%nat.
Proof. revert k. induction l as [|z l IH]; intros k; [reflexivity|]. cbn. apply IH. Qed.
Lemma pointers_repeat n s : pointers (mkC (repeat DPointer n) s) = n.
Proof. induction n as [|n IH]; [reflexivity|]. unfold pointers in *. cbn in *. rewrite IH. reflexivity. Qed.
Lemma back_pointers ids t : type_ok c_kind t -> pointers (back ids t) = pointers t.
Proof.
  intros OK. unfold pointers at 1. rewrite (back_decl _ _ OK).
  change (pointers (mkC (repeat DPointer (pointers t) ++ as_arrays ids (pointers t) (sizes t)) []) = pointers t).
  rewrite (pointers_app _ _ _ [] []), pointers_repeat, pointers_arrays. lia.
Qed.
Lemma sizes_arrays ids k l s : Forall plain_size l -> sizes (mkC (as_arrays ids k l) s) = l.
Proof.
  intros F. revert k. induction F as [|z l P _ IH]; intros k; [reflexivity|]. unfold sizes in *. cbn [c_decl as_arrays flat_map] in *. rewrite IH.
  destruct z; [reflexivity|]. destruct P as [P|P]; [discriminate P|]. rewrite P. reflexivity.
Qed.
Lemma sizes_pointers n l s : sizes (mkC (repeat DPointer n ++ l) s) = sizes (mkC l s).
Proof. induction n as [|n IH]; [reflexivity|]. unfold sizes in *. cbn in *. exact IH. Qed.
Lemma back_sizes ids t : type_ok c_kind t -> sizes (back ids t) = sizes t.
Proof.
  intros OK. unfold sizes at 1. rewrite (back_decl _ _ OK).
  change (sizes (mkC (repeat DPointer (pointers t) ++ as_arrays ids (pointers t) (sizes t)) []) = sizes t).
  rewrite sizes_pointers. apply sizes_arrays, sizes_plain.
Qed.
Lemma back_in_order ids t : type_ok c_kind t -> in_order (back ids t).
Proof.
  intros OK. split.
  - exists (pointers t), (as_arrays ids (pointers t) (sizes t)). split; [apply back_decl, OK|].
    generalize (sizes_plain t). generalize (sizes t). intros l F. generalize (pointers t). 
    induction F as [|z l P _ IH]; intros k; cbn [as_arrays]; constructor; [|apply IH].
    destruct z; [exact I|]. destruct P as [P|P]; [discriminate P|exact P].
  - rewrite !(back_kinds _ _ _ OK). apply back_spec, OK.
Qed.
Lemma back_ok ids t : type_ok c_kind t -> type_ok c_kind (back ids t).
Proof.
  intros OK. pose proof (spec_perm t) as P. rewrite <- (back_spec ids _ OK) in P. destruct OK as [NE F]. split.
  - intros E. rewrite E in P. apply Permutation_nil in P. exact (NE P).
  - apply Forall_forall. intros s Is. rewrite Forall_forall in F. apply F. apply (Permutation_in _ P Is).
Qed.
Lemma back_text_in_order ids t : type_ok c_kind t -> c_spec t = of_kind KQualifier t ++ of_kind KStorage t ++ of_kind KOther t ->
  type_trace_string (back ids t) = type_trace_string t.
Proof.
  intros OK E. rewrite (type_trace_string_text _ _ OK), (type_trace_string_text _ _ (back_ok ids _ OK)).
  rewrite !type_text_eq, !dims_sizes. unfold stars. fold (pointers t). fold (pointers (back ids t)).
  rewrite (back_pointers _ _ OK), (back_sizes _ _ OK), (back_spec _ _ OK), <- E. reflexivity.
Qed.
Lemma back_same ids t : type_ok c_kind t -> in_order t -> same_text (back ids t) t.
Proof.
  intros OK [(n & l & D & F) S]. split; [|rewrite (back_spec _ _ OK); symmetry; exact S].
  rewrite (back_decl _ _ OK).
  assert (PZ : pointers (mkC l []) = 0%nat).
  { clear -F. induction F as [|d l Fd _ IH]; [reflexivity|]. destruct d; [destruct Fd|]. exact IH. }
  assert (PN : pointers t = n).
  { unfold pointers. rewrite D. change (pointers (mkC (repeat DPointer n ++ l) []) = n). rewrite (pointers_app _ _ _ [] []), pointers_repeat, PZ. lia. }
  assert (SZ : sizes t = sizes (mkC l [])).
  { unfold sizes at 1. rewrite D. apply (sizes_pointers n l []). }
  rewrite PN, SZ, D, !map_app. f_equal. clear -F. generalize n. induction F as [|d l Fd _ IH]; intros k; [reflexivity|].
  destruct d as [|[[z i]|]]; [destruct Fd| |].
  - unfold sizes in *. cbn [c_decl flat_map app as_arrays map] in *. rewrite Fd. cbn [app as_arrays map]. rewrite IH.
    destruct z; [discriminate Fd|reflexivity].
  - unfold sizes in *. cbn [c_decl flat_map app as_arrays map] in *. rewrite IH. reflexivity.
Qed.

Lemma pointer_type_pointers t : pointer_type_p t = negb (Nat.eqb (pointers t) 0).
Proof.
  destruct t as [d s]. unfold pointer_type_p, pointers. cbn [c_decl]. induction d as [|x d IH]; [reflexivity|].
  cbn [existsb filter]. rewrite IH. destruct x; reflexivity.
Qed.
Lemma array_type_sizes t : array_type_p t = match sizes t with [] => false | _ => true end.
Proof.
  destruct t as [d s]. unfold array_type_p, sizes. cbn [c_decl]. induction d as [|x d IH]; [reflexivity|].
  cbn [existsb flat_map]. rewrite IH. destruct x as [|[[z i]|]]; reflexivity.
Qed.
Lemma base_other t : base_typename t = join (map sp_text (of_kind KOther t)).
Proof. reflexivity. Qed.
Lemma back_format ids t ps : type_ok c_kind t -> type_format_and_size (back ids t) ps = type_format_and_size t ps.
Proof.
  intros OK. unfold type_format_and_size, string_type_p, c_string_type_p, cpp_string_type_p.
  rewrite !base_other, !pointer_type_pointers, !array_type_sizes, (back_kinds _ _ _ OK), (back_pointers _ _ OK), (back_sizes _ _ OK). reflexivity.
Qed.

(** ** The cache *)
Definition cache_ok (c : cache) : Prop := Forall (fun e => snd e = from_trace_string (fst (fst e))) c.
Lemma cached_eq c s lang : cache_ok c -> fst (from_trace_cached c s lang) = from_trace_string s /\ cache_ok (snd (from_trace_cached c s lang)).
Proof.
  intros C. unfold from_trace_cached. match goal with |- context [find ?f c] => destruct (find f c) as [e|] eqn:E end.
  - split; [|exact C]. apply find_some in E. destruct E as [I E]. apply andb_prop in E. destruct E as [E _].
    apply beq in E. unfold cache_ok in C. rewrite Forall_forall in C. specialize (C _ I). subst s. exact C.
  - split; [reflexivity|]. constructor; [reflexivity|exact C].
Qed.
Lemma requests_eq l : requests [] l = map (fun x => from_trace_string (fst x)) l.
Proof.
  assert (G : forall c, cache_ok c -> requests c l = map (fun x => from_trace_string (fst x)) l).
  { induction l as [|[s lang] l IH]; intros c C; [reflexivity|]. cbn [requests map fst].
    destruct (cached_eq c s lang C) as [A B]. destruct (from_trace_cached c s lang) as [p c']. cbn [fst snd] in *. rewrite A, IH by exact B. reflexivity. }
  apply G. constructor.
Qed.

(** ** Classes *)
Lemma member_false w l : member w l = false -> ~ In w l.
Proof. intros E I. apply (proj2 (member_iff w l)) in I. congruence. Qed.
Lemma classes s :
  Forall (fun x => let w := snd x in
    match fst x with
    | PQualifier => In w [text "const"; text "volatile"; text "restrict"]
    | PStorage => In w [text "extern"; text "static"; text "auto"; text "register"]
    | PModifier => In w [text "signed"; text "unsigned"; text "short"; text "long"]
    | PPrimitive => In w [text "char"; text "int"; text "float"; text "double"]
    | PIdentifier => ~ In w [text "const"; text "volatile"; text "restrict"; text "extern"; text "static"; text "auto"; text "register";
                             text "signed"; text "unsigned"; text "short"; text "long"; text "char"; text "int"; text "float"; text "double"]
    end) (pt_spec (from_trace_string s)).
Proof.
  unfold from_trace_string. cbn [pt_spec]. generalize (map strip_array_or_pointer (split_space s)); intros ws.
  apply Forall_app. split; [|apply Forall_app; split]; apply Forall_forall; intros x Ix; apply in_map_iff in Ix;
    destruct Ix as (w & <- & Iw); apply filter_In in Iw; destruct Iw as [_ E]; cbn [fst snd].
  - apply member_iff, E.
  - apply member_iff, E.
  - apply negb_true_iff, orb_false_iff in E. destruct E as [E1 E2]. unfold base_class.
    destruct (member w modifiers) eqn:E3; [apply member_iff, E3|]. destruct (member w primitives) eqn:E4; [apply member_iff, E4|].
    change (~ In w (qualifiers ++ storage_classes ++ modifiers ++ primitives)).
    intros I. apply in_app_or in I. destruct I as [I|I]; [exact (member_false _ _ E1 I)|].
    apply in_app_or in I. destruct I as [I|I]; [exact (member_false _ _ E2 I)|].
    apply in_app_or in I. destruct I as [I|I]; [exact (member_false _ _ E3 I)|exact (member_false _ _ E4 I)].
Qed.
