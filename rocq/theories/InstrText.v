(** Texts of types: proofs. *)
From Coq Require Import Strings.String.
From Verif Require Import BaseProofs Types Compare PrintPred Instr InstrRun InstrSpec.

Lemma beq : forall a b, bytes_eqb a b = true <-> a = b.
Proof. intros. unfold bytes_eqb. destruct (list_eq_dec byte_eq_dec a b); split; intros; congruence. Qed.
Lemma beq_false : forall a b, bytes_eqb a b = false <-> a <> b.
Proof. intros. unfold bytes_eqb. destruct (list_eq_dec byte_eq_dec a b); split; intros; congruence. Qed.

Definition good (b : byte) : Prop := is_space b = false /\ b <> x7b /\ b <> x0a.

Lemma word_char_good : forall b, word_char b = true -> good b /\ b <> x2a /\ b <> x5b /\ b <> x5d /\ b <> x20 /\ b <> x00.
Proof. intros b H. destruct b; vm_compute in H; try discriminate H; repeat split; try discriminate. Qed.

(** ** Words separated by blanks *)
Lemma word_In : forall w b, word w -> In b w -> word_char b = true.
Proof. intros w b [_ H] I. rewrite forallb_forall in H. auto. Qed.

Lemma join_cons2 : forall x y r, join (x :: y :: r) = x ++ x20 :: join (y :: r).
Proof. reflexivity. Qed.

Lemma join_In : forall ws b, Forall word ws -> In b (join ws) -> word_char b = true \/ b = x20.
Proof.
  induction ws as [|x ws IH]; intros b F I; [destruct I|]. inversion F; subst. destruct ws as [|y ws].
  - left. eapply word_In; eauto.
  - rewrite join_cons2 in I. apply in_app_or in I. destruct I as [I|[I|I]]; [left; eapply word_In; eauto|auto|auto].
Qed.

Lemma join_first : forall ws, ws <> [] -> Forall word ws -> exists b u, join ws = b :: u /\ word_char b = true.
Proof.
  intros [|w ws] NE F; [congruence|]. inversion F as [|? ? W ?]; subst.
  destruct w as [|b u]; [destruct W; congruence|].
  assert (word_char b = true) by (eapply word_In; eauto; left; reflexivity).
  destruct ws; cbn; eauto.
Qed.

Lemma join_last : forall ws, ws <> [] -> Forall word ws -> exists u b, join ws = u ++ [b] /\ word_char b = true.
Proof.
  induction ws as [|x ws IH]; intros NE F; [congruence|]. inversion F as [|? ? W F']; subst. destruct ws as [|y ws].
  - cbn. destruct x as [|b0 x0] using rev_ind; [destruct W; congruence|].
    exists x0, b0. split; auto. eapply word_In; eauto. apply in_or_app. right. left. reflexivity.
  - destruct (IH ltac:(discriminate) F') as (u & b & E & H). rewrite join_cons2, E.
    exists (x ++ x20 :: u), b. split; auto. now rewrite <- app_assoc.
Qed.

Lemma split_blank : forall a b c d, ~ In x20 a -> ~ In x20 c -> a ++ x20 :: b = c ++ x20 :: d -> a = c /\ b = d.
Proof.
  induction a as [|x a IH]; destruct c as [|y c]; cbn; intros d Ha Hc E.
  - injection E as ->. auto.
  - injection E as <- _. exfalso. apply Hc. auto.
  - injection E as -> _. exfalso. apply Ha. auto.
  - injection E as -> E. apply IH in E; [|intuition|intuition]. destruct E; subst; auto.
Qed.

Lemma word_no_blank : forall w, word w -> ~ In x20 w.
Proof. intros w W I. apply word_char_good in I || apply (word_In _ _ W) in I. apply word_char_good in I. intuition congruence. Qed.

Lemma join_inj : forall ws vs, Forall word ws -> Forall word vs -> join ws = join vs -> ws = vs.
Proof.
  induction ws as [|x ws IH]; intros vs Fw Fv E.
  - destruct vs as [|y vs]; auto. exfalso. destruct (join_first (y :: vs)) as (b & u & E' & _); auto; [discriminate|]. rewrite <- E in E'. discriminate E'.
  - destruct vs as [|y vs].
    { exfalso. destruct (join_first (x :: ws)) as (b & u & E' & _); auto; [discriminate|]. rewrite E in E'. discriminate E'. }
    inversion Fw as [|? ? Wx Fw']; subst. inversion Fv as [|? ? Wy Fv']; subst.
    destruct ws as [|x2 ws]; destruct vs as [|y2 vs].
    + cbn in E. congruence.
    + cbn [join] in E. exfalso. apply (word_no_blank x Wx). rewrite E. apply in_or_app. right. left. reflexivity.
    + cbn [join] in E. exfalso. apply (word_no_blank y Wy). rewrite <- E. apply in_or_app. right. left. reflexivity.
    + rewrite !join_cons2 in E. apply split_blank in E; auto using word_no_blank. destruct E as [-> E].
      f_equal. apply IH; auto.
Qed.

(** ** Trimming *)
Lemma trim_left_id : forall b u, is_space b = false -> trim_left (b :: u) = b :: u.
Proof. intros. cbn. now rewrite H. Qed.
Lemma trim_id : forall s b u u' b', s = b :: u -> s = u' ++ [b'] -> is_space b = false -> is_space b' = false -> trim s = s.
Proof.
  intros s b u u' b' E E' H H'. unfold trim. rewrite E, trim_left_id, <- E by auto. rewrite E', rev_app_distr. cbn [rev app].
  rewrite trim_left_id by auto. cbn [rev]. now rewrite rev_involutive.
Qed.
Lemma first_line_id : forall s, ~ In x0a s -> first_line s = s.
Proof.
  induction s as [|b s IH]; cbn; intros H; auto.
  destruct b; try (rewrite IH by intuition; reflexivity). exfalso. apply H. auto.
Qed.
Lemma drop_brace_id : forall u b, b <> x7b -> drop_brace (u ++ [b]) = u ++ [b].
Proof. intros u b H. unfold drop_brace. rewrite rev_app_distr. cbn. destruct b; congruence. Qed.

Lemma trim_to_single_line_id : forall s b u u' b', s = b :: u -> s = u' ++ [b'] -> good b -> good b' -> ~ In x0a s ->
  trim_to_single_line s = s.
Proof.
  intros s b u u' b' E E' (G1 & _ & _) (G2 & G3 & _) H. unfold trim_to_single_line.
  rewrite first_line_id by auto. erewrite (trim_id s) by eauto. rewrite E' at 1. rewrite drop_brace_id by auto. rewrite <- E'.
  eapply trim_id; eauto.
Qed.

(** ** The text of a type *)
Definition stars (t : ctype) : nat :=
  length (filter (fun d => match d with DPointer => true | _ => false end) (c_decl t)).
Definition dims (t : ctype) : name :=
  concat (map (fun d => match d with
                        | DPointer => []
                        | DArray (Some (s, _)) => if integer_text s then text "[" ++ s ++ text "]" else text "[]"
                        | DArray None => text "[]"
                        end) (c_decl t)).

Lemma type_text_eq : forall t, type_text t = repeat x2a (stars t) ++ dims t ++ join (map sp_text (c_spec t)).
Proof. reflexivity. Qed.

Lemma pointer_str_eq : forall t, pointer_str t = repeat x2a (stars t).
Proof.
  intros [d s]. unfold pointer_str, stars. cbn [c_decl]. induction d as [|[] d IH]; [reflexivity| |exact IH].
  cbn [map filter length concat]. rewrite IH. reflexivity.
Qed.
Lemma array_str_eq : forall t, array_str t = dims t.
Proof. reflexivity. Qed.

Lemma dims_chars : forall t b, In b (dims t) -> b <> x2a /\ good b /\ b <> x00.
Proof.
  intros [d s] b. unfold dims. cbn [c_decl]. induction d as [|x d IH]; [intros []|]. cbn [map concat].
  intros I. apply in_app_or in I. destruct I as [I|I]; auto. destruct x as [|[[z i]|]].
  - destruct I.
  - destruct (integer_text z) eqn:Z.
    + apply in_app_or in I. destruct I as [[<-|[]]|I]; [vm_compute; repeat split; discriminate|].
      apply in_app_or in I. destruct I as [I|[<-|[]]]; [|vm_compute; repeat split; discriminate].
      destruct z as [|z0 z]; [discriminate Z|]. unfold integer_text in Z. rewrite forallb_forall in Z. apply Z in I.
      destruct b; vm_compute in I; try discriminate I; vm_compute; repeat split; discriminate.
    + destruct I as [<-|[<-|[]]]; vm_compute; repeat split; discriminate.
  - destruct I as [<-|[<-|[]]]; vm_compute; repeat split; discriminate.
Qed.

Lemma dims_first : forall t, dims t = [] \/ exists u, dims t = x5b :: u.
Proof.
  intros [d s]. unfold dims. cbn [c_decl]. induction d as [|x d IH]; [auto|]. cbn [map concat].
  destruct x as [|[[z i]|]]; cbn [app]; auto.
  - right. destruct (integer_text z); cbn; eauto.
  - right. cbn. eauto.
Qed.
Lemma dims_last : forall t, dims t = [] \/ exists u, dims t = u ++ [x5d].
Proof.
  intros [d s]. unfold dims. cbn [c_decl]. induction d as [|x d IH]; [auto|]. cbn [map concat].
  destruct IH as [->|(u & ->)].
  - rewrite app_nil_r. destruct x as [|[[z i]|]]; auto.
    + right. destruct (integer_text z).
      * exists (text "[" ++ z). now rewrite <- app_assoc.
      * exists [x5b]. reflexivity.
    + right. exists [x5b]. reflexivity.
  - right. eexists. rewrite app_assoc. reflexivity.
Qed.
Lemma dims_array : forall t, array_type_p t = match dims t with [] => false | _ => true end.
Proof.
  intros [d s]. unfold array_type_p, dims. cbn [c_decl]. induction d as [|x d IH]; auto. cbn [map concat existsb].
  destruct x as [|[[z i]|]]; cbn [orb app]; auto. destruct (integer_text z); reflexivity.
Qed.
Lemma stars_pointer : forall t, pointer_type_p t = match stars t with O => false | _ => true end.
Proof.
  intros [d s]. unfold pointer_type_p, stars. cbn [c_decl]. induction d as [|x d IH]; auto. cbn [filter existsb].
  destruct x; cbn; auto.
Qed.

Lemma type_ok_words : forall k t, type_ok k t -> map sp_text (c_spec t) <> [] /\ Forall word (map sp_text (c_spec t)).
Proof.
  intros k t [NE F]. split.
  - destruct (c_spec t); cbn; congruence.
  - apply Forall_forall. intros w I. apply in_map_iff in I. destruct I as (s & <- & I). rewrite Forall_forall in F. apply F. auto.
Qed.

Lemma text_chars : forall k t b, type_ok k t -> In b (type_text t) -> b <> x0a /\ b <> x00.
Proof.
  intros k t b OK I. destruct (type_ok_words _ _ OK) as [_ FW]. rewrite type_text_eq in I.
  apply in_app_or in I. destruct I as [I|I].
  - apply repeat_spec in I. subst. split; discriminate.
  - apply in_app_or in I. destruct I as [I|I].
    + apply dims_chars in I. destruct I as (_ & (_ & _ & H) & H'). auto.
    + apply (join_In _ _ FW) in I. destruct I as [I| ->]; [|split; discriminate].
      apply word_char_good in I. destruct I as ((_ & _ & H) & I). intuition.
Qed.

Lemma type_trace_string_text : forall k t, type_ok k t -> type_trace_string t = type_text t.
Proof.
  intros k t OK. destruct (type_ok_words _ _ OK) as [NE FW].
  assert (E : type_trace_string t = trim_to_single_line (type_text t)).
  { unfold type_trace_string. rewrite pointer_str_eq, array_str_eq. rewrite type_text_eq.
    destruct (c_spec t) as [|s r]; [exfalso; apply NE; reflexivity|]. f_equal. cbn [map].
    destruct (map sp_text r); cbn [join]; rewrite <- ?app_assoc; reflexivity. }
  rewrite E.
  assert (F : exists b u, type_text t = b :: u /\ good b).
  { rewrite type_text_eq. destruct (stars t); cbn [repeat app].
    - destruct (dims_first t) as [-> | (u & ->)]; cbn [app].
      + destruct (join_first _ NE FW) as (b & u & -> & W). exists b, u. split; auto. apply word_char_good in W. tauto.
      + do 2 eexists. split; [reflexivity|]. vm_compute. repeat split; discriminate.
    - do 2 eexists. split; [reflexivity|]. vm_compute. repeat split; discriminate. }
  assert (L : exists u b, type_text t = u ++ [b] /\ good b).
  { rewrite type_text_eq. destruct (join_last _ NE FW) as (u & b & -> & W).
    exists (repeat x2a (stars t) ++ dims t ++ u), b. split; [now rewrite <- !app_assoc|]. apply word_char_good in W. tauto. }
  destruct F as (b & u & E1 & G1). destruct L as (u' & b' & E2 & G2).
  eapply trim_to_single_line_id; eauto. intros I. eapply text_chars in I; eauto. tauto.
Qed.

(** ** The text determines what the type is *)
Lemma repeat_inj : forall n m (x y : name),
  (forall u, x <> x2a :: u) -> (forall u, y <> x2a :: u) -> repeat x2a n ++ x = repeat x2a m ++ y -> n = m /\ x = y.
Proof.
  induction n; destruct m; cbn; intros x y Hx Hy E; auto.
  - exfalso. eapply Hx; eauto.
  - exfalso. eapply Hy. symmetry. eauto.
  - injection E as E. apply IHn in E; auto. destruct E; auto.
Qed.

Lemma dims_inj : forall a b j1 j2 : name,
  (a = [] \/ exists u, a = u ++ [x5d]) -> (b = [] \/ exists u, b = u ++ [x5d]) ->
  ~ In x5d j1 -> ~ In x5d j2 -> a ++ j1 = b ++ j2 -> a = b /\ j1 = j2.
Proof.
  intros a b j1 j2 Ha Hb H1 H2 E.
  assert (X : exists l, (a = b ++ l /\ j2 = l ++ j1) \/ (b = a ++ l /\ j1 = l ++ j2)).
  { clear -E. revert b E. induction a as [|x a IH]; destruct b as [|y b]; cbn; intros E.
    - exists []. auto.
    - exists (y :: b). right. auto.
    - exists (x :: a). left. auto.
    - injection E as -> E. destruct (IH _ E) as (l & [[-> ->]|[-> ->]]); exists l; auto. }
  destruct X as (l & [[-> ->]|[-> ->]]).
  - destruct l as [|x l] using rev_ind; [rewrite app_nil_r; auto|]. exfalso. clear IHl.
    destruct Ha as [Ha|(u & Ha)].
    + apply app_eq_nil in Ha. destruct Ha as [_ Ha]. apply app_eq_nil in Ha. destruct Ha; discriminate.
    + rewrite app_assoc in Ha. apply app_inj_tail in Ha. destruct Ha as [_ ->]. apply H2. apply in_or_app. left. apply in_or_app. right. left. auto.
  - destruct l as [|x l] using rev_ind; [rewrite app_nil_r; auto|]. exfalso. clear IHl.
    destruct Hb as [Hb|(u & Hb)].
    + apply app_eq_nil in Hb. destruct Hb as [_ Hb]. apply app_eq_nil in Hb. destruct Hb; discriminate.
    + rewrite app_assoc in Hb. apply app_inj_tail in Hb. destruct Hb as [_ ->]. apply H1. apply in_or_app. left. apply in_or_app. right. left. auto.
Qed.

Lemma type_text_parts : forall k1 k2 t1 t2, type_ok k1 t1 -> type_ok k2 t2 -> type_text t1 = type_text t2 ->
  stars t1 = stars t2 /\ dims t1 = dims t2 /\ map sp_text (c_spec t1) = map sp_text (c_spec t2).
Proof.
  intros k1 k2 t1 t2 O1 O2 E. destruct (type_ok_words _ _ O1) as [N1 F1]. destruct (type_ok_words _ _ O2) as [N2 F2].
  rewrite !type_text_eq in E.
  assert (NS : forall t k, type_ok k t -> forall u, dims t ++ join (map sp_text (c_spec t)) <> x2a :: u).
  { clear. intros t k O u E. destruct (type_ok_words _ _ O) as [N F]. destruct (dims_first t) as [X|(v & X)]; rewrite X in E.
    - destruct (join_first _ N F) as (b & v & Y & W). cbn in E. rewrite Y in E. injection E as -> _. discriminate W.
    - discriminate E. }
  apply repeat_inj in E; eauto. destruct E as [ES E].
  assert (NB : forall ws, Forall word ws -> ~ In x5d (join ws)).
  { clear. intros ws F I. apply (join_In _ _ F) in I. destruct I as [I|I]; [discriminate I|discriminate I]. }
  apply dims_inj in E; eauto using dims_last. destruct E as [ED E]. split; auto. split; auto. apply join_inj; auto.
Qed.

Lemma words_determined : forall k t1 t2, type_ok k t1 -> type_ok k t2 ->
  map sp_text (c_spec t1) = map sp_text (c_spec t2) -> words t1 = words t2.
Proof.
  intros k [d1 s1] [d2 s2] [_ F1] [_ F2]. unfold words. cbn [c_spec] in *. revert s2 F2.
  induction F1 as [|[k1 x1] s1 [_ E1] _ IH]; destruct s2 as [|[k2 x2] s2]; cbn; intros F2 E; try discriminate; auto.
  inversion F2 as [|? ? [_ E2] F2']; subst. cbn in *. injection E as -> E. subst k1 k2.
  destruct (k x2); cbn; auto. f_equal. auto.
Qed.

(** ** Kinds *)
Lemma words_ok : forall k t, type_ok k t -> Forall word (words t).
Proof.
  intros k t [_ F]. apply Forall_forall. intros w I. apply in_map_iff in I. destruct I as (s & <- & I).
  apply filter_In in I. rewrite Forall_forall in F. apply F. tauto.
Qed.

Definition ws_eqb (a b : list name) : bool := if list_eq_dec (list_eq_dec byte_eq_dec) a b then true else false.
Lemma ws_eqb_eq : forall a b, ws_eqb a b = true <-> a = b.
Proof. intros. unfold ws_eqb. destruct (list_eq_dec (list_eq_dec byte_eq_dec) a b); split; intros; congruence. Qed.

Definition kind_fn (t : ctype) : option kind :=
  let w := words t in
  match c_decl t with
  | [] =>
      match find (fun x => ws_eqb w (fst (fst x))) c_ints with
      | Some (_, sg, n) => Some (CInt sg n)
      | None => if ws_eqb w [text "float"] then Some CFloat
                else if ws_eqb w [text "double"] then Some CDouble
                else if ws_eqb w [text "string"] || ws_eqb w [text "std::string"] then Some CString
                else None
      end
  | _ => if ws_eqb w [text "char"] && xorb (array_type_p t) (pointer_type_p t) then Some CCharPointer
         else Some CPointer
  end.

Lemma array_p_iff : forall t, array_type_p t = true <-> exists s, In (DArray s) (c_decl t).
Proof.
  intros t. unfold array_type_p. rewrite existsb_exists. split.
  - intros ([|s] & I & H); [discriminate|eauto].
  - intros (s & I). exists (DArray s). auto.
Qed.
Lemma pointer_p_iff : forall t, pointer_type_p t = true <-> In DPointer (c_decl t).
Proof.
  intros t. unfold pointer_type_p. rewrite existsb_exists. split.
  - intros ([|s] & I & H); [auto|discriminate].
  - intros I. exists DPointer. auto.
Qed.

Lemma pure_decl : forall t d0 dr, c_decl t = d0 :: dr ->
  (xorb (array_type_p t) (pointer_type_p t) = true <->
   (Forall (eq DPointer) (c_decl t) \/ Forall (fun x => x <> DPointer) (c_decl t))).
Proof.
  intros t d0 dr E.
  pose proof (array_p_iff t) as A. pose proof (pointer_p_iff t) as P.
  split.
  - intros X. destruct (array_type_p t); destruct (pointer_type_p t); try discriminate X.
    + right. apply Forall_forall. intros x I ->. destruct P as [_ P]. specialize (P I). discriminate P.
    + left. apply Forall_forall. intros [|s] I; auto. destruct A as [_ A]. assert (H : false = true) by (apply A; eauto). discriminate H.
  - intros [F|F]; rewrite E in F; inversion F as [|? ? H F']; subst.
    + assert (X1 : pointer_type_p t = true) by (apply P; rewrite E; left; auto).
      assert (X2 : array_type_p t = false).
      { destruct (array_type_p t); auto. destruct A as [A _]. destruct (A eq_refl) as (s & I). rewrite E in I.
        rewrite Forall_forall in F. apply F in I. discriminate I. }
      now rewrite X1, X2.
    + assert (X1 : array_type_p t = true) by (apply A; rewrite E; destruct d0 as [|s]; [congruence|exists s; left; auto]).
      assert (X2 : pointer_type_p t = false).
      { destruct (pointer_type_p t); auto. destruct P as [P _]. specialize (P eq_refl). rewrite E in P.
        rewrite Forall_forall in F. apply F in P. congruence. }
      now rewrite X1, X2.
Qed.

Lemma find_ints : forall w, 
  match find (fun x => ws_eqb w (fst (fst x))) c_ints with
  | Some (w', sg, n) => w = w' /\ In (w', sg, n) c_ints
  | None => forall sg n, ~ In (w, sg, n) c_ints
  end.
Proof.
  intros w. destruct (find _ c_ints) as [[[w' sg] n]|] eqn:F.
  - apply find_some in F. destruct F as [I E]. apply ws_eqb_eq in E. auto.
  - intros sg n I. eapply find_none in F; eauto. cbn in F. assert (X : ws_eqb w w = true) by (apply ws_eqb_eq; auto). congruence.
Qed.

Lemma c_ints_unique : forall w sg n sg' n', In (w, sg, n) c_ints -> In (w, sg', n') c_ints -> sg = sg' /\ n = n'.
Proof.
  intros w sg n sg' n' I I'. unfold c_ints in I, I'. cbn [In] in I, I'.
  repeat (destruct I as [I|I]; [injection I as <- <- <-; repeat (destruct I' as [I'|I']; [solve [discriminate I' | injection I' as <- <-; auto]|]); destruct I'|]).
  destruct I.
Qed.
Lemma c_ints_not : forall w sg n, In (w, sg, n) c_ints -> ~ In w [[text "float"]; [text "double"]; [text "string"]; [text "std::string"]].
Proof.
  intros w sg n I H. unfold c_ints in I. cbn [In] in I.
  repeat (destruct I as [I|I]; [injection I as <- _ _; cbn [In] in H; repeat (destruct H as [H|H]; [discriminate H|]); exact H|]).
  destruct I.
Qed.

Lemma has_kind_fn : forall t k, has_kind t k <-> kind_fn t = Some k.
Proof.
  intros t k. unfold kind_fn. split.
  - intros H. destruct H as [w sg n D I W|D W|D W|d D W (x & r & E) P|D P|D W].
    + rewrite D, W. pose proof (find_ints w) as F. destruct (find _ c_ints) as [[[w' sg'] n']|].
      * destruct F as [-> I']. destruct (c_ints_unique _ _ _ _ _ I I') as [-> ->]. reflexivity.
      * exfalso. eapply F; eauto.
    + rewrite D, W. reflexivity.
    + rewrite D, W. reflexivity.
    + rewrite <- D in E. pose proof (pure_decl _ _ _ E) as X. rewrite E at 1. rewrite W.
      rewrite <- D in P. apply X in P. rewrite P. reflexivity.
    + destruct (c_decl t) as [|d0 dr] eqn:E; [congruence|].
      destruct (ws_eqb (words t) [text "char"] && xorb (array_type_p t) (pointer_type_p t)) eqn:Y; auto.
      exfalso. apply andb_true_iff in Y. destruct Y as [Y1 Y2]. apply ws_eqb_eq in Y1. destruct P as [P|[P (s & Q)]]; [congruence|].
      apply (pure_decl _ _ _ E) in Y2. rewrite E in Y2. destruct Y2 as [F|F]; rewrite Forall_forall in F.
      * apply F in Q. discriminate Q.
      * apply F in P. congruence.
    + rewrite D. destruct W as [-> | ->]; reflexivity.
  - destruct (c_decl t) as [|d0 dr] eqn:D.
    + pose proof (find_ints (words t)) as F. destruct (find _ c_ints) as [[[w' sg'] n']|].
      * destruct F as [W I]. intros E. injection E as <-. eapply hk_int; eauto.
      * destruct (ws_eqb (words t) [text "float"]) eqn:E1.
        { apply ws_eqb_eq in E1. intros E. injection E as <-. apply hk_float; auto. }
        destruct (ws_eqb (words t) [text "double"]) eqn:E2.
        { apply ws_eqb_eq in E2. intros E. injection E as <-. apply hk_double; auto. }
        destruct (ws_eqb (words t) [text "string"] || ws_eqb (words t) [text "std::string"]) eqn:E3; [|discriminate].
        apply orb_true_iff in E3. rewrite !ws_eqb_eq in E3. intros E. injection E as <-. apply hk_string; auto.
    + destruct (ws_eqb (words t) [text "char"] && xorb (array_type_p t) (pointer_type_p t)) eqn:Y; intros E; injection E as <-.
      * apply andb_true_iff in Y. destruct Y as [Y1 Y2]. apply ws_eqb_eq in Y1. apply (pure_decl _ _ _ D) in Y2.
        apply (hk_char t (d0 :: dr)); auto; [eauto|rewrite <- D; exact Y2].
      * apply hk_ptr; [congruence|]. apply andb_false_iff in Y. destruct Y as [Y|Y].
        { left. intros X. apply ws_eqb_eq in X. congruence. }
        right. destruct (array_type_p t) eqn:A; destruct (pointer_type_p t) eqn:P; try discriminate Y.
        { apply array_p_iff in A. apply pointer_p_iff in P. auto. }
        exfalso. destruct d0 as [|s].
        { assert (X : pointer_type_p t = true) by (apply pointer_p_iff; rewrite D; left; auto). congruence. }
        { assert (X : array_type_p t = true) by (apply array_p_iff; rewrite D; exists s; left; auto). congruence. }
Qed.

(** ** The formats the instrumenter chooses *)
Lemma base_words : forall t, base_typename t = join (words t).
Proof. reflexivity. Qed.

Lemma good_tables_ok : Forall (fun x => Forall word (fst (fst x))) c_ints.
Proof. repeat constructor; discriminate. Qed.

Lemma member_iff : forall n l, member n l = true <-> In n l.
Proof.
  intros. unfold member. rewrite existsb_exists. split.
  - intros (x & I & E). apply beq in E. subst. auto.
  - intros I. exists n. split; auto. now apply beq.
Qed.

Lemma names_of_table : forall sg,
  (if sg : bool then signed_names else unsigned_names) =
  map (fun x => join (fst (fst x))) (filter (fun x => Bool.eqb (snd (fst x)) sg) c_ints).
Proof. destruct sg; vm_compute; reflexivity. Qed.

Lemma member_table : forall w (sg : bool), Forall word w ->
  (member (join w) (if sg then signed_names else unsigned_names) = true <-> exists n, In (w, sg, n) c_ints).
Proof.
  intros w sg W. rewrite member_iff, names_of_table, in_map_iff. split.
  - intros ([[w' sg'] n] & E & I). apply filter_In in I. destruct I as [I H]. cbn in *. apply eqb_prop in H. subst sg'.
    pose proof good_tables_ok as G. rewrite Forall_forall in G. specialize (G _ I). cbn in G.
    apply join_inj in E; auto. subst. eauto.
  - intros (n & I). exists (w, sg, n). split; auto. apply filter_In. split; auto. cbn. apply eqb_reflx.
Qed.

Lemma sizeof_table_ok : forall w sg n, In (w, sg, n) c_ints -> sizeof (join w) = n.
Proof.
  intros w sg n I. unfold c_ints in I. cbn [In] in I.
  repeat (destruct I as [I|I]; [injection I as <- _ <-; vm_compute; reflexivity|]). destruct I.
Qed.

Lemma join_eqb : forall w v, Forall word w -> Forall word v -> bytes_eqb (join w) (join v) = ws_eqb w v.
Proof.
  intros w v W V. destruct (ws_eqb w v) eqn:E.
  - apply ws_eqb_eq in E. subst. now apply beq.
  - apply beq_false. intros X. apply join_inj in X; auto. apply ws_eqb_eq in X. congruence.
Qed.

Definition fmt_of_kind (ps : bool) (k : kind) : option (fmt * N) :=
  if as_string ps k then Some (BLOB, 0)
  else match k with
       | CInt true n => Some (SIGNED, n)
       | CInt false n => Some (UNSIGNED, n)
       | CFloat => Some (FLOAT, 4)
       | CDouble => Some (FLOAT, 8)
       | CPointer | CCharPointer => Some (POINTER, 8)
       | CString => None
       end.

(** [compiles]: see InstrSpec.site_ok. *)
Definition compiles (ps : bool) (t : ctype) : Prop :=
  ps = true -> c_decl t <> [] -> words t <> [text "string"] /\ words t <> [text "std::string"].

Lemma wd1 : forall s, forallb word_char (text s) = true -> text s <> [] -> Forall word [text s].
Proof. intros. constructor; [split; auto|constructor]. Qed.

Lemma c_string_p_fn : forall k t, type_ok k t -> c_string_type_p t = match kind_fn t with Some CCharPointer => true | _ => false end.
Proof.
  intros k t OK. pose proof (words_ok _ _ OK) as W. unfold c_string_type_p. rewrite base_words.
  change (text "char") with (join [text "char"]). rewrite (join_eqb _ _ W) by (apply wd1; [reflexivity|discriminate]).
  unfold kind_fn. destruct (c_decl t) eqn:D.
  - assert (A : array_type_p t = false) by (unfold array_type_p; rewrite D; auto).
    assert (P : pointer_type_p t = false) by (unfold pointer_type_p; rewrite D; auto).
    rewrite A, P, andb_false_r. destruct (find _ c_ints) as [[[? ?] ?]|]; auto.
    repeat match goal with |- context [if ?b then _ else _] => destruct b end; reflexivity.
  - destruct (ws_eqb _ _ && _); reflexivity.
Qed.
Lemma cpp_string_p_eq : forall k t, type_ok k t ->
  cpp_string_type_p t = ws_eqb (words t) [text "string"] || ws_eqb (words t) [text "std::string"].
Proof.
  intros k t OK. pose proof (words_ok _ _ OK) as W. unfold cpp_string_type_p. rewrite base_words.
  change (text "string") with (join [text "string"]). change (text "std::string") with (join [text "std::string"]).
  rewrite !(join_eqb _ _ W) by (apply wd1; [reflexivity|discriminate]). reflexivity.
Qed.
Lemma cpp_string_p_fn : forall k t, type_ok k t -> (c_decl t <> [] -> words t <> [text "string"] /\ words t <> [text "std::string"]) ->
  cpp_string_type_p t = match kind_fn t with Some CString => true | _ => false end.
Proof.
  intros k t OK C. rewrite (cpp_string_p_eq _ _ OK).
  unfold kind_fn. destruct (c_decl t) eqn:D.
  - pose proof (find_ints (words t)) as F. destruct (find _ c_ints) as [[[w sg] n]|].
    + destruct F as [W' I]. apply c_ints_not in I. apply orb_false_iff. rewrite W'. split.
      * destruct (ws_eqb _ _) eqn:X; auto. apply ws_eqb_eq in X. exfalso. apply I. rewrite X. cbn. auto.
      * destruct (ws_eqb _ _) eqn:X; auto. apply ws_eqb_eq in X. exfalso. apply I. rewrite X. cbn. auto 6.
    + destruct (ws_eqb (words t) [text "float"]) eqn:E1; [apply ws_eqb_eq in E1; rewrite E1; reflexivity|].
      destruct (ws_eqb (words t) [text "double"]) eqn:E2; [apply ws_eqb_eq in E2; rewrite E2; reflexivity|].
      destruct (ws_eqb (words t) [text "string"] || ws_eqb (words t) [text "std::string"]); reflexivity.
  - destruct (C ltac:(discriminate)) as [C1 C2].
    assert (X1 : ws_eqb (words t) [text "string"] = false) by (destruct (ws_eqb (words t) [text "string"]) eqn:X; auto; apply ws_eqb_eq in X; congruence).
    assert (X2 : ws_eqb (words t) [text "std::string"] = false) by (destruct (ws_eqb (words t) [text "std::string"]) eqn:X; auto; apply ws_eqb_eq in X; congruence).
    rewrite X1, X2. destruct (ws_eqb _ _ && _); reflexivity.
Qed.

Lemma fmt_kind : forall kf t ps, type_ok kf t -> compiles ps t ->
  type_format_and_size t ps = match kind_fn t with Some k => fmt_of_kind ps k | None => None end.
Proof.
  intros kf t ps OK C. pose proof (words_ok _ _ OK) as W. unfold type_format_and_size, string_type_p.
  rewrite (c_string_p_fn _ _ OK). rewrite base_words.
  assert (EC : ps && (match kind_fn t with Some CCharPointer => true | _ => false end || cpp_string_type_p t)
             = match kind_fn t with Some k => as_string ps k | None => false end).
  { destruct ps; [|cbn; destruct (kind_fn t) as [[]|]; reflexivity]. rewrite (cpp_string_p_fn _ _ OK) by (apply C; auto).
    destruct (kind_fn t) as [[]|]; reflexivity. }
  rewrite EC. clear EC.
  destruct (kind_fn t) as [k|] eqn:K.
  - unfold fmt_of_kind. destruct (as_string ps k) eqn:AS; [reflexivity|].
    unfold kind_fn in K. destruct (c_decl t) eqn:D.
    + assert (A : array_type_p t = false) by (unfold array_type_p; rewrite D; auto).
      assert (P : pointer_type_p t = false) by (unfold pointer_type_p; rewrite D; auto).
      rewrite A, P. cbn [orb]. pose proof (find_ints (words t)) as F. destruct (find _ c_ints) as [[[w sg] n]|].
      * destruct F as [EW I]. injection K as <-. rewrite EW in *. destruct sg.
        -- assert (M : member (join w) signed_names = true) by (apply (member_table w true W); eauto).
           rewrite M, (sizeof_table_ok _ _ _ I). reflexivity.
        -- destruct (member (join w) signed_names) eqn:M.
           { apply (member_table w true W) in M. destruct M as (n' & I'). destruct (c_ints_unique _ _ _ _ _ I I'). discriminate. }
           assert (M' : member (join w) unsigned_names = true) by (apply (member_table w false W); eauto).
           rewrite M', (sizeof_table_ok _ _ _ I). reflexivity.
      * assert (M : member (join (words t)) signed_names = false).
        { destruct (member (join (words t)) signed_names) eqn:M; auto. apply (member_table _ true W) in M. destruct M as (n & I). exfalso. eapply F; eauto. }
        assert (M' : member (join (words t)) unsigned_names = false).
        { destruct (member (join (words t)) unsigned_names) eqn:M'; auto. apply (member_table _ false W) in M'. destruct M' as (n & I). exfalso. eapply F; eauto. }
        rewrite M, M'. change (text "float") with (join [text "float"]). change (text "double") with (join [text "double"]).
        rewrite !(join_eqb _ _ W) by (apply wd1; [reflexivity|discriminate]).
        destruct (ws_eqb (words t) [text "float"]); [injection K as <-; reflexivity|].
        destruct (ws_eqb (words t) [text "double"]); [injection K as <-; reflexivity|].
        destruct (ws_eqb (words t) [text "string"] || ws_eqb (words t) [text "std::string"]); [injection K as <-; reflexivity|discriminate K].
    + assert (X : pointer_type_p t || array_type_p t = true).
      { unfold pointer_type_p, array_type_p. rewrite D. cbn. destruct d; cbn; auto. apply orb_true_r. }
      rewrite X. destruct (ws_eqb _ _ && _); injection K as <-; reflexivity.
  - unfold kind_fn in K. destruct (c_decl t) eqn:D.
    + assert (A : array_type_p t = false) by (unfold array_type_p; rewrite D; auto).
      assert (P : pointer_type_p t = false) by (unfold pointer_type_p; rewrite D; auto).
      rewrite A, P. cbn [orb]. pose proof (find_ints (words t)) as F. destruct (find _ c_ints) as [[[w sg] n]|]; [discriminate K|].
      assert (M : member (join (words t)) signed_names = false).
      { destruct (member (join (words t)) signed_names) eqn:M; auto. apply (member_table _ true W) in M. destruct M as (n & I). exfalso. eapply F; eauto. }
      assert (M' : member (join (words t)) unsigned_names = false).
      { destruct (member (join (words t)) unsigned_names) eqn:M'; auto. apply (member_table _ false W) in M'. destruct M' as (n & I). exfalso. eapply F; eauto. }
      rewrite M, M'. change (text "float") with (join [text "float"]). change (text "double") with (join [text "double"]).
      rewrite !(join_eqb _ _ W) by (apply wd1; [reflexivity|discriminate]).
      destruct (ws_eqb (words t) [text "float"]); [discriminate K|].
      destruct (ws_eqb (words t) [text "double"]); [discriminate K|]. reflexivity.
    + destruct (ws_eqb _ _ && _); discriminate K.
Qed.

(** Types with the same text have the same kind. *)
Lemma kind_determined : forall kf t1 t2, type_ok kf t1 -> type_ok kf t2 -> type_text t1 = type_text t2 ->
  kind_fn t1 = kind_fn t2.
Proof.
  intros kf t1 t2 O1 O2 E. destruct (type_text_parts _ _ _ _ O1 O2 E) as (S & D & W).
  apply (words_determined _ _ _ O1 O2) in W. unfold kind_fn. rewrite W.
  rewrite !dims_array, !stars_pointer, S, D.
  assert (X : match c_decl t1 with [] => true | _ => false end = match c_decl t2 with [] => true | _ => false end).
  { assert (Y : forall t, match c_decl t with [] => true | _ => false end = negb (pointer_type_p t) && negb (array_type_p t)).
    { intros t. unfold pointer_type_p, array_type_p. destruct (c_decl t) as [|[] l]; cbn; auto. now rewrite andb_false_r. }
    rewrite !Y, !dims_array, !stars_pointer, S, D. reflexivity. }
  destruct (c_decl t1); destruct (c_decl t2); try discriminate X; reflexivity.
Qed.
