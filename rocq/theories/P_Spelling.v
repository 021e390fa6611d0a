(** C107: integer variables, however their types are spelled. *)
From Coq Require Import Strings.String Permutation.
From Verif Require Import BaseProofs Types Compare PrintPred Instr InstrRun InstrSpec InstrText Spelling SpellingProofs P_Instr.

(** A variable of an integer type that is logged is logged with the right signedness and
    size, however its type is spelled. *)
Theorem C107_right : forall kf t ps signed size f n, type_ok kf t -> c_decl t = [] -> spells (words t) signed size ->
  type_format_and_size t ps = Some (f, n) -> f = (if signed then SIGNED else UNSIGNED) /\ n = size.
Proof. intros kf t ps sg size f n OK D S E. rewrite (logged_spelling _ _ _ _ _ OK D S) in E. destruct (in_dec _ _ _); [|discriminate]. injection E as <- <-. auto. Qed.
Print Assumptions C107_right.

(** It is logged exactly if the spelling is one of eight. *)
Theorem C107_known : forall kf t ps signed size, type_ok kf t -> c_decl t = [] -> spells (words t) signed size ->
  (type_format_and_size t ps <> None <-> In (words t) known).
Proof. intros kf t ps sg size OK D S. rewrite (logged_spelling _ _ _ _ _ OK D S). destruct (in_dec _ _ _); split; intros; congruence || auto. Qed.
Print Assumptions C107_known.

(** Every integer type of C has spellings with which its variables are not logged. *)
Theorem C107_every_type_refuted : forall sets signed size, In (sets, signed, size) spellings ->
  exists x w, In x sets /\ Permutation w x /\
  forall kf t ps, type_ok kf t -> c_decl t = [] -> words t = w -> type_format_and_size t ps = None.
Proof.
  assert (G : forall sets sg size x w, In (sets, sg, size) spellings -> In x sets -> Permutation w x -> ~ In w known ->
    exists x w, In x sets /\ Permutation w x /\ forall kf t ps, type_ok kf t -> c_decl t = [] -> words t = w -> type_format_and_size t ps = None).
  { intros sets sg size x w I1 I2 P NK. exists x, w. split; [exact I2|]. split; [exact P|]. intros kf t ps OK D E.
    rewrite (logged_spelling kf t ps sg size OK D) by (exists sets, x; rewrite E; auto). rewrite E. destruct (in_dec _ _ _); [contradiction|reflexivity]. }
  assert (NK : forall w, forallb (fun k => if list_eq_dec name_dec k w then false else true) known = true -> ~ In w known).
  { intros w F I. rewrite forallb_forall in F. specialize (F _ I). destruct (list_eq_dec name_dec w w); congruence. }
  intros sets sg size I. pose proof I as I0. unfold spellings in I0. cbn [In] in I0.
  repeat match type of I0 with _ \/ _ => destruct I0 as [I0|I0] end; try contradiction; injection I0 as <- <- <-.
  - eapply G; [exact I|right; now left|apply Permutation_refl|apply NK; vm_compute; reflexivity].
  - eapply G; [exact I|now left|apply perm_swap|apply NK; vm_compute; reflexivity].
  - eapply G; [exact I|now left|apply Permutation_refl|apply NK; vm_compute; reflexivity].
  - eapply G; [exact I|now left|apply Permutation_refl|apply NK; vm_compute; reflexivity].
  - eapply G; [exact I|right; now left|apply Permutation_refl|apply NK; vm_compute; reflexivity].
  - eapply G; [exact I|now left|apply Permutation_refl|apply NK; vm_compute; reflexivity].
  - eapply G; [exact I|now left|apply Permutation_refl|apply NK; vm_compute; reflexivity].
  - eapply G; [exact I|now left|apply Permutation_refl|apply NK; vm_compute; reflexivity].
  - eapply G; [exact I|now left|apply Permutation_refl|apply NK; vm_compute; reflexivity].
  - eapply G; [exact I|now left|apply Permutation_refl|apply NK; vm_compute; reflexivity].
Qed.
Print Assumptions C107_every_type_refuted.

(** Types of which no spelling is logged: long long and unsigned long long. *)
Theorem C107_long_long_refuted : forall kf t ps w, type_ok kf t -> c_decl t = [] -> Permutation (words t) w ->
  In w [ws ["long"; "long"]; ws ["signed"; "long"; "long"]; ws ["long"; "long"; "int"]; ws ["signed"; "long"; "long"; "int"];
        ws ["unsigned"; "long"; "long"]; ws ["unsigned"; "long"; "long"; "int"]]%string ->
  type_format_and_size t ps = None.
Proof.
  intros kf t ps w OK D P I.
  assert (S : exists sg, spells (words t) sg 8).
  { cbn [In] in I. repeat match type of I with _ \/ _ => destruct I as [I|I] end; try contradiction; subst w.
    1-4: exists true; eexists; eexists; (split; [do 8 right; left; reflexivity|split; [|exact P]]); cbn [In]; auto.
    1-2: exists false; eexists; eexists; (split; [do 9 right; left; reflexivity|split; [|exact P]]); cbn [In]; auto. }
  destruct S as (sg & S). rewrite (logged_spelling _ _ _ _ _ OK D S). destruct (in_dec _ _ _) as [K|_]; [exfalso|reflexivity].
  assert (A : forallb (fun k => forallb (fun x => negb (same_counts k x))
    [ws ["long"; "long"]; ws ["signed"; "long"; "long"]; ws ["long"; "long"; "int"]; ws ["signed"; "long"; "long"; "int"];
     ws ["unsigned"; "long"; "long"]; ws ["unsigned"; "long"; "long"; "int"]]%string) known = true) by (vm_compute; reflexivity).
  rewrite forallb_forall in A. specialize (A _ K). rewrite forallb_forall in A. specialize (A _ I). rewrite (perm_counts _ _ P) in A. discriminate.
Qed.
Print Assumptions C107_long_long_refuted.

(** What a pass writes does not depend on variables whose type is spelled otherwise, in
    any program. *)
Theorem C107_lost_refuted : forall test kf sites names types code i s n, instrumented test sites names types code -> Forall (site_ok kf) sites ->
  nth_error sites i = Some s ->
  (forall g t, In g (snd s) -> In (n, t) (snd g) -> c_decl t = [] /\ ~ In (words t) known /\ exists signed size, spells (words t) signed size) ->
  forall env env', (forall m, m <> n -> env m = env' m) -> event_run code (i, env) = event_run code (i, env').
Proof.
  intros test kf sites names types code i s n (st & _ & _ & E & _) SO NS H env env' EE.
  apply (all_unseen _ _ _ _ _ _ _ _ _ E NS). apply Forall_forall. intros g I. apply Forall_forall. intros [m t] J. unfold unseen. cbn [fst snd].
  destruct (name_dec m n) as [->|NE]; [left|right; auto]. destruct (H g t I J) as (D & NK & sg & size & S).
  assert (OK : type_ok kf t).
  { rewrite Forall_forall in SO. destruct (SO _ (nth_error_In _ _ NS)) as (_ & _ & T & _). rewrite Forall_forall in T. apply T. unfold site_types. apply in_concat. eexists. split; [apply in_map; exact I|]. apply in_map_iff. exists (n, t). auto. }
  rewrite (logged_spelling _ _ _ _ _ OK D S). destruct (in_dec _ _ _); [contradiction|reflexivity].
Qed.
Print Assumptions C107_lost_refuted.

(** [unsigned y] beside [unsigned int x]. *)
Example C107_case : exists tx ty, type_ok ex_kf tx /\ type_ok ex_kf ty /\ c_decl tx = [] /\ c_decl ty = [] /\
  spells (words tx) false 4 /\ spells (words ty) false 4 /\ In (words tx) known /\ ~ In (words ty) known /\
  type_format_and_size tx false = Some (UNSIGNED, 4) /\ type_format_and_size ty false = None.
Proof.
  exists (mkC [] [mkSpec KOther (text "unsigned"); mkSpec KOther (text "int")]), (mkC [] [mkSpec KOther (text "unsigned")]).
  assert (T : forall l, Forall (fun s => word (sp_text s) /\ sp_kind s = ex_kf (sp_text s)) l -> l <> [] -> type_ok ex_kf (mkC [] l)) by (intros l F N; split; assumption).
  assert (W : forall w, forallb word_char w = true -> w <> [] -> ex_kf w = KOther -> word (sp_text (mkSpec KOther w)) /\ sp_kind (mkSpec KOther w) = ex_kf (sp_text (mkSpec KOther w))) by (intros w A B C; split; [split; assumption|symmetry; exact C]).
  split; [apply T; [constructor; [apply W; [crunch|discriminate|crunch]|constructor; [apply W; [crunch|discriminate|crunch]|constructor]]|discriminate]|].
  split; [apply T; [constructor; [apply W; [crunch|discriminate|crunch]|constructor]|discriminate]|].
  split; [reflexivity|]. split; [reflexivity|].
  split; [exists [ws ["unsigned"]; ws ["unsigned"; "int"]]%string, (ws ["unsigned"; "int"])%string; split; [do 5 right; left; reflexivity|split; [right; now left|apply Permutation_refl]]|].
  split; [exists [ws ["unsigned"]; ws ["unsigned"; "int"]]%string, (ws ["unsigned"])%string; split; [do 5 right; left; reflexivity|split; [now left|apply Permutation_refl]]|].
  split; [do 5 right; now left|]. split; [intro X; vm_compute in X; intuition discriminate|]. split; crunch.
Qed.
