(** Programs that fork: proofs about the steps. *)
From Coq Require Import Permutation.
From Verif Require Import BaseProofs Types Instr InstrRun InstrSpec Fork ForkSpec.

(** ** The stream *)
Lemma fput_fits : forall B buf bs, lenN (buf ++ bs) <= B -> fput B buf bs = ([], buf ++ bs).
Proof. intros B buf bs H. rewrite lenN_app in H. unfold fput. destruct (N.leb_spec (lenN bs) (B - lenN buf)); auto. lia. Qed.
Lemma fput_bytes : forall B buf bs, concat (fst (fput B buf bs)) ++ snd (fput B buf bs) = buf ++ bs.
Proof.
  intros. unfold fput. destruct (lenN bs <=? B - lenN buf); auto. cbn [fst snd concat].
  set (d := _ - _ mod _). rewrite <- (takeN_dropN _ (B - lenN buf) bs) at 4.
  destruct (N.eqb_spec d 0) as [->|_]; cbn [concat]; rewrite <- ?app_assoc; f_equal; f_equal; rewrite ?app_nil_r, ?app_nil_l.
  - destruct (dropN (B - lenN buf) bs); reflexivity.
  - apply takeN_dropN.
Qed.
Lemma flush_bytes : forall buf, concat (flush buf) = buf.
Proof. destruct buf; cbn [flush concat]; auto. now rewrite app_nil_r. Qed.
Lemma feed_bytes : forall B l file buf, fst (feed B file buf l) ++ snd (feed B file buf l) = file ++ buf ++ written l.
Proof.
  induction l as [|a l IH]; intros file buf; cbn [feed].
  - cbn. now rewrite app_nil_r.
  - destruct a; try apply IH. rewrite IH. unfold written at 2. cbn [map concat]. fold (written l).
    rewrite <- !app_assoc. f_equal. rewrite !app_assoc. f_equal. apply fput_bytes.
Qed.

(** ** Lists *)
Lemma update_mid : forall A (l : list A) x r y, update (l ++ x :: r) (length l) y = l ++ y :: r.
Proof. induction l; intros; cbn; auto. now rewrite IHl. Qed.
Lemma nth_mid : forall A (l : list A) x r, nth_error (l ++ x :: r) (length l) = Some x.
Proof. induction l; intros; cbn; auto. Qed.
Lemma nth_at : forall A (l : list A) i x, nth_error l i = Some x -> exists a b, l = a ++ x :: b /\ length a = i.
Proof. exact nth_error_split. Qed.
Lemma F2_split : forall A B (R : A -> B -> Prop) l a x b, Forall2 R l (a ++ x :: b) ->
  exists a' x' b', l = a' ++ x' :: b' /\ Forall2 R a' a /\ R x' x /\ Forall2 R b' b /\ length a' = length a.
Proof.
  intros A B R l a x b F. apply Forall2_app_inv_r in F. destruct F as (a' & q & F1 & F2 & ->). inversion F2 as [|x' ? b' ? H1 H2]; subst.
  exists a', x', b'. repeat split; auto. clear -F1. induction F1; cbn; auto.
Qed.

Section Forks.
Variable code : list (list istmt).
Variable B : N.

Definition acts_of (ws : list (list byte)) : list action := ALock :: map AWrite ws ++ [AFlush; AUnlock].
Definition bytes_of (e : event) : list byte := match event_run code e with Ok a => written a | _ => [] end.
(** Passes that write a point of at most [B] bytes. *)
Definition small (e : event) : Prop :=
  exists ws, event_run code e = Ok (acts_of ws) /\ concat ws <> [] /\ lenN (concat ws) <= B.

Lemma written_acts : forall ws, written (acts_of ws) = concat ws.
Proof.
  intros. unfold written, acts_of. cbn [map]. rewrite map_app, map_map, map_id. cbn [concat]. rewrite concat_app. cbn. now rewrite app_nil_r.
Qed.
Lemma bytes_acts : forall e ws, event_run code e = Ok (acts_of ws) -> bytes_of e = concat ws.
Proof. intros e ws H. unfold bytes_of. rewrite H. apply written_acts. Qed.

Definition idle (it : list item) (t : list pact) : Prop := runs code it t /\ every small it.

Lemma idle_do : forall it a r, idle it (PDo a :: r) -> exists e it' ws b, it = IPass e :: it' /\ event_run code e = Ok (acts_of ws) /\
  concat ws <> [] /\ lenN (concat ws) <= B /\ a = ALock /\ r = map PDo (map AWrite ws ++ [AFlush; AUnlock]) ++ b /\ idle it' b.
Proof.
  intros it a r [R E]. inversion R as [|e a0 it' b H1 H2 E1 E2| |]; subst; try discriminate. inversion E as [|? ? (ws & W1 & W2 & W3) E'| |]; subst.
  rewrite W1 in H1. injection H1 as <-. unfold acts_of in E2. cbn [map app] in E2. injection E2 as <- <-.
  exists e, it', ws, b. repeat match goal with |- _ /\ _ => split end; auto; now split.
Qed.
Lemma idle_nil : forall it, idle it [] -> it = [].
Proof.
  intros it [R E]. inversion R as [|e a0 it' b H1 H2 E1 E2| |]; subst; auto. inversion E as [|? ? (ws & W1 & _) E'| |]; subst.
  rewrite W1 in H1. injection H1 as <-. discriminate.
Qed.
Lemma idle_fork : forall it c r, idle it (PFork c :: r) -> exists ic ir, it = IFork ic :: ir /\ idle ic c /\ idle ir r.
Proof.
  intros it c r [R E]. inversion R as [|e a0 it' b H1 H2 E1 E2|ic ? ir ? H1 H2|]; subst.
  - inversion E as [|? ? (ws & W1 & _) E'| |]; subst. rewrite W1 in H1. injection H1 as <-. discriminate.
  - inversion E; subst. exists ic, ir. unfold idle. auto.
Qed.
Lemma idle_exit : forall it r, idle it (PExit :: r) -> exists ir, it = IExit :: ir.
Proof.
  intros it r [R E]. inversion R as [|e a0 it' b H1 H2 E1 E2| |]; subst; eauto.
  inversion E as [|? ? (ws & W1 & _) E'| |]; subst. rewrite W1 in H1. injection H1 as <-. discriminate.
Qed.

(** ** A process *)

(** Outside points; inside one, part of it written; flushing it; after that. *)
Inductive mode := MFree | MIn (e : event) (part : list byte) | MOut (e : event) | MEnd.
Inductive core : option nat -> list (list pact) -> list (list item) -> mode -> Prop :=
| co_free : forall ths its, Forall2 idle its ths -> core None ths its MFree
| co_in : forall t1 t2 b l1 l2 r e ws1 ws2, Forall2 idle l1 t1 -> Forall2 idle l2 t2 -> idle r b ->
    event_run code e = Ok (acts_of (ws1 ++ ws2)) -> concat (ws1 ++ ws2) <> [] -> lenN (concat (ws1 ++ ws2)) <= B ->
    core (Some (length t1)) (t1 ++ (map PDo (map AWrite ws2 ++ [AFlush; AUnlock]) ++ b) :: t2) (l1 ++ (IPass e :: r) :: l2) (MIn e (concat ws1))
| co_out : forall t1 t2 b l1 l2 r e, Forall2 idle l1 t1 -> Forall2 idle l2 t2 -> idle r b -> small e ->
    core (Some (length t1)) (t1 ++ (PDo AUnlock :: b) :: t2) (l1 ++ (IPass e :: r) :: l2) (MOut e)
| co_end : forall t1 t2 b l1 l2 r, Forall2 idle l1 t1 -> Forall2 idle l2 t2 -> idle r b ->
    core (Some (length t1)) (t1 ++ (PDo AUnlock :: b) :: t2) (l1 ++ r :: l2) MEnd.

(** The thread next to the one that is inside a point. *)
Lemma other : forall t1 x t2 l1 l2 j y, Forall2 idle l1 t1 -> Forall2 idle l2 t2 -> nth_error (t1 ++ x :: t2) j = Some y ->
  j = length t1 /\ y = x \/ exists it, idle it y.
Proof.
  intros t1 x t2 l1 l2 j y F1 F2 H. destruct (Nat.lt_trichotomy j (length t1)) as [L|[->|L]].
  - right. rewrite nth_error_app1 in H by auto. apply nth_error_split in H. destruct H as (a & b & -> & _).
    apply F2_split in F1. destruct F1 as (? & it & ? & _ & _ & X & _). eauto.
  - left. rewrite nth_mid in H. injection H as <-. auto.
  - right. rewrite nth_error_app2 in H by lia. destruct (j - length t1)%nat as [|k] eqn:K; [lia|]. cbn in H.
    apply nth_error_split in H. destruct H as (a & b & -> & _). apply F2_split in F2. destruct F2 as (? & it & ? & _ & _ & X & _). eauto.
Qed.
Lemma not_idle : forall it a r, a <> ALock -> idle it (PDo a :: r) -> False.
Proof. intros it a r N H. apply idle_do in H. destruct H as (? & ? & ? & ? & _ & _ & _ & _ & -> & _). auto. Qed.

Lemma core_lock : forall T I m j r, core None T I m -> nth_error T j = Some (PDo ALock :: r) ->
  m = MFree /\ exists e, core (Some j) (update T j r) I (MIn e []).
Proof.
  intros T I m j r C H. inversion C; subst. split; auto. apply nth_at in H. destruct H as (t1 & t2 & -> & <-).
  match goal with F : Forall2 _ _ _ |- _ => apply F2_split in F; destruct F as (l1 & it & l2 & -> & F1 & X & F2 & _) end.
  apply idle_do in X. destruct X as (e & it' & ws & b & -> & W1 & W2 & W3 & _ & -> & X). rewrite update_mid. exists e.
  apply (co_in t1 t2 b l1 l2 it' e [] ws); auto.
Qed.
Lemma core_write : forall L T I m j bs r, core L T I m -> nth_error T j = Some (PDo (AWrite bs) :: r) ->
  exists e part, m = MIn e part /\ core L (update T j r) I (MIn e (part ++ bs)) /\ lenN (part ++ bs) <= B.
Proof.
  intros L T I m j bs r C H. inversion C as [? ? F|t1 t2 b l1 l2 q e ws1 ws2 F1 F2 Q E N S|t1 t2 b l1 l2 q e F1 F2 Q S|t1 t2 b l1 l2 q F1 F2 Q]; subst.
  - apply nth_at in H. destruct H as (a & c & -> & <-). apply F2_split in F. destruct F as (? & it & ? & _ & _ & X & _). exfalso. apply not_idle in X; auto. discriminate.
  - destruct (other _ _ _ _ _ _ _ F1 F2 H) as [[-> X]|[it X]]; [|exfalso; apply not_idle in X; auto; discriminate].
    destruct ws2 as [|w ws2]; cbn [map app] in X; [discriminate|]. injection X as <- ->. exists e, (concat ws1). split; auto. rewrite update_mid.
    assert (Z : concat ws1 ++ bs = concat (ws1 ++ [bs])) by (rewrite concat_app; cbn; now rewrite app_nil_r).
    assert (Y : ws1 ++ bs :: ws2 = (ws1 ++ [bs]) ++ ws2) by (now rewrite <- app_assoc).
    rewrite Z. rewrite Y in E, N, S. split; [apply co_in; auto|]. rewrite concat_app, lenN_app in S. lia.
  - destruct (other _ _ _ _ _ _ _ F1 F2 H) as [[-> X]|[it X]]; [discriminate|]. exfalso. apply not_idle in X; auto. discriminate.
  - destruct (other _ _ _ _ _ _ _ F1 F2 H) as [[-> X]|[it X]]; [discriminate|]. exfalso. apply not_idle in X; auto. discriminate.
Qed.
Lemma core_flush : forall L T I m j r, core L T I m -> nth_error T j = Some (PDo AFlush :: r) ->
  exists e, m = MIn e (bytes_of e) /\ core L (update T j r) I (MOut e) /\ small e.
Proof.
  intros L T I m j r C H. inversion C as [? ? F|t1 t2 b l1 l2 q e ws1 ws2 F1 F2 Q E N S|t1 t2 b l1 l2 q e F1 F2 Q S|t1 t2 b l1 l2 q F1 F2 Q]; subst.
  - apply nth_at in H. destruct H as (a & c & -> & <-). apply F2_split in F. destruct F as (? & it & ? & _ & _ & X & _). exfalso. apply not_idle in X; auto. discriminate.
  - destruct (other _ _ _ _ _ _ _ F1 F2 H) as [[-> X]|[it X]]; [|exfalso; apply not_idle in X; auto; discriminate].
    destruct ws2 as [|w ws2]; cbn [map app] in X; [|discriminate]. injection X as ->. exists e. rewrite app_nil_r in *.
    rewrite (bytes_acts _ _ E). assert (small e) by (exists ws1; auto). split; auto. rewrite update_mid. split; auto. apply co_out; auto.
  - destruct (other _ _ _ _ _ _ _ F1 F2 H) as [[-> X]|[it X]]; [discriminate|]. exfalso. apply not_idle in X; auto. discriminate.
  - destruct (other _ _ _ _ _ _ _ F1 F2 H) as [[-> X]|[it X]]; [discriminate|]. exfalso. apply not_idle in X; auto. discriminate.
Qed.
Lemma core_unlock : forall L T I m j r, core L T I m -> nth_error T j = Some (PDo AUnlock :: r) ->
  (m = MEnd /\ core None (update T j r) I MFree) \/ exists e, m = MOut e.
Proof.
  intros L T I m j r C H. inversion C as [? ? F|t1 t2 b l1 l2 q e ws1 ws2 F1 F2 Q E N S|t1 t2 b l1 l2 q e F1 F2 Q S|t1 t2 b l1 l2 q F1 F2 Q]; subst; eauto.
  - apply nth_at in H. destruct H as (a & c & -> & <-). apply F2_split in F. destruct F as (? & it & ? & _ & _ & X & _). exfalso. apply not_idle in X; auto. discriminate.
  - destruct (other _ _ _ _ _ _ _ F1 F2 H) as [[-> X]|[it X]]; [|exfalso; apply not_idle in X; auto; discriminate].
    destruct ws2 as [|w ws2]; cbn [map app] in X; discriminate.
  - destruct (other _ _ _ _ _ _ _ F1 F2 H) as [[-> X]|[it X]]; [|exfalso; apply not_idle in X; auto; discriminate].
    injection X as ->. left. split; auto. rewrite update_mid. constructor. apply Forall2_app; auto.
Qed.
Lemma core_done : forall L T I e, core L T I (MOut e) -> exists l1 r l2, I = l1 ++ (IPass e :: r) :: l2 /\ core L T (l1 ++ r :: l2) MEnd.
Proof. intros L T I e C. inversion C; subst. do 3 eexists. split; [reflexivity|]. apply co_end; auto. Qed.
Lemma core_fork : forall T I m j c r, core None T I m -> nth_error T j = Some (PFork c :: r) ->
  m = MFree /\ exists l1 ic ir l2, I = l1 ++ (IFork ic :: ir) :: l2 /\ core None (update T j r) (l1 ++ ir :: l2) MFree /\ idle ic c.
Proof.
  intros T I m j c r C H. inversion C as [? ? F| | |]; subst. split; auto. apply nth_at in H. destruct H as (t1 & t2 & -> & <-).
  apply F2_split in F. destruct F as (l1 & it & l2 & -> & F1 & X & F2 & _). apply idle_fork in X. destruct X as (ic & ir & -> & X1 & X2).
  exists l1, ic, ir, l2. split; auto. split; auto. rewrite update_mid. constructor. apply Forall2_app; auto.
Qed.
Lemma core_none : forall L T I m, core L T I m -> L = None -> m = MFree /\ Forall2 idle I T.
Proof. intros L T I m C E. inversion C; subst; try discriminate. auto. Qed.

(** ** History *)
Lemma history_pass : forall ps l q, interleaving ps l q -> forall e r q', Permutation q ((IPass e :: r) :: q') -> interleaving ps (l ++ [e]) (r :: q').
Proof.
  induction 1 as [ps|ps qs l q PM H IH|e0 r0 ps l q H IH|c r0 ps l q H IH]; intros e r q' X.
  - eapply hi_any; [exact X|]. apply hi_pass. constructor.
  - eapply hi_any; eauto.
  - cbn [app]. apply hi_pass. eauto.
  - apply hi_fork. eauto.
Qed.
Lemma history_fork : forall ps l q, interleaving ps l q -> forall c r q', Permutation q ((IFork c :: r) :: q') -> interleaving ps l (c :: r :: q').
Proof.
  induction 1 as [ps|ps qs l q PM H IH|e0 r0 ps l q H IH|c0 r0 ps l q H IH]; intros c r q' X.
  - eapply hi_any; [exact X|]. apply hi_fork. constructor.
  - eapply hi_any; eauto.
  - apply hi_pass. eauto.
  - apply hi_fork. eauto.
Qed.
Lemma history_perm : forall ps l q, interleaving ps l q -> forall q', Permutation q q' -> interleaving ps l q'.
Proof.
  induction 1 as [ps|ps qs l q PM H IH|e0 r0 ps l q H IH|c0 r0 ps l q H IH]; intros q' X.
  - eapply hi_any; [exact X|]. constructor.
  - eapply hi_any; eauto.
  - apply hi_pass. eauto.
  - apply hi_fork. eauto.
Qed.
End Forks.
