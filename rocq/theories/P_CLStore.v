(** Property C95: a Lisp object in which databases occur can be stored and
    restored (sexp-trace-db.lisp:34-45, binary-trace-db.lisp:256-273, 628-639).
    [low_byte]: what cl-store writes of a type code; [rest]: whatever else is in the
    file; [ver]: version of the archive library. *)
From Coq Require Import Strings.String.
From Verif Require Import BaseProofs Types CApi CApiSpec ArchiveSpec PrintPred CLStore CLStoreSpec CLStoreProofs.
From Verif Require P_Archive.

(** C95.  Any object without views of binary databases is restored, wherever and
    however often databases and views of s-expression databases occur in it, and what
    follows in the file can be read. *)
Theorem C95_restored : forall ver ok o, (forall n, ok n = true) -> ver < 2 ^ 16 -> dbs_storable o -> has_view o = false ->
  exists o', comes_back o o' /\ forall rest, restore ver ok (store low_byte ver o ++ rest) = Got o' rest.
Proof.
  intros ver ok o Hok Hv D V. destruct (store_restore ver ok low_byte Hok Hv false o) as (o' & C & R); [repeat split; discriminate|exact D|auto|].
  exists o'. split; [exact C|]. intros rest. apply R. rewrite app_length. lia.
Qed.
Print Assumptions C95_restored.

(** Expected: views of binary databases do not prevent this, since nothing is stored
    for them.  False for every object in which one occurs: the code of the class,
    256, is written as 0, and nothing can be restored. *)
Theorem C95_view_refuted : forall ver ok o, (forall n, ok n = true) -> ver < 2 ^ 16 -> dbs_storable o -> has_view o = true ->
  forall rest, restore ver ok (store low_byte ver o ++ rest) = Error.
Proof.
  intros ver ok o Hok Hv D V rest. apply store_error; auto; [repeat split; discriminate|]. intros r [|f]; reflexivity.
Qed.
Print Assumptions C95_view_refuted.

(** With codes that are written in full every object is restored. *)
Theorem C95_fixed : forall ver ok o, (forall n, ok n = true) -> ver < 2 ^ 16 -> dbs_storable o ->
  exists o', comes_back o o' /\ forall rest, restore ver ok (store (fun c => c) ver o ++ rest) = Got o' rest.
Proof.
  intros ver ok o Hok Hv D. destruct (store_restore ver ok (fun c => c) Hok Hv true o) as (o' & C & R); [repeat split|exact D|discriminate|].
  exists o'. split; [exact C|]. intros rest. apply R. rewrite app_length. lia.
Qed.
Print Assumptions C95_fixed.

(** A program with its traces, a view of them for one of its files, and the same
    without the view. *)
Definition db95 : db := push_trace (fun n => n) create_db (mkTr [] [] [mkP 7 0 [] [] []]).
Definition file95 (v : lobj) : lobj := LStd (text "C") (LCons (LCons (LSym (text "TRACES")) v) lnil).
Definition project95 (v : lobj) : lobj :=
  LStd (text "C-PROJECT") (LCons (LCons (LSym (text "TRACES")) (LDb db95 (LCons (LText (text "test 1")) lnil))) (LCons (LCons (LSym (text "FILES")) (LCons (file95 v) lnil)) lnil)).
Lemma db95_storable : storable (traces db95).
Proof.
  split; [reflexivity|]. split; [reflexivity|]. split.
  - constructor; [|constructor]. repeat split; repeat constructor.
  - intros t u p q [<-|[]] [<-|[]] [<-|[]] [<-|[]] _. auto.
Qed.
Example C95_hyps : dbs_storable (project95 LView) /\ has_view (project95 LView) = true /\
  dbs_storable (project95 LSexpView) /\ has_view (project95 LSexpView) = false /\ traces db95 <> [].
Proof. pose proof db95_storable. cbn [dbs_storable project95 file95 lnil]. intuition discriminate. Qed.
Example C95_ex : restore 16 (fun _ => true) (store low_byte 16 (project95 LView)) = Error /\
  match restore 16 (fun _ => true) (store low_byte 16 (project95 LSexpView)) with
  | Got (LStd c (LCons (LCons _ (LDb d m)) l)) [] => traces d = traces db95 /\ m = LCons (LText (text "test 1")) lnil /\ l = LCons (LCons (LSym (text "FILES")) (LCons (file95 lnil) lnil)) lnil
  | _ => False
  end.
Proof. split; [|split; [|split]]; vm_compute; reflexivity. Qed.
