(** Specification: the spellings of the integer types of C (C11 6.7.2p2 lists them; the
    specifiers may come in any order), with signedness and size on x86-64.  The model of
    the instrumenter, type-format-and-size of instrumentation/c-cpp.lisp:942-972, is
    [type_format_and_size] of Instr.v. *)
From Coq Require Import Strings.String Permutation.
From Verif Require Import Base Types PrintPred Instr InstrSpec.

Definition ws (l : list string) : list name := map (fun s => text s) l.
Definition spellings : list (list (list name) * bool * N) :=
  [([ws ["char"]; ws ["signed"; "char"]], true, 1);
   ([ws ["unsigned"; "char"]], false, 1);
   ([ws ["short"]; ws ["signed"; "short"]; ws ["short"; "int"]; ws ["signed"; "short"; "int"]], true, 2);
   ([ws ["unsigned"; "short"]; ws ["unsigned"; "short"; "int"]], false, 2);
   ([ws ["int"]; ws ["signed"]; ws ["signed"; "int"]], true, 4);
   ([ws ["unsigned"]; ws ["unsigned"; "int"]], false, 4);
   ([ws ["long"]; ws ["signed"; "long"]; ws ["long"; "int"]; ws ["signed"; "long"; "int"]], true, 8);
   ([ws ["unsigned"; "long"]; ws ["unsigned"; "long"; "int"]], false, 8);
   ([ws ["long"; "long"]; ws ["signed"; "long"; "long"]; ws ["long"; "long"; "int"]; ws ["signed"; "long"; "long"; "int"]], true, 8);
   ([ws ["unsigned"; "long"; "long"]; ws ["unsigned"; "long"; "long"; "int"]], false, 8)]%string.
(** The words [w] spell an integer type of C. *)
Definition spells (w : list name) (signed : bool) (size : N) : Prop :=
  exists sets x, In (sets, signed, size) spellings /\ In x sets /\ Permutation w x.

(** The spellings that the instrumenter knows. *)
Definition known : list (list name) :=
  map ws [["char"]; ["unsigned"; "char"]; ["short"; "int"]; ["unsigned"; "short"; "int"]; ["int"]; ["unsigned"; "int"]; ["long"; "int"]; ["unsigned"; "long"; "int"]]%string.
