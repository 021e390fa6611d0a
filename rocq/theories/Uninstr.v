(** Model: is a file or project instrumented, and removing the instrumentation of
    projects: instrumentation/instrument.lisp:20-24, 48-58 and
    instrumentation/c-cpp.lisp:417-420, 541-605. *)
From Coq Require Import List Bool Arith NArith.
From Verif Require Import Base Types Instr Splice SetupSpec.
Import ListNotations.
Open Scope nat_scope.

Section Projects.
(** Does this text of the program contain the name of the log variable?  (A name
    that begins in one piece of text and ends in another is not considered.) *)
Variable names_log : N -> bool.
Variable is_main : ast -> bool.

(** instrumented-p of a file, c-cpp.lisp:417-420: the calls, the declarations, and
    the initialisation contain the name (lines 64, 309, 998, 1046, 1057), the
    implementation (lines 101-283) and the entry macro (lines 291-297) do not. *)
Definition mentions_log (c : content) : bool :=
  match c with
  | Txt a => names_log a
  | Ins _ => true
  | Setup n => (N.eqb n 1 || N.eqb n 4)%bool
  | Mark _ => false
  end.
Definition instrumented_p (o : software) : bool := existsb mentions_log (texts (sw_genome o)).

(** The arguments of instrument: how ASTs are classified (see Splice.v), the
    filter, and the calls. *)
Record job := mkJob {
  j_struct : ast -> bool;
  j_else : ast -> bool;
  j_keep : path -> ast -> bool;
  j_bef : path -> list istmt;
  j_aft : path -> list istmt }.
Definition instrument_with (o : software) (j : job) : software :=
  instrument (j_struct j) (j_else j) (j_keep j) (j_bef j) (j_aft j) is_main o.

(** A project: evolve-files and other-files. *)
Record cproject := mkPr { pr_evolve : list software; pr_other : list software }.

(** contains-main-p, c-cpp.lisp:1136-1147 *)
Definition contains_main (o : software) : bool :=
  negb (length (main_paths (fun _ => false) is_main (sw_genome o)) =? 0).

(** c-cpp.lisp:592-603: support code for a file that is not instrumented itself. *)
Definition setup_only (o : software) : software :=
  if contains_main o then
    let r2 := inject_opt (setup_path pick_first (sw_genome o)) [fragment (Setup 1)] [] (sw_genome o) in
    let r3 := inject_opt (setup_path pick_last r2) [] [fragment (Setup 2)] r2 in
    let mains := main_paths (fun _ => false) is_main (sw_genome o) in
    let r4 := fold_left (fun r p => inject p [fragment (Setup 3)] [] r) mains r3 in
    mkSW (inject_opt (setup_path pick_last r4) [] [fragment (Setup 4)] r4) (sw_flags o)
  else o.

(** instrument of a project, c-cpp.lisp:551-605; what is inserted in a file
    depends on the tables, so on the other files (Project.v): [js] has a job for
    each file. *)
Fixpoint instrument_files (os : list software) (js : list job) : list software :=
  match os, js with
  | o :: os', j :: js' => instrument_with o j :: instrument_files os' js'
  | _, _ => os
  end.
Definition instrument_pr (p : cproject) (js : list job) : cproject :=
  mkPr (instrument_files (pr_evolve p) js) (map setup_only (pr_other p)).

(** uninstrument of a project, instrument.lisp:53-58: for the files of
    instrumentation-files, that is, in another order, the evolve-files
    (c-cpp.lisp:541-549). *)
Definition uninstrument_pr (p : cproject) : cproject :=
  mkPr (map uninstrument (pr_evolve p)) (pr_other p).

(** instrumented-p of a project, instrument.lisp:20-24 *)
Definition instrumented_pr (p : cproject) : bool := existsb instrumented_p (pr_evolve p).
End Projects.
