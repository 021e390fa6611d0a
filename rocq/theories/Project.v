(** Model: instrumentation of a project with several files and several programs,
    c-cpp.lisp:541-605. *)
From Verif Require Import Base Types Instr InstrIds Lisp.

(** A file of (evolve-files project): does it contain main (contains-main-p), its
    number of ASTs, and the places where statements are inserted, in the order in
    which they are made: the position of the AST in (asts obj) and what the
    functions return there (see [instrument_ast]). *)
Record sfile := mkSF { sf_main : bool; sf_asts : N; sf_places : list (N * list (bool * list (name * ctype))) }.

(** instrumentation-files, lines 541-549 *)
Definition project_files (fs : list sfile) : list sfile :=
  filter (fun f => negb (sf_main f)) fs ++ filter sf_main fs.
Definition with_ids (fs : list sfile) : list (N * sfile) := combine (upfrom 0 (length fs)) fs.

Section Project.
Variable test : name -> name -> bool.   (* of the tables shared by all files, lines 552-554 *)

(** instrument of one file, lines 440-512: the ids come from get-ast-ids-ht,
    lines 399-414 *)
Definition places (p : N * sfile) : list (N * list (bool * list (name * ctype))) :=
  map (fun s => (pack (Some (fst p)) (fst s), snd s)) (sf_places (snd p)).

(** A file after instrumentation: the statements inserted at its places, and the
    tables from which initialize-tracing makes the arrays if the file has main. *)
Record done_file := mkDone { df_code : list (list istmt); df_tables : istate }.

Fixpoint do_files (l : list (N * sfile)) (st : istate) : list done_file * istate :=
  match l with
  | [] => ([], st)
  | p :: r =>
      let '(c, st1) := instrument_all test (places p) st in
      let '(ds, st2) := do_files r st1 in
      (mkDone c st1 :: ds, st2)
  end.

(** instrument of the project, lines 551-589: first the files without main, one
    after the other (num-threads 0 or 1; more threads: InstrPar.v), with numbers
    among themselves, then those with main, with numbers among all.  The tables
    at the end are used for files of (other-files project) with an entry point,
    lines 591-603; these files are not instrumented otherwise. *)
Definition instrument_project (fs : list sfile) : list done_file * istate :=
  let files := project_files fs in
  do_files (with_ids (filter (fun f => negb (sf_main f)) files) ++
            filter (fun p => sf_main (snd p)) (with_ids files)) istate0.
End Project.
