(** Model: statement ids given out when a project is instrumented. *)
From Verif Require Import Base Types Stream Reader Compare Predicate Query CHeap CApi Lisp.

(** A file: does it contain main, and its number of ASTs. *)
Record pfile := mkPF { pf_main : bool; pf_asts : N }.

(** 0 .. n-1 *)
Fixpoint upfrom (i : N) (n : nat) : list N :=
  match n with O => [] | S n => i :: upfrom (i + 1) n end.

(** get-ast-ids-ht, c-cpp.lisp:399-414 (the ids of the ASTs in order); the file
    id is packed as in binary-trace-db.lisp ([pack]). *)
Definition get_ast_ids (file : option N) (asts : N) : list N :=
  map (pack file) (upfrom 0 (N.to_nat asts)).

(** instrumentation-files, c-cpp.lisp:541-549 *)
Definition instrumentation_files (fs : list pfile) : list pfile :=
  filter (fun f => negb (pf_main f)) fs ++ filter pf_main fs.

(** instrument of a project, lines 559-589: ids of the ASTs of the files without
    main (numbered among themselves), then of the files with main (numbered among all). *)
Definition numbered_files (fs : list pfile) : list (N * pfile) := combine (upfrom 0 (length fs)) fs.
Definition project_ids (fs : list pfile) : list (list N) :=
  let files := instrumentation_files fs in
  map (fun p => get_ast_ids (Some (fst p)) (pf_asts (snd p)))
    (numbered_files (filter (fun f => negb (pf_main f)) files) ++
     filter (fun p => pf_main (snd p)) (numbered_files files)).
