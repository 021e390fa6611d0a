(** Specification of programs built from an instrumented project. *)
From Coq Require Import Permutation.
From Verif Require Import Base Types Instr InstrRun InstrSpec InstrReq Lisp Project.

(** A program is linked from files of the project, given by their numbers; it
    gets the arrays of its entry: a file of the project with main, or a file that
    is not instrumented itself. *)
Inductive entry_point := EFile (k : nat) | EOther.

(** The passes of a program: file, place in it, and values of the variables. *)
Definition pass : Type := nat * nat * (name -> rvalue).
Definition place_of (fs : list sfile) (e : pass) : option (N * list (bool * list (name * ctype))) :=
  match nth_error (project_files fs) (fst (fst e)) with
  | Some f => nth_error (sf_places f) (snd (fst e))
  | None => None
  end.
(** Through a place of a file of the program, with values of the right types. *)
Definition pass_ok (fs : list sfile) (linked : list nat) (e : pass) : Prop :=
  In (fst (fst e)) linked /\ exists s, place_of fs e = Some s /\ env_ok s (snd e).
(** What the inserted statements do. *)
Definition pass_run (ds : list done_file) (e : pass) : outcome (list action) :=
  match nth_error ds (fst (fst e)) with
  | Some d => match nth_error (df_code d) (snd (fst e)) with Some c => run_stmts (snd e) c | None => UB UOob end
  | None => UB UOob
  end.

(** A point shows a pass: the statement id is that of the file and of the AST,
    and the variables are logged. *)
Definition pass_shows (fs : list sfile) (tr : trace (option N)) (e : pass) (p : point (option N)) : Prop :=
  exists s id, place_of fs e = Some s /\ p_stmt p = Some id /\
    unpack_f id = Some (N.of_nat (fst (fst e))) /\ unpack_c id = fst s /\
    point_shows tr (id, snd s) (snd e) p.

(** The arrays of the program. *)
Definition arrays (test : name -> name -> bool) (r : list done_file * istate) (e : entry_point) (names : list name) (types : list tdesc) : Prop :=
  match e with
  | EFile k => exists d, nth_error (fst r) k = Some d /\ emitted test (df_tables d) names types
  | EOther => emitted test (snd r) names types
  end.
(** None of the files linked is instrumented after the entry: files without main
    never are; for a file with main it depends on the order. *)
Definition before (e : entry_point) (linked : list nat) : Prop :=
  match e with EFile k => Forall (fun j => (j <= k)%nat) linked | EOther => True end.

(** ** Conditions *)
Definition project_texts (fs : list sfile) : list name := all_texts (concat (map sf_places fs)).
Definition project_ok (kf : name -> skind) (fs : list sfile) : Prop :=
  lenN fs <= 2 ^ 23 /\
  Forall (fun f => sf_asts f <= 2 ^ 40 /\ Forall (fun s => fst s < sf_asts f) (sf_places f) /\ Forall (site_ok kf) (sf_places f)) fs.
