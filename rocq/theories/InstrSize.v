(** Model of places that also log buffer sizes.  The functions given to
    instrument (c-cpp.lisp:456-484) may return any statements; here, next to the
    calls of instrument-c-exprs, calls
      __write_buffer_size(log, address, size);
    (declared in c-cpp.lisp:89-92, defined in 272-279) with variables as
    arguments. *)
From Verif Require Import Base Types Instr InstrRun.

(** What a function returns at a place. *)
Inductive xgroup :=
| XVars (g : bool * list (name * ctype))   (* var-instrument on these variables *)
| XBuf (address size : name).              (* a call of __write_buffer_size *)

(** Inserted statements. *)
Inductive xstmt := XStd (s : istmt) | XSize (address size : name).

Section InstrSize.
Variable test : name -> name -> bool.

(** lines 477-480 *)
Fixpoint x_extra (gs : list xgroup) (st : istate) : list xstmt * istate :=
  match gs with
  | [] => ([], st)
  | XVars (ps, l) :: r =>
      let '(s1, st1) := instrument_c_exprs test l ps st in
      let '(s2, st2) := x_extra r st1 in
      (map XStd s1 ++ s2, st2)
  | XBuf a n :: r =>
      let '(s2, st2) := x_extra r st in
      (XSize a n :: s2, st2)
  end.

(** instrument-ast, lines 456-470, and all places of a program *)
Definition x_ast (id : N) (gs : list xgroup) (st : istate) : list xstmt * istate :=
  let '(extra, st1) := x_extra gs st in (XStd (IId id) :: extra ++ [XStd IEnd], st1).
Fixpoint x_all (sites : list (N * list xgroup)) (st : istate) : list (list xstmt) * istate :=
  match sites with
  | [] => ([], st)
  | (id, gs) :: r =>
      let '(s1, st1) := x_ast id gs st in
      let '(s2, st2) := x_all r st1 in
      (s1 :: s2, st2)
  end.
End InstrSize.

(** The arguments void *address and unsigned long long size (lines 272-274):
    a pointer and an integer converted to 64 bits. *)
Definition run_xstmt (env : name -> rvalue) (s : xstmt) : outcome (list action) :=
  match s with
  | XStd s => run_stmt env s
  | XSize a n =>
      match env a, env n with
      | RPtr p _, RInt z => Ok (write_buffer_size p (Z.to_N (z mod 2 ^ 64)%Z))
      | _, _ => UB UUninit
      end
  end.
Definition run_xstmts (env : name -> rvalue) (l : list xstmt) : outcome (list action) :=
  mapC (run_xstmt env) l.
