(** Specification of C99: code that runs before the log is set up, and the
    passes of a run. *)
From Coq Require Import Strings.String.
From Verif Require Import Base Types Compare PrintPred Instr InstrRun InstrSpec CRead Startup.

(** Instrumented places that the code passes. *)
Definition passes (s : list step) : list event := flat_map (fun x => match x with SPass e => [e] | SSetup => [] end) s.
Definition quiet (f : initfn) : Prop := in_steps f = [].

(** No other code sets the log up. *)
Definition no_setup (s : list step) : Prop := ~ In SSetup s.
Definition one_setup (g : program) : Prop :=
  no_setup (g_preinit g) /\ Forall (Forall (fun f => no_setup (in_steps f))) (g_libs g) /\
  Forall (fun f => no_setup (in_steps f)) (g_inits g) /\ no_setup (g_main g) /\ no_setup (g_exit g).

(** Initialisation functions of the executable that pass instrumented places
    have no priority or a number above 101; preinit functions and
    initialisation functions of shared libraries pass none. *)
Definition late (f : initfn) : Prop := match in_priority f with Some p => 101 < p | None => True end.
Definition late_enough (g : program) : Prop :=
  g_preinit g = [] /\ Forall (Forall quiet) (g_libs g) /\ Forall (fun f => quiet f \/ late f) (g_inits g).

(** All passes of the program are through its sites, with values of the right types. *)
Definition passes_ok (sites : list site) (g : program) : Prop :=
  Forall (event_ok sites) (passes (g_preinit g)) /\
  Forall (Forall (fun f => Forall (event_ok sites) (passes (in_steps f)))) (g_libs g) /\
  Forall (fun f => Forall (event_ok sites) (passes (in_steps f))) (g_inits g) /\
  Forall (event_ok sites) (passes (g_main g)) /\ Forall (event_ok sites) (passes (g_exit g)).

(** ** The text of the setup code *)

(** constructor(n))) f( at the start of the tokens: n and f. *)
Definition constructor_at (ts : list ctok) : option (N * name) :=
  match ts with
  | KId c :: a :: KNum z :: b1 :: b2 :: b3 :: KId f :: d :: _ =>
      if bytes_eqb c (text "constructor") && is x28 a && is x29 b1 && is x29 b2 && is x29 b3 && is x28 d
      then match num_value z with Some (n, false) => Some (n, f) | _ => None end
      else None
  | _ => None
  end.
(** The first function with a constructor attribute in C text: its priority and its name. *)
Fixpoint first_constructor (ts : list ctok) : option (N * name) :=
  match ts with
  | [] => None
  | _ :: r => match constructor_at ts with Some x => Some x | None => first_constructor r end
  end.
