(** Model: compilers whose plain char, or wchar_t, is unsigned (char: ARM, PowerPC, RISC-V
    and gcc -funsigned-char; wchar_t: ARM).  The instrumenter lists both as signed
    (instrumentation/c-cpp.lisp:953-958); the inserted code is that of Instr.v.  A variable
    of type char is promoted to int, whose value is 0 to 255 then. *)
From Coq Require Import Strings.String.
From Verif Require Import Base Types Stream SkipList MemMapSpec Reader Compare PrintPred FormatSpec Instr InstrRun InstrSpec.

Section Machine.
Variables char_unsigned wchar_unsigned : bool.

(** The size of a variable of that type, if the type is one that the instrumenter takes
    for signed although it is not. *)
Definition mistaken (t : ctype) : option N :=
  match c_decl t, words t with
  | [], [w] => if char_unsigned && bytes_eqb w (text "char") then Some 1
               else if wchar_unsigned && bytes_eqb w (text "wchar_t") then Some 4 else None
  | _, _ => None
  end.

(** Values that a variable of type [t] has on that machine ([loggable] of InstrSpec.v on x86-64). *)
Definition value_on (t : ctype) (v : rvalue) : Prop :=
  match mistaken t with
  | Some n => exists z, v = RInt z /\ (0 <= z < 2 ^ (8 * Z.of_N n))%Z
  | None => forall k, has_kind t k -> loggable k v
  end.
Definition variables (s : site) : list (name * ctype) := concat (map snd (snd s)).
(** A name has one type at a place. *)
Definition one_type (s : site) : Prop :=
  forall n t t', In (n, t) (variables s) -> In (n, t') (variables s) -> t = t'.
Definition event_on (sites : list site) (e : event) : Prop :=
  exists s, nth_error sites (fst e) = Some s /\ one_type s /\ Forall (fun x => value_on (snd x) (snd e (fst x))) (variables s).

(** The value that a trace shows. *)
Definition shown (t : ctype) (v : rvalue) : rvalue :=
  match mistaken t, v with
  | Some n, RInt z => RInt (if z <? 2 ^ (8 * Z.of_N n - 1) then z else z - 2 ^ (8 * Z.of_N n))%Z
  | _, _ => v
  end.
(** [point_shows] and [event_shows] of InstrSpec.v with [shown]. *)
Definition point_shows_on (tr : trace (option N)) (s : site) (env : name -> rvalue) (p : point (option N)) : Prop :=
  p_stmt p = Some (fst s) /\ p_sizes p = [] /\ p_aux p = [] /\
  exists l, site_vars (snd s) l /\
    Forall2 (fun y x => var_shows tr (fst (fst y)) (snd (fst y)) (snd y) (shown (snd y) (env (snd (fst y)))) x) l (p_vars p).
Definition event_shows_on (sites : list site) (tr : trace (option N)) (e : event) (p : point (option N)) : Prop :=
  exists s, nth_error sites (fst e) = Some s /\ point_shows_on tr s (snd e) p.
End Machine.
