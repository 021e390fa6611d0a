(** Specification of what an instrumented program logs, independent of the
    tables of the instrumenter and of the C code that writes the log. *)
From Coq Require Import Strings.String Permutation.
From Verif Require Import Base Types FormatSpec PrintPred Instr InstrRun.

(** ** Types of variables *)

(** A word of a type: no blanks, braces, brackets, stars, control characters. *)
Definition word_char (b : byte) : bool :=
  let n := N_of_byte b in
  (33 <=? n) && negb (existsb (N.eqb n) [42; 91; 93; 123]).
Definition word (w : name) : Prop := w <> [] /\ forallb word_char w = true.

(** Types whose specifiers are single words; [kind_of] says which words are
    storage classes and qualifiers. *)
Definition type_ok (kind_of : name -> skind) (t : ctype) : Prop :=
  c_spec t <> [] /\
  Forall (fun s => word (sp_text s) /\ sp_kind s = kind_of (sp_text s)) (c_spec t).

(** The words that say what the type is. *)
Definition words (t : ctype) : list name :=
  map sp_text (filter (fun s => match sp_kind s with KOther => true | _ => false end) (c_spec t)).

(** C integer types and their size on x86-64. *)
Definition c_ints : list (list name * bool * N) :=
  [([text "char"], true, 1); ([text "int8_t"], true, 1); ([text "wchar_t"], true, 4);
   ([text "short"; text "int"], true, 2); ([text "int16_t"], true, 2); ([text "int"], true, 4);
   ([text "int32_t"], true, 4); ([text "long"; text "int"], true, 8); ([text "int64_t"], true, 8);
   ([text "unsigned"; text "char"], false, 1); ([text "uint8_t"], false, 1);
   ([text "unsigned"; text "short"; text "int"], false, 2); ([text "uint16_t"], false, 2);
   ([text "unsigned"; text "int"], false, 4); ([text "uint32_t"], false, 4);
   ([text "unsigned"; text "long"; text "int"], false, 8); ([text "uint64_t"], false, 8);
   ([text "size_t"], false, 8)].

Inductive kind := CInt (signed : bool) (bytes : N) | CFloat | CDouble | CPointer | CCharPointer | CString.

(** What the type of a variable means in C / C++.  Types not covered (structs,
    bool, long double, ...) are not logged. *)
Inductive has_kind (t : ctype) : kind -> Prop :=
| hk_int : forall w sg n, c_decl t = [] -> In (w, sg, n) c_ints -> words t = w -> has_kind t (CInt sg n)
| hk_float : c_decl t = [] -> words t = [text "float"] -> has_kind t CFloat
| hk_double : c_decl t = [] -> words t = [text "double"] -> has_kind t CDouble
| hk_char : forall d, c_decl t = d -> words t = [text "char"] ->
    (exists x r, d = x :: r) -> (Forall (eq DPointer) d \/ Forall (fun x => x <> DPointer) d) ->
    has_kind t CCharPointer
| hk_ptr : c_decl t <> [] ->
    (words t <> [text "char"] \/ In DPointer (c_decl t) /\ exists s, In (DArray s) (c_decl t)) ->
    has_kind t CPointer
| hk_string : c_decl t = [] -> words t = [text "string"] \/ words t = [text "std::string"] ->
    has_kind t CString.

(** Values of a variable of that kind. *)
Definition inhabits (k : kind) (v : rvalue) : Prop :=
  match k, v with
  | CInt true n, RInt z => (- 2 ^ (8 * Z.of_N n - 1) <= z < 2 ^ (8 * Z.of_N n - 1))%Z
  | CInt false n, RInt z => (0 <= z < 2 ^ (8 * Z.of_N n))%Z
  | CFloat, RFloat b => b < 2 ^ 32
  | CDouble, RDouble b => b < 2 ^ 64
  | CPointer, RPtr a _ => a < 2 ^ 64
  | CCharPointer, RPtr a s => a < 2 ^ 64 /\ nul_free s
  | CString, RString _ => True
  | _, _ => False
  end.

(** Signalling NaNs of type float. *)
Definition signalling (b : N) : Prop :=
  (b / 2 ^ 23) mod 2 ^ 8 = 255 /\ 0 < b mod 2 ^ 23 /\ b mod 2 ^ 23 < 2 ^ 22.

(** Values that can be logged: C strings below 4 GiB when strings are logged,
    no signalling float NaNs. *)
Definition loggable (k : kind) (v : rvalue) : Prop :=
  inhabits k v /\
  match k, v with
  | CCharPointer, RPtr _ s | CString, RString s => lenN s < 2 ^ 32
  | CFloat, RFloat b => ~ signalling b
  | _, _ => True
  end.

(** ** What is logged *)

(** Logged as a string? *)
Definition as_string (print_strings : bool) (k : kind) : bool :=
  print_strings && match k with CCharPointer | CString => true | _ => false end.

(** [shows print_strings k v f size x]: a logged variable of format [f], size
    [size] and value [x] shows that a variable of kind [k] had value [v]. *)
Inductive shows (print_strings : bool) : kind -> rvalue -> fmt -> N -> value -> Prop :=
| sh_signed : forall n z u, u < 2 ^ 64 -> s64 u = z -> shows print_strings (CInt true n) (RInt z) SIGNED n (VBits u)
| sh_unsigned : forall n z, shows print_strings (CInt false n) (RInt z) UNSIGNED n (VBits (Z.to_N z))
| sh_float : forall b, shows print_strings CFloat (RFloat b) FLOAT 4 (VBits b)
| sh_double : forall b, shows print_strings CDouble (RDouble b) FLOAT 8 (VBits b)
| sh_ptr : forall k a s, k = CPointer \/ k = CCharPointer -> as_string print_strings k = false ->
    shows print_strings k (RPtr a s) POINTER 8 (VBits a)
| sh_cstr : forall a s, print_strings = true ->
    shows print_strings CCharPointer (RPtr a s) BLOB (lenN s) (VBlob s)
| sh_str : forall s, print_strings = true ->
    shows print_strings CString (RString s) BLOB (lenN s) (VBlob s).

(** The text of a type in the log: stars, dimensions, words. *)
Definition type_text (t : ctype) : name :=
  repeat x2a (length (filter (fun d => match d with DPointer => true | _ => false end) (c_decl t))) ++
  concat (map (fun d => match d with
                        | DPointer => []
                        | DArray (Some (s, _)) => if integer_text s then text "[" ++ s ++ text "]" else text "[]"
                        | DArray None => text "[]"
                        end) (c_decl t)) ++
  join (map sp_text (c_spec t)).

(** A logged variable of a trace shows variable [n] of type [t] with value [v]. *)
Definition var_shows (tr : trace (option N)) (print_strings : bool) (n : name) (t : ctype) (v : rvalue)
  (x : var) : Prop :=
  nthN (tr_names tr) (v_name x) = Some n /\
  (exists d, nthN (tr_types tr) (v_type x) = Some d /\ nthN (tr_names tr) (t_name d) = Some (type_text t)) /\
  exists k, has_kind t k /\ shows print_strings k v (v_fmt x) (v_size x) (v_val x).

(** A place of the program that logs: its id and groups of variables (with the
    choice whether strings are logged). *)
Definition group : Type := bool * list (name * ctype).
Definition site : Type := N * list group.

(** The variables logged for a group, [b = false]: not as strings, [b = true]: as strings. *)
Inductive logged_vars (ps b : bool) : list (name * ctype) -> list (name * ctype) -> Prop :=
| lv_nil : logged_vars ps b [] []
| lv_take : forall n t k l r, has_kind t k -> (k = CString -> ps = true) -> as_string ps k = b ->
    logged_vars ps b l r -> logged_vars ps b ((n, t) :: l) ((n, t) :: r)
| lv_other : forall n t k l r, has_kind t k -> as_string ps k = negb b ->
    logged_vars ps b l r -> logged_vars ps b ((n, t) :: l) r
| lv_none : forall n t l r, (forall k, has_kind t k -> k = CString /\ ps = false) ->
    logged_vars ps b l r -> logged_vars ps b ((n, t) :: l) r.

(** The variables of a site, in the order they are logged. *)
Inductive site_vars : list group -> list (bool * name * ctype) -> Prop :=
| sv_nil : site_vars [] []
| sv_cons : forall ps l a b gs r,
    logged_vars ps false l a -> logged_vars ps true l b -> site_vars gs r ->
    site_vars ((ps, l) :: gs)
      (map (fun x => (ps, fst x, snd x)) (a ++ b) ++ r).

(** A point of a trace shows that the site was passed while the variables had
    the values [env]. *)
Definition point_shows (tr : trace (option N)) (s : site) (env : name -> rvalue) (p : point (option N)) : Prop :=
  p_stmt p = Some (fst s) /\ p_sizes p = [] /\ p_aux p = [] /\
  exists l, site_vars (snd s) l /\
    Forall2 (fun y x => var_shows tr (fst (fst y)) (snd (fst y)) (snd y) (env (snd (fst y))) x) l (p_vars p).

(** ** Conditions *)

Definition site_names (s : site) : list name := concat (map (fun g => map fst (snd g)) (snd s)).
Definition site_types (s : site) : list ctype := concat (map (fun g => map snd (snd g)) (snd s)).

(** Variable names are C identifiers (any non-empty NUL-free text here); types
    are made of words; C++ strings are not declared as pointers or arrays when
    strings are logged (the inserted code would not compile). *)
Definition site_ok (kind_of : name -> skind) (s : site) : Prop :=
  fst s < 2 ^ 64 /\ Forall nul_free (site_names s) /\ Forall (type_ok kind_of) (site_types s) /\
  Forall (fun g => fst g = true ->
    Forall (fun x => c_decl (snd x) <> [] -> words (snd x) <> [text "string"] /\ words (snd x) <> [text "std::string"])
      (snd g)) (snd s).

(** The values variables have when the site is passed. *)
Definition env_ok (s : site) (env : name -> rvalue) : Prop :=
  Forall (fun g => Forall (fun x => forall k, has_kind (snd x) k -> loggable k (env (fst x))) (snd g)) (snd s).

(** All texts that are put into the table of names. *)
Definition all_texts (sites : list site) : list name :=
  concat (map (fun s => site_names s ++ map type_text (site_types s)) sites).

(** The hash table test tells the texts apart. *)
Definition tells_apart (test : name -> name -> bool) (texts : list name) : Prop :=
  forall a b, In a texts -> In b texts -> (test a b = true <-> a = b).

(** ** Interleaving *)

(** [l] is an interleaving of the lists [ll]. *)
Inductive merge {A} : list (list A) -> list A -> Prop :=
| mg_nil : forall ll, Forall (eq []) ll -> merge ll []
| mg_cons : forall ll i x r l, nth_error ll i = Some (x :: r) -> merge (update ll i r) l -> merge ll (x :: l).

(** ** Runs of the instrumented program *)

(** A pass through a site (by number) with these values of the variables. *)
Definition event : Type := nat * (name -> rvalue).

(** The actions of a pass. *)
Definition event_run (code : list (list istmt)) (e : event) : outcome (list action) :=
  match nth_error code (fst e) with Some c => run_stmts (snd e) c | None => UB UOob end.

(** The pass is through a site of the program, with values of the right types. *)
Definition event_ok (sites : list site) (e : event) : Prop :=
  exists s, nth_error sites (fst e) = Some s /\ env_ok s (snd e).

Definition event_shows (sites : list site) (tr : trace (option N)) (e : event) (p : point (option N)) : Prop :=
  exists s, nth_error sites (fst e) = Some s /\ point_shows tr s (snd e) p.

(** An instrumented program: the names and types arrays it contains and the
    code inserted at each site.  The arrays are made from the hash tables in
    any order of their entries. *)
Definition instrumented (test : name -> name -> bool) (sites : list site)
  (names : list name) (types : list tdesc) (code : list (list istmt)) : Prop :=
  exists st nal tal, instrument_all test sites istate0 = (code, st) /\
    Permutation nal (i_names st) /\ Permutation tal (i_descs st) /\
    names = emit_names nal /\ types = emit_types test (i_types st) tal.

(** It can be represented in the format. *)
Definition fits (names : list name) (types : list tdesc) : Prop :=
  lenN names < 2 ^ 32 /\ lenN types < 2 ^ 32 /\ lenN (name_chars names) < 2 ^ 64.

(** ** Requests to the tables *)

(** Index of a name; index of the type of a variable (with the choice whether
    strings are logged). *)
Inductive request := RName (n : name) | RType (t : ctype) (print_strings : bool).

(** Requests in order, with the indices returned (none for types that are not logged). *)
Definition ask (test : name -> name -> bool) (r : request) (st : istate) : option N * istate :=
  match r with
  | RName n => let '(i, st') := get_name_index test n st in (Some i, st')
  | RType t ps => match type_format_and_size t ps with
                  | Some (f, size) => let '(i, st') := get_type_index test t f size ps st in (Some i, st')
                  | None => (None, st)
                  end
  end.
Fixpoint ask_all (test : name -> name -> bool) (rs : list request) (st : istate) : list (option N) * istate :=
  match rs with
  | [] => ([], st)
  | r :: q => let '(i, st1) := ask test r st in
              let '(is, st2) := ask_all test q st1 in (i :: is, st2)
  end.

Definition request_text (r : request) : name := match r with RName n => n | RType t _ => type_text t end.
Definition request_ok (kind_of : name -> skind) (r : request) : Prop :=
  match r with
  | RName _ => True
  | RType t ps => type_ok kind_of t /\
      (ps = true -> c_decl t <> [] -> words t <> [text "string"] /\ words t <> [text "std::string"])
  end.

(** How a variable of that kind is logged. *)
Definition log_format (ps : bool) (k : kind) (f : fmt) (size : N) : Prop :=
  if as_string ps k then f = BLOB /\ size = 0
  else match k with
       | CInt true n => f = SIGNED /\ size = n
       | CInt false n => f = UNSIGNED /\ size = n
       | CFloat => f = FLOAT /\ size = 4
       | CDouble => f = FLOAT /\ size = 8
       | CPointer | CCharPointer => f = POINTER /\ size = 8
       | CString => False
       end.

(** The index answers the request, in the arrays emitted. *)
Definition answers (names : list name) (types : list tdesc) (r : request) (i : option N) : Prop :=
  match r, i with
  | RName n, Some i => nthN names i = Some n
  | RName n, None => False
  | RType t ps, Some i => exists d k, nthN types i = Some d /\ nthN names (t_name d) = Some (type_text t) /\
                            has_kind t k /\ log_format ps k (t_fmt d) (t_size d)
  | RType t ps, None => forall k, has_kind t k -> k = CString /\ ps = false
  end.
