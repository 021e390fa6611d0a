(** Specification of C98 for the setup code: where its names come from. *)
From Coq Require Import Strings.String.
From Verif Require Import Base Types Compare PrintPred Instr InstrSpec CRead CParse Emit Names NamesSpec SetupRead.

(** ** Headers: what they declare, of the names that matter here (C11 7.19,
    7.21, 7.22, 7.24; POSIX.1-2017 pthread.h, unistd.h) *)
Inductive entity := Function (parameters : nat) | Object | TypeName.
Definition header_table : list (string * list (string * entity)) :=
  [("stdio", [("fopen", Function 2); ("fgets", Function 3); ("fclose", Function 1); ("stdout", Object); ("stderr", Object); ("NULL", Object); ("FILE", TypeName)]);
   ("string", [("strcspn", Function 2); ("strlen", Function 1); ("NULL", Object)]);
   ("stdlib", [("getenv", Function 1); ("NULL", Object)]);
   ("unistd", [("access", Function 2); ("sleep", Function 1); ("unlink", Function 1); ("NULL", Object)]);
   ("pthread", [("pthread_mutex_init", Function 2); ("pthread_mutex_t", TypeName)])]%string.
Definition provides (h : name) : list (name * entity) :=
  flat_map (fun r => if bytes_eqb (text (fst r)) h then map (fun p => (text (fst p), snd p)) (snd r) else []) header_table.
(** The headers that a text includes: #include <x.h> *)
Fixpoint included (ts : list ctok) : list name :=
  match ts with
  | [] => []
  | k :: r =>
      (if is x23 k then match word "include" r with Some (_ :: KId x :: _) => [x] | _ => [] end else []) ++ included r
  end.
Definition from_headers (ts : list ctok) : list (name * entity) := flat_map provides (included ts).

(** ** Names that the setup code declares itself *)
Definition declares (s : ustmt) : list name :=
  match s with UPointer x _ | UMutex x | UBuffer x _ _ | UNames x _ | UTypes x _ => [x] | _ => [] end.
Definition own_names (u : unit_) : list name := u_globals u ++ [u_name u] ++ flat_map declares (u_body u).

(** ** Names that may occur in the setup code *)
Inductive setup_uses (sites : list site) (ts : list ctok) (u : unit_) : name -> Prop :=
| su_keyword : forall x, In x (map text ["void"; "const"; "char"; "static"; "if"; "while"; "do"; "sizeof"; "__attribute__"; "constructor"]%string) -> setup_uses sites ts u x
| su_directive : forall x, In x (map text ["ifdef"; "include"; "h"; "endif"]%string) \/ x = u_macro u \/ In x (included ts) -> setup_uses sites ts u x
| su_header : forall x e, In (x, e) (from_headers ts) -> setup_uses sites ts u x
| su_declared : forall x, In x (declared forward_declarations) -> setup_uses sites ts u x
| su_own : forall x, In x (own_names u) -> setup_uses sites ts u x
| su_type : forall s g n t x, In s sites -> In g (snd s) -> In (n, t) (snd g) -> In x (words t) -> setup_uses sites ts u x.

(** ** Variables are declared before their use; functions are called with as
    many arguments as they have parameters *)
Definition among (x : name) (l : list name) : bool := existsb (bytes_eqb x) l.
Section Scope.
Variable functions : list (name * nat).
Definition callable (f : name) (n : nat) : bool := existsb (fun p => bytes_eqb f (fst p) && Nat.eqb n (snd p)) functions.
Fixpoint expr_scoped (vars : list name) (e : uexpr) : bool :=
  match e with
  | UVar x | UAddr x => among x vars
  | UNum _ | UStr _ => true
  | UCast a => expr_scoped vars a
  | UEq a b | UNe a b => expr_scoped vars a && expr_scoped vars b
  | UCall f l => callable f (List.length l) && (fix all (l : list uexpr) := match l with [] => true | a :: r => expr_scoped vars a && all r end) l
  end.
(** A name is in scope from the statement after its declaration to the end of
    the block. *)
Fixpoint stmt_scoped (vars : list name) (s : ustmt) : bool :=
  let block := fix block (vars : list name) (l : list ustmt) : bool :=
    match l with [] => true | s :: r => stmt_scoped vars s && block (declares s ++ vars) r end in
  match s with
  | UMutex _ | UBuffer _ _ _ | UNames _ _ | UTypes _ _ => true
  | UPointer _ e => expr_scoped vars e
  | USet x e => among x vars && expr_scoped vars e
  | UStore x i e => among x vars && expr_scoped vars i && expr_scoped vars e
  | UExpr e => expr_scoped vars e
  | UIf e l | UWhile e l => expr_scoped vars e && block vars l
  | UDo l e => block vars l && expr_scoped vars e
  end.
Fixpoint block_scoped (vars : list name) (l : list ustmt) : bool :=
  match l with [] => true | s :: r => stmt_scoped vars s && block_scoped (declares s ++ vars) r end.
End Scope.
(** Functions and variables that are declared before the setup function. *)
Definition functions_of (ts : list ctok) : list (name * nat) :=
  map (fun p => (fst p, List.length (snd p))) (prototypes forward_declarations) ++
  flat_map (fun p => match snd p with Function n => [(fst p, n)] | _ => [] end) (from_headers ts).
Definition objects_of (ts : list ctok) : list name :=
  flat_map (fun p => match snd p with Object => [fst p] | _ => [] end) (from_headers ts).
Definition setup_scoped (ts : list ctok) (u : unit_) : bool :=
  block_scoped (functions_of ts) (u_globals u ++ objects_of ts) (u_body u).
