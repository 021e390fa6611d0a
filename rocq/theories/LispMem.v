(** Model of the foreign memory that operations of Lisp take and give back, also when
    they are left by an error: binary-trace-db.lisp:166-219, 305-387, 446-613, and the
    functions of the library that obtain or release memory for them
    (trace.cpp:30-95, trace-db.cpp:244-262).

    Blocks are kept with the addresses they contain.  Addresses of strings inside
    the arrays of names and types point into the trace (trace.cpp:30-78) and are
    never freed by Lisp.  Memory never runs out.  The objects of with-foreign-object
    are on the stack and not modelled. *)
From Verif Require Import Base Types Predicate CApi Lisp.

(** A struct c-predicate: kind, the number to be stored in it, the address of its
    children (0: none). *)
Record node := mkNode { nd_kind : pkind; nd_num : Z; nd_children : N }.

(** Blocks: array of words, strings or variables; array of predicates; a single
    predicate (not filled in yet, or filled in); array of free variables (the
    addresses of the arrays of types, as far as filled in); array of pointers; array
    of points (addresses of their variables and aux words); a trace; a string. *)
Inductive blk :=
| BWords | BNodes (l : list node) | BPred (p : option node) | BFree (l : list N) | BPtrs (l : list N)
| BPoints (l : list (N * N)) | BTraceObj | BString.

Record heap := mkH { h_next : N; h_live : list (N * blk) }.

(** Lisp code: a result or a condition, and the memory. *)
Definition lmem (A : Type) : Type := heap -> outcome A * heap.
Definition ret {A} (o : outcome A) : lmem A := fun h => (o, h).
Definition lbind {A B} (m : lmem A) (f : A -> lmem B) : lmem B := fun h =>
  let '(o, h') := m h in
  match o with
  | Ok a => f a h'
  | Throw e => (Throw e, h')
  | UB k => (UB k, h')
  | Abort => (Abort, h')
  | Diverge => (Diverge, h')
  end.
Notation "x <~~ o ;; k" := (lbind o (fun x => k)) (at level 61, o at next level, right associativity).

(** foreign-alloc, malloc *)
Definition obtain (b : blk) : lmem N := fun h =>
  (Ok (h_next h), mkH (h_next h + 1) (h_live h ++ [(h_next h, b)])).
(** foreign-free, free; NULL is 0 *)
Definition release (a : N) : lmem unit := fun h =>
  if a =? 0 then (Ok tt, h)
  else if existsb (fun e => fst e =? a) (h_live h)
  then (Ok tt, mkH (h_next h) (filter (fun e => negb (fst e =? a)) (h_live h)))
  else (UB UBadFree, h).
(** what is in the block at an address *)
Definition contents (a : N) : lmem blk := fun h =>
  match find (fun e => fst e =? a) (h_live h) with
  | Some e => (Ok (snd e), h)
  | None => (UB UDangling, h)
  end.
(** fill the block at an address *)
Definition fill (a : N) (b : blk) : lmem unit := fun h =>
  if existsb (fun e => fst e =? a) (h_live h)
  then (Ok tt, mkH (h_next h) (map (fun e => if fst e =? a then (a, b) else e) (h_live h)))
  else (UB UDangling, h).

Fixpoint each {A B} (f : A -> lmem B) (l : list A) : lmem (list B) :=
  match l with
  | [] => ret (Ok [])
  | x :: r => y <~~ f x ;; ys <~~ each f r ;; ret (Ok (y :: ys))
  end.

(** unwind-protect.  If the process has ended ([UB], [Abort]) nothing is cleaned up. *)
Definition unwind_protect {A} (m : lmem A) (cleanup : lmem unit) : lmem A := fun h =>
  let '(o, h1) := m h in
  match o with
  | Ok _ | Throw _ => let '(c, h2) := cleanup h1 in
                      (match c with Ok _ => o | Throw e => Throw e | UB k => UB k | Abort => Abort | Diverge => Diverge end, h2)
  | _ => (o, h1)
  end.

(** ** Predicates *)

(** Can the number be stored in the slot?  (C76 has the slots.) *)
Definition fits (n : node) : bool :=
  match nd_kind n with
  | UNSIGNED_VALUE => (nd_num n <? 2 ^ 64)%Z
  | SIGNED_VALUE => (- 2 ^ 63 <=? nd_num n)%Z
  | _ => true
  end.

(** create-foreign-array, lines 446-452: the array is allocated before its elements are
    converted. *)
Definition create_nodes (l : list node) : lmem N :=
  a <~~ obtain (BNodes l) ;; if forallb fits l then ret (Ok a) else ret (Throw ELisp).

(** helper of build-predicate, lines 457-514 *)
Fixpoint build_node (var_names : list N) (e : sexp) : lmem node :=
  match e with
  | SSym s => match sym_position s var_names with
              | Some _ => ret (Ok (mkNode VAR_REFERENCE 0 0))
              | None => ret (Throw ELisp)
              end
  | SInt z => ret (Ok (mkNode (if (0 <=? z)%Z then UNSIGNED_VALUE else SIGNED_VALUE) z 0))
  | SFloat _ => ret (Ok (mkNode FLOAT_VALUE 0 0))
  | SList op args =>
      k <~~ ret (op_kind op) ;;
      cs <~~ (fix go l := match l with
                          | [] => ret (Ok [])
                          | x :: r => c <~~ build_node var_names x ;; cs <~~ go r ;; ret (Ok (c :: cs))
                          end) args ;;
      a <~~ create_nodes cs ;;
      ret (Ok (mkNode k 0 a))
  end.
(** build-predicate, lines 516-522 *)
Definition build_pred (var_names : list N) (e : option sexp) : lmem N :=
  match e with
  | None => ret (Ok 0)
  | Some e =>
      r <~~ obtain (BPred None) ;;
      n <~~ build_node var_names e ;;
      if fits n then _ <~~ fill r (BPred (Some n)) ;; ret (Ok r) else ret (Throw ELisp)
  end.

(** free_c_predicate_helper, trace-db.cpp:244-254 *)
Fixpoint free_node (fuel : nat) (n : node) : lmem unit :=
  match fuel with
  | O => ret Diverge
  | S f =>
      if is_leaf_kind (nd_kind n) then ret (Ok tt)
      else b <~~ contents (nd_children n) ;;
           match b with
           | BNodes l => _ <~~ each (free_node f) l ;; release (nd_children n)
           | _ => ret (UB UUninit)
           end
  end.
(** free_c_predicate, trace-db.cpp:256-262.  The recursion is at most as deep as there
    are blocks. *)
Definition free_pred (a : N) : lmem unit := fun h =>
  (if a =? 0 then ret (Ok tt)
   else b <~~ contents a ;;
        match b with
        | BPred (Some n) => _ <~~ free_node (S (length (h_live h))) n ;; release a
        | _ => ret (UB UUninit)
        end) h.

(** ** Results *)

(** points_to_array, trace.cpp:97-145: [n] points *)
Definition points_array (n : nat) : lmem N :=
  match n with
  | O => ret (Ok 0)
  | _ => a <~~ obtain (BPoints []) ;;
         fs <~~ each (fun _ => v <~~ obtain BWords ;; x <~~ obtain BWords ;; ret (Ok (v, x))) (repeat tt n) ;;
         _ <~~ fill a (BPoints fs) ;;
         ret (Ok a)
  end.
(** free_trace_points, trace.cpp:85-95 *)
Definition free_points (a : N) (n : nat) : lmem unit :=
  match n with
  | O => release a
  | _ => b <~~ contents a ;;
         match b with
         | BPoints fs => _ <~~ each (fun f : N * N => _ <~~ release (fst f) ;; release (snd f)) (firstn n fs) ;; release a
         | _ => ret (UB UUninit)
         end
  end.

(** Arrays of names and types (trace.cpp:30-78), read by Lisp and freed (lines 173-178,
    367-371).  [readable]: can all strings be decoded?  (C77) *)
Definition read_strings (readable : bool) : lmem unit :=
  a <~~ obtain BWords ;;
  if readable then release a else ret (Throw ELisp).

(** A trace as the operations meet it: are its names and types readable? *)
Record traceinfo := mkTI { ti_names : bool; ti_types : bool }.

(** convert-trace-points, lines 166-197.  [good]: for each point, is it converted and
    filtered without an error? *)
Fixpoint convert_each (l : list bool) : lmem unit :=
  match l with
  | [] => ret (Ok tt)
  | g :: r => if g : bool then convert_each r else ret (Throw ELisp)
  end.
Definition convert_points (ti : traceinfo) (a : N) (points : list bool) : lmem unit :=
  _ <~~ read_strings (ti_names ti) ;;
  _ <~~ convert_each points ;;
  free_points a (length points).

(** ** Operations *)

(** trace-types, lines 360-371.  [None]: the index is out of range. *)
Definition trace_types (t : option traceinfo) : lmem unit :=
  match t with None => ret (Throw ELisp) | Some ti => read_strings (ti_types ti) end.

(** get-trace, lines 373-387; [meta]: is there metadata at the index? *)
Definition get_trace (t : option traceinfo) (points : list bool) (meta : bool) : lmem unit :=
  match t with
  | None => ret (Throw ELisp)
  | Some ti =>
      a <~~ points_array (length points) ;;
      _ <~~ convert_points ti a points ;;
      ret (if meta then Ok tt else Throw ELisp)
  end.

(** read-binary-trace, lines 199-215.  [None]: read_trace returns NULL.  The memory of
    the trace is a single block here (C72 has the details). *)
Definition read_binary_trace (t : option (traceinfo * list bool)) : lmem unit :=
  match t with
  | None => ret (Ok tt)
  | Some (ti, points) =>
      _ <~~ obtain BTraceObj ;;
      a <~~ points_array (length points) ;;
      convert_points ti a points
  end.

(** add-trace-points, lines 305-358.  For each point: [None], its description cannot be
    computed (an error before anything is allocated for it); otherwise whether its
    variables can be stored, and whether the point itself can.  And the number of
    names. *)
Definition add_points (points : list (option (bool * bool))) (names : nat) : lmem unit :=
  storable <~~ each (fun p : option (bool * bool) =>
          match p with
          | None => ret (Throw ELisp)
          | Some (v, s) => _ <~~ obtain BWords ;; ret (if v then Ok s else Throw ELisp)
          end) points ;;
  _ <~~ obtain (BPoints []) ;;
  if forallb (fun s => s) storable then
    _ <~~ obtain (BPtrs []) ;;
    _ <~~ each (fun _ => obtain BString) (repeat tt names) ;;
    ret (Ok tt)
  else ret (Throw ELisp).

(** What the call of query_trace does: the process ends at an assertion; an argument
    is not accepted; results. *)
Inductive answer := ACrash | ARejected | AResults (points : list bool).

(** The free variables, lines 538-548.  [None] in a list of types: a name that is no type
    of the trace. *)
Fixpoint fill_vars (va : N) (done : list N) (types : list (list (option N))) : lmem (list N) :=
  match types with
  | [] => ret (Ok done)
  | ts :: r =>
      ta <~~ obtain BWords ;;
      if forallb (fun t => match t with Some _ => true | None => false end) ts then
        _ <~~ fill va (BFree (done ++ [ta])) ;; fill_vars va (done ++ [ta]) r
      else ret (Throw ELisp)
  end.

(** query-trace, lines 524-613; the symbols of [var_names] are as in Lisp.v. *)
Definition query_trace (t : option traceinfo) (var_names : list N) (var_types : list (list (option N)))
  (predicate : option sexp) (soft : list (option sexp)) (reply : answer) : lmem unit :=
  match t with
  | None => ret (Throw ELisp)
  | Some ti =>
      if match predicate, soft, var_names with None, [], _ => true | _, _, [] => false | _, _, _ => true end then
        _ <~~ read_strings (ti_types ti) ;;
        va <~~ obtain (BFree []) ;;
        _ <~~ fill_vars va [] var_types ;;
        hp <~~ build_pred var_names predicate ;;
        sps <~~ each (build_pred var_names) soft ;;
        sa <~~ obtain (BPtrs sps) ;;
        unwind_protect
          match reply with
          | ACrash => ret Abort
          | ARejected => ret (Throw ELisp)
          | AResults points =>
              a <~~ points_array (length points) ;;
              convert_points ti a points
          end
          (_ <~~ free_pred hp ;;
           _ <~~ each free_pred sps ;;
           _ <~~ release sa ;;
           b <~~ contents va ;;
           match b with
           | BFree tas => _ <~~ each release tas ;; release va
           | _ => ret (UB UUninit)
           end)
      else ret (Throw ELisp)
  end.

(** The operations of a session. *)
Inductive op :=
| OTypes (t : option traceinfo)
| OGet (t : option traceinfo) (points : list bool) (meta : bool)
| ORead (t : option (traceinfo * list bool))
| OAddPoints (points : list (option (bool * bool))) (names : nat)
| OQuery (t : option traceinfo) (var_names : list N) (var_types : list (list (option N)))
    (predicate : option sexp) (soft : list (option sexp)) (reply : answer).
Definition run (o : op) : lmem unit :=
  match o with
  | OTypes t => trace_types t
  | OGet t points meta => get_trace t points meta
  | ORead t => read_binary_trace t
  | OAddPoints points names => add_points points names
  | OQuery t vn vt p sp r => query_trace t vn vt p sp r
  end.
