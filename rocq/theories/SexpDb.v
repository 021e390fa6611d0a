(** Model of sexp-trace-db.lisp beyond what is in Lisp.v: reading a stream that
    need not be well formed, databases as objects with views that are restricted
    to a file, trace-types, and queries with :pick. *)
From Verif Require Import Base Types CApi Lisp.

(** ** Reading *)

(** What (read in nil :eof) does next on a stream: return a trace point, return
    NIL, signal an error, or wait for the writer of a pipe for ever.  At the end
    of the stream it returns :eof. *)
Inductive sitem := SPoint (p : lpoint) | SNil | SBad | SWait.

(** read-trace-stream with the default predicate, sexp-trace-db.lisp:63-84: the
    object is read before the limit is tested.  [skip]: the restart
    ignore-rest-of-stream is chosen when an error is signalled. *)
Fixpoint read_stream (skip : bool) (max : option N) (collected : N) (s : list sitem) : outcome (list lpoint) :=
  match s with
  | [] => Ok []
  | SWait :: _ => Diverge
  | SBad :: _ => if skip then Ok [] else Throw ELisp
  | SNil :: _ => Ok []
  | SPoint p :: r =>
      if match max with None => true | Some m => collected <? m end
      then l <- read_stream skip max (collected + 1) r ;; Ok (p :: l)
      else Ok []
  end.

(** ** Databases and views as objects *)
Section Objects.
Variable A : Type.

(** sexp-trace-db, sexp-trace-db.lisp:16-24: slots traces and trace-metadata;
    single-file-sexp-trace-db, 26-32: also file-id and parent-db (an earlier
    object). *)
Inductive sobj :=
| SBase (ts : list (list lpoint)) (ms : list A)
| SView (f : N) (parent : nat) (ts : list (list lpoint)) (ms : list A).
Definition sworld := list sobj.

Definition traces_of (o : sobj) : list (list lpoint) := match o with SBase ts _ | SView _ _ ts _ => ts end.

(** (remove-if-not [{eq file-id} #'cdr {assoc :f}] trace) *)
Definition of_file (f : N) (t : list lpoint) : list lpoint := filter (fun p => optN_eqb (Some f) (lp_f p)) t.

(** (trace-metadata db): the slot, for a view what it is for the parent
    (sexp-trace-db.lisp:201-202).  Parents come before their views; [n] bounds
    the chain. *)
Fixpoint read_meta (w : sworld) (n : nat) (i : nat) : list A :=
  match n with
  | O => []
  | S n => match nth_error w i with
           | None => []
           | Some (SBase _ ms) => ms
           | Some (SView _ p _ _) => read_meta w n p
           end
  end.
Definition meta (w : sworld) (i : nat) : list A := read_meta w (S i) i.
Definition traces (w : sworld) (i : nat) : list (list lpoint) :=
  match nth_error w i with Some o => traces_of o | None => [] end.

Fixpoint replace (w : sworld) (i : nat) (o : sobj) : sworld :=
  match w, i with
  | [], _ => []
  | _ :: r, O => o :: r
  | x :: r, S i => x :: replace r i o
  end.

(** (push trace (traces db)) (push metadata (trace-metadata db)),
    sexp-trace-db.lisp:122-123, 127-128.  The writer of trace-metadata is the
    inherited one: it sets the slot of the object itself. *)
Definition push_trace (w : sworld) (i : nat) (t : list lpoint) (m : A) : sworld :=
  match nth_error w i with
  | Some (SBase ts _) => replace w i (SBase (t :: ts) (m :: meta w i))
  | Some (SView f p ts _) => replace w i (SView f p (t :: ts) (m :: meta w i))
  | None => w
  end.

Inductive sop :=
| ONew                                                (* make-instance 'sexp-trace-db *)
| OAdd (i : nat) (t : list lpoint) (m : A)            (* add-trace-points, or add-trace that has read t *)
| ORestrict (i : nat) (f : N).                        (* restrict-to-file, sexp-trace-db.lisp:198-199, 47-53 *)
Definition do_sop (w : sworld) (o : sop) : sworld :=
  match o with
  | ONew => w ++ [SBase [] []]
  | OAdd i t m => push_trace w i t m
  | ORestrict i f =>
      match nth_error w i with
      | Some _ => w ++ [SView f i (map (of_file f) (traces w i)) []]
      | None => w
      end
  end.
Definition run_sops (os : list sop) : sworld := fold_left do_sop os [].

(** add-trace, sexp-trace-db.lisp:117-123: a trace without points is not added. *)
Definition add_stream (w : sworld) (i : nat) (max : option N) (s : list sitem) (m : A) : outcome sworld :=
  l <- read_stream false max 0 s ;;
  Ok (match l with [] => w | t => push_trace w i t m end).

(** get-trace, sexp-trace-db.lisp:130-140; n-traces, trace-size, 142-146 *)
Definition get_trace (w : sworld) (i : nat) (index : N) (file : option N) : list lpoint * option A :=
  let t := match nthN (traces w i) index with Some t => t | None => [] end in
  (match nth_error w i, file with
   | Some (SBase _ _), Some f => of_file f t
   | _, _ => t
   end, nthN (meta w i) index).
Definition n_traces (w : sworld) (i : nat) : N := lenN (traces w i).
Definition trace_size (w : sworld) (i : nat) (index : N) : N :=
  match nthN (traces w i) index with Some t => lenN t | None => 0 end.

(** trace-types, sexp-trace-db.lisp:148-152 *)
Definition trace_types (w : sworld) (i : nat) (index : N) : list name :=
  remove_duplicates bytes_eqb
    (map lv_type (flat_map lp_scopes (match nthN (traces w i) index with Some t => t | None => [] end))).

(** query-trace, sexp-trace-db.lisp:154-196.  [cart]: the function
    cartesian-without-duplicates of another library; [drawn]: the point drawn by
    (random-elt trace) if :pick is given.  NIL (no value) if the trace is empty. *)
Definition at_point (cart : list (list lvar) -> list (list lvar)) (var_types : list (list name)) (p : lpoint) : list lpoint :=
  map (fun vs => mkLP (lp_c p) (lp_f p) vs (lp_aux p))
      (cart (map (fun ts => filter (fun v => existsb (bytes_eqb (lv_type v)) ts) (lp_scopes p)) var_types)).
Definition no_duplicates (l : list lpoint) : list lpoint :=
  remove_duplicates (fun a b => key_equalp (lisp_key a) (lisp_key b)) l.
Definition query_sexp (cart : list (list lvar) -> list (list lvar)) (w : sworld) (i : nat) (index : N)
  (var_types : list (list name)) (drawn : option N) (flt : lpoint -> bool) : option (list lpoint * option A) :=
  match nthN (traces w i) index with
  | None | Some [] => None
  | Some t =>
      match drawn with
      | None => Some (no_duplicates (filter flt (flat_map (at_point cart var_types) t)), nthN (meta w i) index)
      | Some k => match nthN t k with
                  | Some p => Some (no_duplicates (filter flt (at_point cart var_types p)), nthN (meta w i) index)
                  | None => None     (* random-elt returns an element *)
                  end
      end
  end.
End Objects.
Arguments SBase {A}. Arguments SView {A}. Arguments ONew {A}. Arguments OAdd {A}. Arguments ORestrict {A}.
