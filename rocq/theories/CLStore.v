(** Model of storing Lisp objects that contain trace databases, with cl-store:
    sexp-trace-db.lisp:34-45, binary-trace-db.lisp:256-273 and 628-639.

    cl-store itself is not in /repo.  Modelled from its source (default-backend.lisp):
    an object is a type code followed by what its class writes;
    [output-type-code] writes the low eight bits of the code, [read-type-code]
    reads a byte, and a code without a registered restorer is an error.  Not
    modelled: objects that occur twice (referrers), and the layout of strings,
    symbols and slots, which are items of the stream here. *)
From Coq Require Import Strings.String.
From Verif Require Import Base Types Compare CApi Archive PrintPred.

(** A Lisp object, as far as needed; [LStd]: an instance of another class with the
    alist of its slots, for example the software a database belongs to, or a
    sexp-trace-db. *)
Inductive lobj :=
| LSym (s : name)
| LText (s : name)
| LCons (a d : lobj)
| LStd (class : name) (slots : lobj)
| LDb (d : db) (meta : lobj)        (* binary-trace-db *)
| LView                             (* single-file-binary-trace-db *)
| LSexpView.                        (* single-file-sexp-trace-db *)
Definition lnil : lobj := LSym (text "NIL").

Inductive item := ICode (n : N) | IText (s : name).

(** Codes of cl-store for symbols, strings, conses and instances. *)
Definition c_symbol : N := 10.
Definition c_string : N := 5.
Definition c_cons : N := 11.
Definition c_object : N := 14.
(** sexp-trace-db.lisp:34-35; binary-trace-db.lisp:256 and 628-629 *)
Definition c_sexp_view : N := 254.
Definition c_db : N := 255.
Definition c_view : N := 256.

Section Store.
(** What [output-type-code] leaves of a code. *)
Variable written : N -> N.
(** Version of the archive library; memory when a text is read. *)
Variable ver : N.
Variable ok : N -> bool.

(** store-object *)
Fixpoint store (o : lobj) : list item :=
  match o with
  | LSym s => [ICode (written c_symbol); IText s]
  | LText s => [ICode (written c_string); IText s]
  | LCons a d => ICode (written c_cons) :: store a ++ store d
  | LStd c slots => ICode (written c_object) :: IText c :: store slots
  | LDb d meta =>
      (* binary-trace-db.lisp:259-264: the list ((:db . text) (:trace-metadata . meta)) *)
      let sym s := [ICode (written c_symbol); IText (text s)] in
      ICode (written c_db) ::
        ICode (written c_cons) ::
          (ICode (written c_cons) :: sym "DB"%string ++ [ICode (written c_string); IText (serialize_trace_db ver d)]) ++
          ICode (written c_cons) ::
            (ICode (written c_cons) :: sym "TRACE-METADATA"%string ++ store meta) ++
            sym "NIL"%string
  | LView => [ICode (written c_view); ICode (written c_symbol); IText (text "NIL")]           (* binary-trace-db.lisp:633-636 *)
  | LSexpView => [ICode (written c_sexp_view); ICode (written c_symbol); IText (text "NIL")]  (* sexp-trace-db.lisp:39-42 *)
  end.

(** (cdr (assoc key l)) *)
Fixpoint lassoc (key : name) (l : lobj) : lobj :=
  match l with
  | LCons (LCons (LSym k) v) r => if bytes_eqb k key then v else lassoc key r
  | LCons _ r => lassoc key r
  | _ => lnil
  end.

Inductive restored := Got (o : lobj) (rest : list item) | Error.

(** binary-trace-db.lisp:266-273; a text that is not an archive ends the process *)
Definition restore_db (l : lobj) (rest : list item) : restored :=
  let meta := lassoc (text "TRACE-METADATA") l in
  match lassoc (text "DB") l with
  | LText (b :: s) => match deserialize_trace_db ok ver (b :: s) with Ok d => Got (LDb d meta) rest | _ => Error end
  | LText [] => Got (LDb create_db meta) rest
  | _ => if match lassoc (text "DB") l with LSym s => bytes_eqb s (text "NIL") | _ => false end
         then Got (LDb create_db meta) rest else Error
  end.

(** restore-object: get-next-reader and the restorer it finds *)
Fixpoint restore_fuel (fuel : nat) (s : list item) : restored :=
  match fuel with
  | O => Error
  | S f =>
      match s with
      | ICode c :: r =>
          if c =? c_symbol then match r with IText x :: r' => Got (LSym x) r' | _ => Error end
          else if c =? c_string then match r with IText x :: r' => Got (LText x) r' | _ => Error end
          else if c =? c_cons then
            match restore_fuel f r with
            | Got a r' => match restore_fuel f r' with Got d r'' => Got (LCons a d) r'' | Error => Error end
            | Error => Error
            end
          else if c =? c_object then
            match r with
            | IText x :: r' => match restore_fuel f r' with Got l r'' => Got (LStd x l) r'' | Error => Error end
            | _ => Error
            end
          else if c =? c_db then match restore_fuel f r with Got l r' => restore_db l r' | Error => Error end
          else if (c =? c_view) || (c =? c_sexp_view) then restore_fuel f r
          else Error
      | _ => Error
      end
  end.
Definition restore (s : list item) : restored := restore_fuel (S (List.length s)) s.
End Store.

(** cl-store: (write-byte (ldb (byte 8 0) code) stream) *)
Definition low_byte (c : N) : N := c mod 256.
