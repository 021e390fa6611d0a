(** Specification: the binary trace format as the manual describes it
    (doc/trace-database-component.texi:34-86), with the widths of the fields as
    parameters.  The manual gives 16 bits for the count of characters, 16 for the
    count of types, 32 for a statement id, 16 for the size of a value of variable
    size, 64 for addresses, sizes and auxiliary data, and no width for indices;
    the fields of a type description are those of TypeDescription.hpp. *)
From Verif Require Import Base Types FormatSpec.

(** Widths in bytes. *)
Record widths := mkW { w_chars : nat; w_types : nat; w_stmt : nat; w_index : nat; w_size : nat }.
Definition manual (index : nat) : widths := mkW 2 2 4 index 2.

Definition doc_entry (w : widths) (types : list tdesc) (e : entry) : list byte :=
  match e with
  | EStmt id => x01 :: le_bytes (w_stmt w) id
  | EVar nm ty data =>
      x02 :: le_bytes (w_index w) nm ++ le_bytes (w_index w) ty ++
      (if is_var_blob types ty then le_bytes (w_size w) (lenN data) else []) ++ data
  | EBuf a s => x03 :: le_bytes 8 a ++ le_bytes 8 s
  | EAux a => x04 :: le_bytes 8 a
  end.
Definition doc_point (w : widths) (types : list tdesc) (es : list entry) : list byte :=
  concat (map (doc_entry w types) es) ++ [x00].
Definition doc_file (w : widths) (F : tfile) : list byte :=
  le_bytes (w_chars w) (lenN (name_chars (f_names F))) ++ name_chars (f_names F) ++
  le_bytes (w_types w) (lenN (f_types F)) ++ concat (map enc_type (f_types F)) ++
  concat (map (doc_point w (f_types F)) (f_points F)).
