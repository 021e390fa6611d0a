(** Specification of text at the foreign interface. *)
From Verif Require Import Base Types Compare Predicate Query CApi Lisp Ffi FfiText.

(** The library finds the string [bs] at address [a]: the bytes up to the first NUL. *)
Definition c_string_at (m : memory) (a : N) (bs : list byte) : Prop :=
  load m a (length bs) = bs /\ N_of_byte (m (a + lenN bs)) = 0 /\ Forall (fun b => N_of_byte b <> 0) bs.
(** At address [a] the library finds an array of pointers to the strings [l]. *)
Definition c_strings_at (m : memory) (a : N) (l : list (list byte)) : Prop :=
  Forall2 (fun x bs => c_string_at m (Z.to_N (read TPtr m x)) bs) (elements a 8 (length l)) l.

(** Characters that have an encoding, and strings that C can hold. *)
Definition text (s : lstring) : Prop := Forall (fun c => scalar c = true) s.
Definition c_text (s : lstring) : Prop := Forall (fun c => scalar c = true /\ c <> 0) s.

(** Bytes are the encoding of some string. *)
Definition is_text (bs : list byte) : Prop := exists s, text s /\ utf8 s = bs.

(** A vector of C chars stands for bytes. *)
Definition char_byte (z : Z) : N := Z.to_N (z mod 256).

(** Points with strings, as a program gives them, and the same points with the
    encodings of the strings. *)
Definition bytes_value (v : sval) : lval :=
  match v with TInt z => LInt z | TFloat n b => LFloat n b | TText s => LBlob (utf8 s) | TChars l => LBlob (map (fun z => byte_of_N (char_byte z)) l) end.
Definition bytes_var (v : svar) : lvar := mkLV (utf8 (sv_name v)) (utf8 (sv_type v)) (bytes_value (sv_value v)) (sv_size v).
Definition bytes_point (p : spoint) : lpoint := mkLP (sp_c p) (sp_f p) (map bytes_var (sp_scopes p)) (sp_aux p).
(** Points that add-trace-points can store: integers of 64 bits with sign, ids in
    range, names without NUL, no aux values. *)
Definition good_svar (v : svar) : Prop :=
  c_text (sv_name v) /\ c_text (sv_type v) /\
  (exists z, sv_value v = TInt z /\ (- 2 ^ 63 <= z < 2 ^ 63)%Z) /\
  (forall s, sv_size v = Some s -> s < 2 ^ 64).
Definition good_spoint (p : spoint) : Prop :=
  match sp_f p with Some f => f < 2 ^ 23 /\ sp_c p < 2 ^ 40 | None => sp_c p < 2 ^ 63 end /\
  Forall good_svar (sp_scopes p) /\ sp_aux p = [].
(** All names in points, each once, the last occurrence of each. *)
Definition text_names (ps : list spoint) : list lstring :=
  remove_duplicates codes_eqb (flat_map (fun p => flat_map (fun v => [sv_name v; sv_type v]) (sp_scopes p)) ps).
