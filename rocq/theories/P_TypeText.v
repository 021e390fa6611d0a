(** Property C71: the type that is made from the type text of a trace is the type
    the text was made from.

    [type_trace_string t] is the text written into the log for type [t] (Instr.v),
    [from_trace_string] the code that reads it (TypeText.v); [back ids t] is the
    type read back, its array sizes being new objects [ids].  [type_ok c_kind t]:
    [t] has specifiers, each is one word, qualifiers and storage classes are the
    words of C. *)
From Coq Require Import Strings.String Permutation.
From Verif Require Import Base Types Compare PrintPred Instr InstrRun InstrSpec TypeText TypeTextSpec TypeTextProofs.

(** As many pointers, the same array sizes, the same specifiers of every kind in the
    same order: only the order between pointers and arrays and between specifiers of
    different kinds is normalised. *)
Theorem C71_recovered : forall ids t, type_ok c_kind t ->
  pointers (back ids t) = pointers t /\ sizes (back ids t) = sizes t /\
  (forall k, of_kind k (back ids t) = of_kind k t) /\
  Permutation (c_spec (back ids t)) (c_spec t) /\
  in_order (back ids t).
Proof.
  intros ids t OK. split; [apply back_pointers, OK|]. split; [apply back_sizes, OK|]. split; [intros k; apply back_kinds, OK|].
  split; [rewrite (back_spec _ _ OK); apply spec_perm|apply back_in_order, OK].
Qed.
Print Assumptions C71_recovered.

(** A type in that order is read back as it is. *)
Theorem C71_exact : forall ids t, type_ok c_kind t -> in_order t -> same_text (back ids t) t.
Proof. exact back_same. Qed.
Print Assumptions C71_exact.

(** The classes of the ASTs: by the word only, whatever the text. *)
Theorem C71_classes : forall s,
  Forall (fun x => let w := snd x in
    match fst x with
    | PQualifier => In w [text "const"; text "volatile"; text "restrict"]
    | PStorage => In w [text "extern"; text "static"; text "auto"; text "register"]
    | PModifier => In w [text "signed"; text "unsigned"; text "short"; text "long"]
    | PPrimitive => In w [text "char"; text "int"; text "float"; text "double"]
    | PIdentifier => ~ In w [text "const"; text "volatile"; text "restrict"; text "extern"; text "static"; text "auto"; text "register";
                             text "signed"; text "unsigned"; text "short"; text "long"; text "char"; text "int"; text "float"; text "double"]
    end) (pt_spec (from_trace_string s)).
Proof. exact classes. Qed.
Print Assumptions C71_classes.

(** Variables of the type read back are logged in the same way. *)
Theorem C71_logged : forall ids t print_strings, type_ok c_kind t ->
  type_format_and_size (back ids t) print_strings = type_format_and_size t print_strings.
Proof. exact back_format. Qed.
Print Assumptions C71_logged.

(** The text of the type read back stays the same from then on, and it is the
    original text if the specifiers are in order. *)
Theorem C71_stable : forall ids ids' t, type_ok c_kind t ->
  type_trace_string (back ids' (back ids t)) = type_trace_string (back ids t) /\
  same_text (back ids' (back ids t)) (back ids t) /\
  (c_spec t = of_kind KQualifier t ++ of_kind KStorage t ++ of_kind KOther t ->
   type_trace_string (back ids t) = type_trace_string t).
Proof.
  intros ids ids' t OK. split; [|split].
  - apply back_text_in_order; [apply back_ok, OK|apply (back_in_order _ _ OK)].
  - apply back_same; [apply back_ok, OK|apply back_in_order, OK].
  - apply back_text_in_order, OK.
Qed.
Print Assumptions C71_stable.

(** The cache of types changes no answer. *)
Theorem C71_cache : forall l, requests [] l = map (fun x => from_trace_string (fst x)) l.
Proof. exact requests_eq. Qed.
Print Assumptions C71_cache.

(** ** Types that meet the hypotheses
    static const char *x[10][];  *)
Definition x_spec (s : string) : spec := mkSpec (c_kind (text s)) (text s).
Definition ex_argv : ctype :=
  mkC [DPointer; DArray (Some (text "10", 5)); DArray None] [x_spec "static"; x_spec "const"; x_spec "unsigned"; x_spec "char"].
Example C71_ok : type_ok c_kind ex_argv.
Proof. split; [discriminate|]. repeat (constructor; [split; [split; [discriminate|vm_compute; reflexivity]|reflexivity]|]). constructor. Qed.
Example C71_ex_text : type_trace_string ex_argv = text "*[10][]static const unsigned char".
Proof. vm_compute. reflexivity. Qed.
Example C71_ex_back : from_trace_string (type_trace_string ex_argv) =
  mkPT [PPointer; PArray (Some (true, text "10")); PArray None]
       [(PQualifier, text "const"); (PStorage, text "static"); (PModifier, text "unsigned"); (PPrimitive, text "char")].
Proof. vm_compute. reflexivity. Qed.
Definition ex_ordered : ctype := mkC [DPointer; DPointer; DArray (Some (text "7", 1))] [x_spec "const"; x_spec "extern"; x_spec "size_t"].
Example C71_ok2 : type_ok c_kind ex_ordered /\ in_order ex_ordered.
Proof.
  split.
  - split; [discriminate|]. repeat (constructor; [split; [split; [discriminate|vm_compute; reflexivity]|reflexivity]|]). constructor.
  - split; [|vm_compute; reflexivity]. exists 2%nat, [DArray (Some (text "7", 1))]. split; [reflexivity|]. constructor; [vm_compute; reflexivity|constructor].
Qed.
Example C71_cache_hit : requests [] [(text "*int", true); (text "int", true); (text "*int", true); (text "*int", false)] =
  [mkPT [PPointer] [(PPrimitive, text "int")]; mkPT [] [(PPrimitive, text "int")];
   mkPT [PPointer] [(PPrimitive, text "int")]; mkPT [PPointer] [(PPrimitive, text "int")]].
Proof. vm_compute. reflexivity. Qed.

(** ** Where the claim fails *)
(** A pointer to an array and an array of pointers have the same text. *)
Theorem C71_order_refuted : exists t u, type_ok c_kind t /\ type_ok c_kind u /\
  c_decl t = [DPointer; DArray (Some (text "3", 1))] /\ c_decl u = [DArray (Some (text "3", 1)); DPointer] /\ c_spec t = c_spec u /\
  type_trace_string t = type_trace_string u.
Proof.
  exists (mkC [DPointer; DArray (Some (text "3", 1))] [x_spec "int"]), (mkC [DArray (Some (text "3", 1)); DPointer] [x_spec "int"]).
  assert (F : Forall (fun s => word (sp_text s) /\ sp_kind s = c_kind (sp_text s)) [x_spec "int"]).
  { constructor; [split; [split; [discriminate|vm_compute; reflexivity]|reflexivity]|constructor]. }
  split; [split; [discriminate|exact F]|]. split; [split; [discriminate|exact F]|]. split; [reflexivity|]. split; [reflexivity|].
  split; [reflexivity|]. vm_compute. reflexivity.
Qed.
Print Assumptions C71_order_refuted.

(** The size of an array is lost unless it is a decimal number: int a[N]. *)
Theorem C71_size_refuted : exists t ids, type_ok c_kind t /\
  c_decl t = [DArray (Some (text "N", 1))] /\ c_decl (back ids t) = [DArray None].
Proof.
  exists (mkC [DArray (Some (text "N", 1))] [x_spec "int"]), (fun _ => 0).
  split; [split; [discriminate|constructor; [split; [split; [discriminate|vm_compute; reflexivity]|reflexivity]|constructor]]|].
  split; [reflexivity|vm_compute; reflexivity].
Qed.
Print Assumptions C71_size_refuted.

(** A specifier of several words, or with brackets or stars, is taken apart: a
    variable of type std::vector<char *> comes back as a pointer. *)
Theorem C71_template_refuted : exists t, c_decl t = [] /\ map sp_text (c_spec t) = [text "vector<char *>"] /\
  from_trace_string (type_trace_string t) = mkPT [PPointer] [(PIdentifier, text "vector<char"); (PIdentifier, text ">")].
Proof.
  exists (mkC [] [x_spec "vector<char *>"]). split; [reflexivity|]. split; [reflexivity|]. vm_compute. reflexivity.
Qed.
Print Assumptions C71_template_refuted.

(** A struct type comes back as two type identifiers, one of them "struct". *)
Theorem C71_struct_refuted : exists t, map sp_text (c_spec t) = [text "struct point"] /\
  pt_spec (from_trace_string (type_trace_string t)) = [(PIdentifier, text "struct"); (PIdentifier, text "point")].
Proof. exists (mkC [] [x_spec "struct point"]). split; [reflexivity|]. vm_compute. reflexivity. Qed.
Print Assumptions C71_struct_refuted.
