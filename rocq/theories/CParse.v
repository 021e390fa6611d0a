(** Specification: how a C compiler reads the functions that write the log.
    A reader for the part of C11 that they use; anything else is rejected.
    The tokens are those of CRead.v; preprocessor lines are left out, what
    the headers named there declare is part of [base_type] and of CSem.v. *)
From Coq Require Import Strings.String.
From Verif Require Import Base Types Compare PrintPred CRead.

(** ** Types *)

(** Integers (signed?, bytes); pointers; structures by name; types of the
    libraries: FILE, pthread_mutex_t, va_list. *)
Inductive cty :=
| YVoid | YInt (signed : bool) (size : N) | YFloat | YDouble | YPtr (t : cty) | YStruct (x : name)
| YLib (x : name) | YVaList.

(** x86-64; enumerations without negative constants are unsigned int (GCC). *)
Definition base_types : list (list string * cty) :=
  [(["void"], YVoid); (["char"], YInt true 1); (["int"], YInt true 4); (["float"], YFloat); (["double"], YDouble);
   (["uint32_t"], YInt false 4); (["uint64_t"], YInt false 8); (["int16_t"], YInt true 2); (["int32_t"], YInt true 4);
   (["int64_t"], YInt true 8); (["unsigned"; "long"; "long"], YInt false 8); (["unsigned"; "long"], YInt false 8);
   (["FILE"], YLib (text "FILE")); (["pthread_mutex_t"], YLib (text "pthread_mutex_t")); (["va_list"], YVaList)]%string.

Fixpoint starts_with (ws : list string) (ts : list ctok) : option (list ctok) :=
  match ws, ts with
  | [], _ => Some ts
  | w :: ws, KId x :: ts => if bytes_eqb x (text w) then starts_with ws ts else None
  | _, _ => None
  end.
Fixpoint find_base (l : list (list string * cty)) (ts : list ctok) : option (cty * list ctok) :=
  match l with
  | [] => None
  | (ws, t) :: l => match starts_with ws ts with Some r => Some (t, r) | None => find_base l ts end
  end.
Fixpoint stars (t : cty) (ts : list ctok) : cty * list ctok :=
  match ts with
  | k :: r => if is x2a k then stars (YPtr t) r else (t, ts)
  | [] => (t, [])
  end.
Definition kw (x : string) (k : ctok) : bool := match k with KId y => bytes_eqb y (text x) | _ => false end.

(** const is left out.  [structs]: structures whose name is also a type name
    (typedef struct x x). *)
Definition parse_type (structs : list name) (ts : list ctok) : option (cty * list ctok) :=
  let ts := match ts with k :: r => if kw "const" k then r else ts | [] => [] end in
  match find_base base_types ts with
  | Some (t, r) => Some (stars t r)
  | None =>
      match ts with
      | KId e :: KId x :: r =>
          if bytes_eqb e (text "enum") then Some (stars (YInt false 4) r)
          else if existsb (bytes_eqb e) structs then Some (stars (YStruct e) (KId x :: r)) else None
      | KId e :: r => if existsb (bytes_eqb e) structs then Some (stars (YStruct e) r) else None
      | _ => None
      end
  end.

(** ** Expressions *)
Inductive cop := OLt | OEq | OAdd.
Inductive cexpr :=
| EVar (x : name) | ENum (n : N) | ECall (f : name) (l : list cexpr) | EAddr (x : name) | ECast (t : cty) (e : cexpr)
| ESizeT (t : cty) | ESizeV (x : name) | EIndex (x : name) (e : cexpr) | EBin (o : cop) (a b : cexpr)
| EAssign (x : name) (e : cexpr) | EAddTo (x : name) (e : cexpr) | EInc (x : name) | EVaArg (x : name) (t : cty).

(** The next token is this punctuation. *)
Definition eat (b : byte) (ts : list ctok) : option (list ctok) :=
  match ts with k :: r => if is b k then Some r else None | [] => None end.
Definition also {A B} (o : option A) (f : A -> option B) : option B := match o with Some x => f x | None => None end.
Notation "x <-- o ;; k" := (also o (fun x => k)) (at level 61, o at next level, right associativity).
Notation "' p <-- o ;; k" := (also o (fun p => k)) (at level 61, p pattern, o at next level, right associativity).

Section Parse.
Variable structs : list name.

Fixpoint parse_expr (fuel : nat) (ts : list ctok) : option (cexpr * list ctok) :=
  match fuel with
  | O => None
  | S n =>
      let unary (ts : list ctok) : option (cexpr * list ctok) :=
        match ts with
        | KNum z :: r => match num_value z with Some (v, false) => Some (ENum v, r) | _ => None end
        | KPunct b :: r =>
            if is x26 (KPunct b) then match r with KId x :: q => Some (EAddr x, q) | _ => None end
            else if is x28 (KPunct b) then
              '(t, q) <-- parse_type structs r ;; q <-- eat x29 q ;; '(e, q) <-- parse_expr n q ;;
              match e with EBin _ _ _ | EAssign _ _ | EAddTo _ _ => None | _ => Some (ECast t e, q) end
            else None
        | KId x :: r =>
            match eat x28 r with
            | Some q =>
                if bytes_eqb x (text "sizeof") then
                  match parse_type structs q with
                  | Some (t, q) => q <-- eat x29 q ;; Some (ESizeT t, q)
                  | None => match q with KId y :: q => q <-- eat x29 q ;; Some (ESizeV y, q) | _ => None end
                  end
                else if bytes_eqb x (text "va_arg") then
                  match q with
                  | KId y :: q => q <-- eat x2c q ;; '(t, q) <-- parse_type structs q ;; q <-- eat x29 q ;; Some (EVaArg y t, q)
                  | _ => None
                  end
                else
                  (fix args (k : nat) (acc : list cexpr) (q : list ctok) : option (cexpr * list ctok) :=
                     match k with
                     | O => None
                     | S k => '(e, q) <-- parse_expr n q ;;
                              match eat x29 q with
                              | Some q => Some (ECall x (rev (e :: acc)), q)
                              | None => q <-- eat x2c q ;; args k (e :: acc) q
                              end
                     end) n [] q
            | None =>
                match eat x5b r with
                | Some q => '(e, q) <-- parse_expr n q ;; q <-- eat x5d q ;; Some (EIndex x e, q)
                | None => Some (EVar x, r)
                end
            end
        | _ => None
        end in
      let two b c (ts : list ctok) := q <-- eat b ts ;; eat c q in
      match ts with
      | KId x :: r =>
          match two x2b x2b r with
          | Some q => Some (EInc x, q)
          | None =>
              match two x2b x3d r with
              | Some q => '(e, q) <-- parse_expr n q ;; Some (EAddTo x e, q)
              | None =>
                  match two x3d x3d r, eat x3d r with
                  | None, Some q => '(e, q) <-- parse_expr n q ;; Some (EAssign x e, q)
                  | _, _ =>
                      '(a, q) <-- unary ts ;;
                      match two x3d x3d q with
                      | Some q => '(b, q) <-- unary q ;; Some (EBin OEq a b, q)
                      | None => match eat x3c q with
                                | Some q => '(b, q) <-- unary q ;; Some (EBin OLt a b, q)
                                | None => match eat x2b q with
                                          | Some q => '(b, q) <-- unary q ;; Some (EBin OAdd a b, q)
                                          | None => Some (a, q)
                                          end
                                end
                      end
                  end
              end
          end
      | _ => unary ts
      end
  end.

(** ** Statements *)
Inductive cstmt :=
| SSkip | SSeq (a b : cstmt) | SBlock (s : cstmt)
| SDecl (t : cty) (x : name) (e : option cexpr) | SDeclS (t : cty) (x : name) (l : list cexpr)
| SExpr (e : cexpr) | SFor (e1 e2 e3 : cexpr) (s : cstmt) | SIf (e : cexpr) (a b : cstmt)
| SSwitch (e : cexpr) (s : cstmt) | SCase (e : cexpr) | SDefault | SBreak.

Definition parse_members (parse_one : list ctok -> option (cexpr * list ctok)) :=
  fix members (k : nat) (acc : list cexpr) (ts : list ctok) : option (list cexpr * list ctok) :=
    match k with
    | O => None
    | S k => '(e, q) <-- parse_one ts ;;
             match eat x7d q with
             | Some q => Some (rev (e :: acc), q)
             | None => q <-- eat x2c q ;; members k (e :: acc) q
             end
    end.
(** A declaration with an optional initialiser, or an expression; up to the semicolon. *)
Definition parse_simple (fuel : nat) (ts : list ctok) : option (cstmt * list ctok) :=
  match parse_type structs ts with
  | Some (t, KId x :: q) =>
      match eat x3d q with
      | None => q <-- eat x3b q ;; Some (SDecl t x None, q)
      | Some q =>
          match eat x7b q with
          | Some q => '(l, q) <-- parse_members (parse_expr fuel) fuel [] q ;; q <-- eat x3b q ;; Some (SDeclS t x l, q)
          | None => '(e, q) <-- parse_expr fuel q ;; q <-- eat x3b q ;; Some (SDecl t x (Some e), q)
          end
      end
  | _ => '(e, q) <-- parse_expr fuel ts ;; q <-- eat x3b q ;; Some (SExpr e, q)
  end.

Fixpoint parse_stmt (fuel : nat) (ts : list ctok) : option (cstmt * list ctok) :=
  match fuel with
  | O => None
  | S n =>
      match ts with
      | [] => None
      | k :: r =>
          if is x7b k then
            '(s, q) <-- (fix block (m : nat) (ts : list ctok) : option (cstmt * list ctok) :=
                           match m with
                           | O => None
                           | S m => match eat x7d ts with
                                    | Some q => Some (SSkip, q)
                                    | None => '(a, q) <-- parse_stmt n ts ;; '(b, q) <-- block m q ;; Some (SSeq a b, q)
                                    end
                           end) n r ;;
            Some (SBlock s, q)
          else if kw "for" k then
            q <-- eat x28 r ;; '(a, q) <-- parse_expr n q ;; q <-- eat x3b q ;; '(b, q) <-- parse_expr n q ;; q <-- eat x3b q ;;
            '(c, q) <-- parse_expr n q ;; q <-- eat x29 q ;; '(s, q) <-- parse_stmt n q ;; Some (SFor a b c s, q)
          else if kw "if" k then
            q <-- eat x28 r ;; '(e, q) <-- parse_expr n q ;; q <-- eat x29 q ;; '(a, q) <-- parse_stmt n q ;;
            match q with
            | k :: q' => if kw "else" k then '(b, q) <-- parse_stmt n q' ;; Some (SIf e a b, q) else Some (SIf e a SSkip, q)
            | [] => None
            end
          else if kw "switch" k then
            q <-- eat x28 r ;; '(e, q) <-- parse_expr n q ;; q <-- eat x29 q ;; '(s, q) <-- parse_stmt n q ;; Some (SSwitch e s, q)
          else if kw "case" k then '(e, q) <-- parse_expr n r ;; q <-- eat x3a q ;; Some (SCase e, q)
          else if kw "default" k then q <-- eat x3a r ;; Some (SDefault, q)
          else if kw "break" k then q <-- eat x3b r ;; Some (SBreak, q)
          else parse_simple n ts
      end
  end.
End Parse.

(** ** Files *)

(** A function: its parameters, three dots?, its body.  Enumeration constants;
    structures with their members. *)
Record cfun := mkFun { f_params : list (cty * name); f_dots : bool; f_body : cstmt }.
Record cfile := mkFile { c_consts : list (name * N); c_structs : list (name * list (cty * name)); c_funs : list (name * cfun) }.

Definition parse_named (structs : list name) (ts : list ctok) : option (cty * name * list ctok) :=
  match parse_type structs ts with Some (t, KId x :: q) => Some (t, x, q) | _ => None end.
Fixpoint parse_params (structs : list name) (k : nat) (ts : list ctok) : option (list (cty * name) * bool * list ctok) :=
  match k with
  | O => None
  | S k =>
      match (q <-- eat x2e ts ;; q <-- eat x2e q ;; eat x2e q) with
      | Some q => q <-- eat x29 q ;; Some ([], true, q)
      | None => '(t, x, q) <-- parse_named structs ts ;;
             match eat x29 q with
             | Some q => Some ([(t, x)], false, q)
             | None => q <-- eat x2c q ;; '(l, d, q) <-- parse_params structs k q ;; Some ((t, x) :: l, d, q)
             end
      end
  end.
Fixpoint parse_fields (structs : list name) (k : nat) (ts : list ctok) : option (list (cty * name) * list ctok) :=
  match k with
  | O => None
  | S k => match eat x7d ts with
           | Some q => q <-- eat x3b q ;; Some ([], q)
           | None => '(t, x, q) <-- parse_named structs ts ;; q <-- eat x3b q ;;
                     '(l, q) <-- parse_fields structs k q ;; Some ((t, x) :: l, q)
           end
  end.
(** struct x { ... };   static void f(...) { ... } *)
Fixpoint parse_file (types : list name) (fuel : nat) (f : cfile) (ts : list ctok) : option cfile :=
  match fuel with
  | O => None
  | S n =>
      match ts with
      | [] => Some f
      | KId s :: KId x :: r =>
          if bytes_eqb s (text "struct") then
            q <-- eat x7b r ;; '(l, q) <-- parse_fields types n q ;;
            parse_file types n (mkFile (c_consts f) (c_structs f ++ [(x, l)]) (c_funs f)) q
          else if bytes_eqb s (text "static") && bytes_eqb x (text "void") then
            match r with
            | KId g :: q => q <-- eat x28 q ;; '(l, d, q) <-- parse_params types n q ;;
                            match parse_stmt types n q with
                            | Some (SBlock b, q) => parse_file types n (mkFile (c_consts f) (c_structs f) (c_funs f ++ [(g, mkFun l d b)])) q
                            | _ => None
                            end
            | _ => None
            end
          else None
      | _ => None
      end
  end.

(** Lines that begin with # are left out. *)
Fixpoint without_directives (at_start skip : bool) (l : list byte) : list byte :=
  match l with
  | [] => []
  | b :: r =>
      let nl := Byte.eqb b x0a in
      if skip then if nl then b :: without_directives true false r else without_directives false true r
      else if at_start && Byte.eqb b x23 then without_directives false true r
      else b :: without_directives nl false r
  end.

(** What the declarations at the top of the file say: enumeration constants
    (C11 6.7.2.2), type names (typedef struct x y;), prototypes. *)
Fixpoint numbered (i : N) (l : list (list ctok)) : list (name * N) :=
  match l with
  | [KId x] :: r => (x, i) :: numbered (i + 1) r
  | (KId x :: k :: [KNum z]) :: r =>
      match num_value z with
      | Some (n, false) => if is x3d k then (x, n) :: numbered (n + 1) r else []
      | _ => []
      end
  | _ => []
  end.
Fixpoint enum_constants (ts : list ctok) : list (name * N) :=
  match ts with
  | [] => []
  | k :: r =>
      (if kw "enum" k then
         match r with
         | KId _ :: q => match (q <-- eat x7b q ;; inside 0 q) with Some b => numbered 0 (split x2c 0 [] b) | None => [] end
         | _ => []
         end
       else []) ++ enum_constants r
  end.
Fixpoint typedefs (ts : list ctok) : list name :=
  match ts with
  | [] => []
  | k :: r =>
      (if kw "typedef" k then
         match r with
         | s :: KId x :: KId y :: q => if kw "struct" s && bytes_eqb x y then match eat x3b q with Some _ => [x] | None => [] end else []
         | _ => []
         end
       else []) ++ typedefs r
  end.
Fixpoint prototyped (types : list name) (ts : list ctok) : list (name * (list (cty * name) * bool)) :=
  match ts with
  | [] => []
  | k :: r =>
      (if kw "static" k then
         match r with
         | v :: KId f :: q =>
             if kw "void" v then
               match (q <-- eat x28 q ;; parse_params types (List.length q) q) with
               | Some (l, d, q) => match eat x3b q with Some _ => [(f, (l, d))] | None => [] end
               | None => []
               end
             else []
         | _ => []
         end
       else []) ++ prototyped types r
  end.

(** The functions of a text that follows these declarations. *)
Definition parse_c (declarations l : list byte) : option cfile :=
  ds <-- lex declarations ;;
  ts <-- lex (without_directives true false l) ;;
  parse_file (typedefs ds) (List.length ts) (mkFile (enum_constants ds) [] []) ts.
