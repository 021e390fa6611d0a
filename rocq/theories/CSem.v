(** Specification: what the functions of CParse.v do when they are called
    (C11, x86-64), as a list of operations on the log file and its lock.
    Programs that the standard does not define, and uses of C that this
    reading does not know, are [UB]. *)
From Coq Require Import Strings.String.
From Verif Require Import Base Types Compare PrintPred Instr InstrRun VaArg CRead CParse.

(** ** Values *)

(** Integers; float and double (bits); a pointer to bytes (from there on); a pointer
    to an array of strings; the log file; its lock; a structure (its bytes); a
    va_list after va_start. *)
Inductive cval :=
| VI (z : Z) | VF (bits : N) | VD (bits : N) | VP (addr : N) (mem : list byte) | VNames (l : list (list byte))
| VOut | VLock | VStruct (bs : list byte) | VAp.

(** Value of an integer type with these low bits. *)
Definition wrap (signed : bool) (size : N) (z : Z) : Z :=
  let m := (2 ^ (8 * Z.of_N size))%Z in
  let u := (z mod m)%Z in
  if signed && (m <=? 2 * u)%Z then (u - m)%Z else u.

(** Bytes of an integer *)
Definition int_bytes (size : N) (z : Z) : list byte := le_bytes (N.to_nat size) (Z.to_N (z mod 2 ^ (8 * Z.of_N size))).

(** Conversions (C11 6.3); a pointer as an integer of 8 bytes is its address. *)
Definition convert (t : cty) (v : cval) : outcome cval :=
  match t, v with
  | YInt s n, VI z => Ok (VI (wrap s n z))
  | YInt false 8, VP a _ => Ok (VI (Z.of_N a))
  | YFloat, VF b => Ok (VF b)
  | YFloat, VD b => Ok (VF (narrow b))
  | YDouble, VD b => Ok (VD b)
  | YPtr _, VP a m => Ok (VP a m)
  | YPtr _, VNames l => Ok (VNames l)
  | YPtr _, VOut => Ok VOut
  | YPtr _, VLock => Ok VLock
  | _, _ => UB UUninit
  end.

(** Integer promotions and the usual arithmetic conversions (C11 6.3.1) *)
Definition promote (t : cty) : cty :=
  match t with YInt s n => if n <? 4 then YInt true 4 else YInt s n | _ => t end.
Definition common (a b : cty) : outcome cty :=
  match promote a, promote b with
  | YInt s n, YInt s' n' => if n =? n' then Ok (YInt (s && s') n) else if n <? n' then Ok (YInt s' n') else Ok (YInt s n)
  | _, _ => UB UUninit
  end.
Definition arith (o : cop) (t : cty) (x y : Z) : outcome (cty * cval) :=
  match o, t with
  | OLt, _ => Ok (YInt true 4, VI (if (x <? y)%Z then 1 else 0))
  | OEq, _ => Ok (YInt true 4, VI (if (x =? y)%Z then 1 else 0))
  | OAdd, YInt s n => let z := wrap s n (x + y) in
                      if s && negb (z =? x + y)%Z then UB UUninit      (* signed overflow *)
                      else Ok (t, VI z)
  | OAdd, _ => UB UUninit
  end.
Definition binary (o : cop) (a b : cty * cval) : outcome (cty * cval) :=
  t <- common (fst a) (fst b) ;;
  x <- convert t (snd a) ;;
  y <- convert t (snd b) ;;
  match x, y with VI x, VI y => arith o t x y | _, _ => UB UUninit end.

(** ** Sizes and bytes *)
(** Element of an array *)
Definition element (l : list (list byte)) (i : Z) : outcome (list byte) :=
  if (i <? 0)%Z then UB UOob else match nthN l (Z.to_N i) with Some m => Ok m | None => UB UOob end.

Section Run.
Variable structs : list (name * list (cty * name)).

Fixpoint members (x : name) (l : list (name * list (cty * name))) : option (list cty) :=
  match l with
  | [] => None
  | (y, m) :: r => if bytes_eqb x y then Some (map fst m) else members x r
  end.
(** Members of structures are integers here, aligned to their size (System V ABI). *)
Definition scalar_size (t : cty) : option N :=
  match t with
  | YInt _ n => Some n
  | YFloat => Some 4
  | YDouble | YPtr _ => Some 8
  | _ => None
  end.
Definition round_up (n a : N) : N := (n + a - 1) / a * a.
Fixpoint layout (l : list cty) (at_ align : N) : option (N * N) :=
  match l with
  | [] => Some (round_up at_ align, align)
  | t :: r => match scalar_size t with
              | Some n => layout r (round_up at_ n + n) (N.max align n)
              | None => None
              end
  end.
Definition size_of (t : cty) : outcome N :=
  match t with
  | YStruct x => match members x structs with
                 | Some l => match layout l 0 1 with Some (n, _) => Ok n | None => UB UUninit end
                 | None => UB UUninit
                 end
  | _ => match scalar_size t with Some n => Ok n | None => UB UUninit end
  end.
(** Bytes of an object of that type *)
Definition scalar_bytes (t : cty) (v : cval) : outcome (list byte) :=
  match t, v with
  | YInt _ n, VI z => Ok (int_bytes n z)
  | YFloat, VF b => Ok (le_bytes 4 b)
  | YDouble, VD b => Ok (le_bytes 8 b)
  | YPtr _, VP a _ => Ok (le_bytes 8 a)
  | YStruct _, VStruct bs => Ok bs
  | _, _ => UB UUninit
  end.
(** A structure: its members, with padding of zeros (unspecified in C; there is
    none in the structures of the log). *)
Fixpoint struct_bytes (l : list (cty * cval)) (at_ : N) : outcome (list byte) :=
  match l with
  | [] => Ok []
  | (t, v) :: r =>
      match scalar_size t with
      | Some n => b <- scalar_bytes t v ;; q <- struct_bytes r (round_up at_ n + n) ;;
                  Ok (repeat x00 (N.to_nat (round_up at_ n - at_)) ++ b ++ q)
      | None => UB UUninit
      end
  end.

(** ** State *)
Variable consts : list (name * N).        (* enumeration constants *)
Variable St : Type.
Variable next : aty -> St -> outcome (N * list byte * St).    (* va_arg *)

(** Variables, innermost first; arguments that va_arg has still to fetch; what was done. *)
Record state := mkS { s_vars : list (name * (cty * option cval)); s_va : St; s_acts : list action }.

Fixpoint lookup (x : name) (l : list (name * (cty * option cval))) : option (cty * option cval) :=
  match l with
  | [] => None
  | (y, v) :: r => if bytes_eqb x y then Some v else lookup x r
  end.
Fixpoint assign (x : name) (v : cval) (l : list (name * (cty * option cval))) : list (name * (cty * option cval)) :=
  match l with
  | [] => []
  | (y, (t, o)) :: r => if bytes_eqb x y then (y, (t, Some v)) :: r else (y, (t, o)) :: assign x v r
  end.
Fixpoint constant (x : name) (l : list (name * N)) : option N :=
  match l with
  | [] => None
  | (y, n) :: r => if bytes_eqb x y then Some n else constant x r
  end.
Definition set_var (x : name) (v : cval) (s : state) : state := mkS (assign x v (s_vars s)) (s_va s) (s_acts s).
Definition declare (x : name) (t : cty) (v : option cval) (s : state) : state := mkS ((x, (t, v)) :: s_vars s) (s_va s) (s_acts s).
Definition act (a : action) (s : state) : state := mkS (s_vars s) (s_va s) (s_acts s ++ [a]).
Definition read_var (x : name) (s : state) : outcome (cty * cval) :=
  match lookup x (s_vars s) with
  | Some (t, Some v) => Ok (t, v)
  | Some (_, None) => UB UUninit
  | None => match constant x consts with Some n => Ok (YInt true 4, VI (Z.of_N n)) | None => UB UUninit end
  end.

(** ** Library functions *)

(** Characters before the first NUL; undefined if there is none. *)
Fixpoint string_at (m : list byte) : outcome (list byte) :=
  match m with
  | [] => UB UOob
  | b :: r => if Byte.eqb b x00 then Ok [] else s <- string_at r ;; Ok (b :: s)
  end.
(** size * n bytes of memory, undefined if there are not that many *)
Definition chunk (m : list byte) (size n : Z) : outcome (list byte) :=
  let k := Z.to_N (size * n) in if lenN m <? k then UB UOob else Ok (takeN k m).
Definition call (f : name) (args : list (cty * cval)) (s : state) : outcome (cty * cval * state) :=
  let int z s := Ok (YInt true 4, VI z, s) in
  let is (x : string) := bytes_eqb f (text x) in
  match map snd args with
  | [VLock] => if is "pthread_mutex_lock"%string then int 0%Z (act ALock s)
               else if is "pthread_mutex_unlock"%string then int 0%Z (act AUnlock s) else UB UUninit
  | [VOut] => if is "fflush"%string then int 0%Z (act AFlush s) else UB UUninit
  | [VI z; VOut] => if is "fputc"%string then int z (act (AWrite (int_bytes 1 z)) s) else UB UUninit
  | [VP _ m; VOut] => if is "fputs"%string then c <- string_at m ;; int 0%Z (act (AWrite c) s) else UB UUninit
  | [VP _ m] => if is "strlen"%string then c <- string_at m ;; Ok (YInt false 8, VI (Z.of_N (lenN c)), s) else UB UUninit
  | [VP _ m; VI size; VI n; VOut] =>
      if is "fwrite"%string then b <- chunk m size n ;; Ok (YInt false 8, VI n, act (AWrite b) s) else UB UUninit
  | _ => UB UUninit
  end.

(** Types that va_arg is asked for. *)
Definition aty_of (t : cty) : option aty :=
  match t with
  | YInt true 4 => Some TInt
  | YInt false 4 => Some TUInt
  | YInt true 8 => Some TLong
  | YInt false 8 => Some TULong
  | YDouble => Some TDouble
  | YPtr YVoid => Some (TPtr PVoid)
  | _ => None
  end.
Definition int_of_bits (s : bool) (n bits : N) : Z := wrap s n (Z.of_N bits).
Definition fetched (t : cty) (bits : N) (m : list byte) : cval :=
  match t with
  | YInt s n => VI (int_of_bits s n bits)
  | YDouble => VD bits
  | _ => VP bits m
  end.

(** ** Expressions; [last] is the last parameter before the dots. *)
Variable last : name.
Fixpoint eval (e : cexpr) (s : state) : outcome (cty * cval * state) :=
  match e with
  | EVar x => ' (t, v) <- read_var x s ;; Ok (t, v, s)
  | ENum n => if n <? 2 ^ 31 then Ok (YInt true 4, VI (Z.of_N n), s) else UB UUninit
  | EAddr x => ' (t, v) <- read_var x s ;; bs <- scalar_bytes t v ;; Ok (YPtr t, VP 0 bs, s)
  | ECast t e => ' (_, v, s) <- eval e s ;; w <- convert t v ;; Ok (t, w, s)
  | ESizeT t => n <- size_of t ;; Ok (YInt false 8, VI (Z.of_N n), s)
  | ESizeV x => match lookup x (s_vars s) with
                | Some (t, _) => n <- size_of t ;; Ok (YInt false 8, VI (Z.of_N n), s)
                | None => UB UUninit
                end
  | EIndex x e =>
      ' (_, i, s) <- eval e s ;; ' (_, v) <- read_var x s ;;
      match v, i with
      | VNames l, VI i => m <- element l i ;; Ok (YPtr (YInt true 1), VP 0 m, s)
      | _, _ => UB UUninit
      end
  | EBin o a b => ' (t, v, s) <- eval a s ;; ' (t', v', s) <- eval b s ;; r <- binary o (t, v) (t', v') ;; Ok (fst r, snd r, s)
  | EAssign x e =>
      ' (_, v, s) <- eval e s ;;
      match lookup x (s_vars s) with
      | Some (t, _) => w <- convert t v ;; Ok (t, w, set_var x w s)
      | None => UB UUninit
      end
  | EAddTo x e =>
      ' (t', v', s) <- eval e s ;; ' (t, v) <- read_var x s ;;
      r <- binary OAdd (t, v) (t', v') ;; w <- convert t (snd r) ;; Ok (t, w, set_var x w s)
  | EInc x =>
      ' (t, v) <- read_var x s ;; r <- binary OAdd (t, v) (YInt true 4, VI 1) ;; w <- convert t (snd r) ;;
      Ok (t, v, set_var x w s)
  | EVaArg x t =>
      match read_var x s, aty_of t with
      | Ok (YVaList, _), Some y => ' (b, m, st) <- next y (s_va s) ;; Ok (t, fetched t b m, mkS (s_vars s) st (s_acts s))
      | _, _ => UB UUninit
      end
  | ECall f l =>
      if bytes_eqb f (text "va_start") then
        match l with
        | [EVar ap; EVar y] =>
            match lookup ap (s_vars s) with
            | Some (YVaList, _) => if bytes_eqb y last then Ok (YVoid, VAp, set_var ap VAp s) else UB UUninit
            | _ => UB UUninit
            end
        | _ => UB UUninit
        end
      else
        ' (args, s) <- (fix go (l : list cexpr) (s : state) : outcome (list (cty * cval) * state) :=
                          match l with
                          | [] => Ok ([], s)
                          | e :: r => ' (t, v, s) <- eval e s ;; ' (q, s) <- go r s ;; Ok ((t, v) :: q, s)
                          end) l s ;;
        call f args s
  end.
Fixpoint eval_all (l : list cexpr) (s : state) : outcome (list cval * state) :=
  match l with
  | [] => Ok ([], s)
  | e :: r => ' (_, v, s) <- eval e s ;; ' (q, s) <- eval_all r s ;; Ok (v :: q, s)
  end.
Definition truth (v : cval) : outcome bool := match v with VI z => Ok (negb (z =? 0)%Z) | _ => UB UUninit end.
Fixpoint convert_all (ts : list cty) (vs : list cval) : outcome (list (cty * cval)) :=
  match ts, vs with
  | [], [] => Ok []
  | t :: ts, v :: vs => w <- convert t v ;; r <- convert_all ts vs ;; Ok ((t, w) :: r)
  | _, _ => UB UUninit
  end.

(** ** Statements *)

(** In a switch, statements are passed over until the label: [Seek (Some k)] is
    looking for case k, [Seek None] for default.  (Labels inside if and for are
    not looked for.) *)
Definition same_case (z k : Z) : bool := (z =? k)%Z.
Inductive mode := Go | Seek (k : option Z).
Inductive flow := Next | Break | Seeking.
Definition leave (outer s : state) : state :=
  mkS (skipn (List.length (s_vars s) - List.length (s_vars outer)) (s_vars s)) (s_va s) (s_acts s).

(** At most [n] rounds of a loop; more are [Diverge]. *)
Fixpoint loop (cond : state -> outcome (bool * state)) (body : state -> outcome (flow * state)) (after : state -> outcome state)
  (n : nat) (s : state) : outcome (flow * state) :=
  match n with
  | O => Diverge
  | S n =>
      ' (t, s) <- cond s ;;
      if t then
        ' (f, s) <- body s ;;
        match f with
        | Break => Ok (Next, s)
        | _ => s <- after s ;; loop cond body after n s
        end
      else Ok (Next, s)
  end.

Variable fuel : nat.
Fixpoint exec (m : mode) (c : cstmt) (s : state) : outcome (flow * state) :=
  match c with
  | SSeq a b =>
      ' (f, s) <- exec m a s ;;
      match f with Next => exec Go b s | Break => Ok (Break, s) | Seeking => exec m b s end
  | SBlock a => ' (f, s') <- exec m a s ;; Ok (f, leave s s')
  | SCase e =>
      match m with
      | Seek (Some k) => ' (_, v, _) <- eval e s ;;
                         match v with VI z => Ok (if same_case z k then Next else Seeking, s) | _ => UB UUninit end
      | Seek None => Ok (Seeking, s)
      | Go => Ok (Next, s)
      end
  | SDefault => match m with Seek (Some _) => Ok (Seeking, s) | _ => Ok (Next, s) end
  | _ =>
      match m with
      | Seek _ => Ok (Seeking, s)
      | Go =>
          match c with
          | SBreak => Ok (Break, s)
          | SDecl t x None => Ok (Next, declare x t None s)
          | SDecl t x (Some e) => ' (_, v, s) <- eval e s ;; w <- convert t v ;; Ok (Next, declare x t (Some w) s)
          | SDeclS (YStruct y) x l =>
              match members y structs with
              | Some ts => ' (vs, s) <- eval_all l s ;; ws <- convert_all ts vs ;; bs <- struct_bytes ws 0 ;;
                           Ok (Next, declare x (YStruct y) (Some (VStruct bs)) s)
              | None => UB UUninit
              end
          | SExpr e => ' (_, _, s) <- eval e s ;; Ok (Next, s)
          | SIf e a b => ' (_, v, s) <- eval e s ;; t <- truth v ;; if t then exec Go a s else exec Go b s
          | SSwitch e a =>
              ' (_, v, s) <- eval e s ;;
              match v with
              | VI k => ' (f, s1) <- exec (Seek (Some k)) a s ;;
                        match f with
                        | Seeking => ' (_, s2) <- exec (Seek None) a s ;; Ok (Next, s2)
                        | _ => Ok (Next, s1)
                        end
              | _ => UB UUninit
              end
          | SFor e1 e2 e3 a =>
              ' (_, _, s) <- eval e1 s ;;
              loop (fun s => ' (_, v, s) <- eval e2 s ;; t <- truth v ;; Ok (t, s)) (exec Go a)
                (fun s => ' (_, _, s) <- eval e3 s ;; Ok s) fuel s
          | _ => Ok (Next, s)
          end
      end
  end.
End Run.

(** ** Calls *)

(** A call: the arguments are converted to the types of the parameters; the
    variable arguments are those in [st].  [fuel] bounds the rounds of each loop. *)
Fixpoint find_fun (f : name) (l : list (name * cfun)) : option cfun :=
  match l with
  | [] => None
  | (g, d) :: r => if bytes_eqb f g then Some d else find_fun f r
  end.
Definition call_fun (St : Type) (next : aty -> St -> outcome (N * list byte * St)) (fuel : nat)
  (file : cfile) (f : name) (args : list cval) (st : St) : outcome (list action) :=
  match find_fun f (c_funs file) with
  | Some d =>
      ws <- convert_all (map fst (f_params d)) args ;;
      let vars := rev (map (fun p => (snd (fst p), (fst (snd p), Some (snd (snd p))))) (combine (f_params d) ws)) in
      ' (_, s) <- exec (c_structs file) (c_consts file) St next (List.last (map snd (f_params d)) []) fuel Go (f_body d) (mkS St vars st []) ;;
      Ok (s_acts St s)
  | None => UB UUninit
  end.
