(** Specification: the memory that stays allocated after traces were read and freed. *)
From Verif Require Import Base Types Stream MemMapSpec Reader FormatSpec Ledger.

(** The kinds of the live blocks. *)
Definition live (l : ledger) : list block := map snd (l_live l).
Definition no_memory : ledger := mkL 0 [].

(** A blob for each variable entry whose type is a blob. *)
Definition entry_blobs (types : list tdesc) (e : entry) : list block :=
  match e with
  | EVar _ ty data =>
      match nthN types ty with
      | Some t => match t_fmt t with BLOB => [BBlob (lenN data)] | _ => [] end
      | None => []
      end
  | _ => []
  end.
Definition is_blob (b : block) : Prop := exists n, b = BBlob n.

(** Memory for the value of a variable entry whose type is a blob is obtained as soon
    as the name and the type are known to be valid and the size is known.  [r] begins
    with an entry that may be cut; of a number that is cut the bytes that are there
    count. *)
Definition started_blob (ok : alloc) (names : list name) (types : list tdesc) (r : list byte) : list block :=
  match r with
  | [] => []
  | tag :: nm =>
      let ty := dropN 4 nm in
      let size := dropN 4 ty in
      if negb (Byte.eqb tag x02) || (lenN nm <? 4) then []
      else match nthN types (le_val (takeN 4 ty)) with
           | None => []
           | Some d =>
               if lenN names <=? le_val (takeN 4 nm) then []
               else match t_fmt d with
                    | BLOB =>
                        if (t_size d =? 0) && (lenN ty <? 4) then []
                        else let n := if t_size d =? 0 then le_val (takeN 4 size) else t_size d in
                             if ok n || (n =? 0) then [BBlob n] else []
                    | _ => []
                    end
           end
  end.

(** [leak ok M max src b]: after a file was read and the trace freed, the blocks [b]
    remain. *)
Inductive leak (ok : alloc) (M : map_ops) (max : N) : source -> list block -> Prop :=
| leak_unopened : leak ok M max None []
| leak_all : forall t F es,     (* read to the end: complete points and the entries of an unfinished one *)
    file_wf ok F -> Forall (entry_wf ok (f_names F) (f_types F)) es ->
    sentinel_safe (records (concat (f_points F) ++ es)) ->
    max = 0 \/ lenN (f_points F) < max ->
    leak ok M max (Some (enc_file F ++ enc_entries (f_types F) es, t))
         (flat_map (entry_blobs (f_types F)) (concat (f_points F) ++ es))
| leak_max : forall t F rest,   (* read up to the limit *)
    file_wf ok F -> max <> 0 -> lenN (f_points F) = max ->
    leak ok M max (Some (enc_file F ++ rest, t)) (flat_map (entry_blobs (f_types F)) (concat (f_points F)))
| leak_cut_count : forall t names k,   (* ends within the number of types *)
    names_wf ok names -> (k < 4)%nat ->
    leak ok M max (Some (enc_names names ++ repeat x00 k, t)) []
| leak_cut_size : forall t bs names types ty part missing,   (* ends within the size of the last type *)
    names_wf ok names -> types_wf ok (types ++ [ty]) ->
    part ++ missing = le_bytes 4 (t_size ty) -> missing <> [] ->
    bs ++ missing = enc_header names (types ++ [ty]) ->
    leak ok M max (Some (bs, t)) []
| leak_rejected : forall t bs e b,
    read_trace ok M max (open_stream bs t) = Throw e ->
    (* the header is refused: nothing *)
    (b = [] /\ (forall names types rest, names_wf ok names -> types_wf ok types -> bs <> enc_header names types ++ rest) /\
     ~ (lenN bs < 8 /\ 0 < le_val bs /\ ok (le_val bs) = true)) \/
    (* the file ends within the first number, which is not 0 so far: the buffer *)
    (lenN bs < 8 /\ 0 < le_val bs /\ ok (le_val bs) = true /\ b = [BChars (le_val bs)]) \/
    (* an entry is cut or refused: the blobs before it, and its own if that was obtained *)
    (exists names types pts es r, names_wf ok names /\ types_wf ok types /\
       Forall (Forall (entry_wf ok names types)) pts /\ Forall (entry_wf ok names types) es /\
       bs = enc_header names types ++ enc_points types pts ++ enc_entries types es ++ r /\
       r <> [] /\ (forall q, r <> x00 :: q) /\ (forall e q, entry_wf ok names types e -> r <> enc_entry types e ++ q) /\
       b = flat_map (entry_blobs types) (concat pts ++ es) ++ started_blob ok names types r) ->
    leak ok M max (Some (bs, t)) b.

(** Files read one after the other, each trace freed before the next is read. *)
Fixpoint read_and_free (ok : alloc) (M : map_ops) (files : list (N * source)) : mem unit :=
  match files with
  | [] => mret (Ok tt)
  | (max, src) :: r =>
      res <~ read_trace_c ok M max src ;;
      _ <~ match res with Some (tr, _) => free_trace_c tr | None => mret (Ok tt) end ;;
      read_and_free ok M r
  end.

(** A database that is created, filled and freed; the traces it held. *)
Fixpoint add_all (ok : alloc) (M : map_ops) (files : list (N * source)) : mem (list (trace (option N))) :=
  match files with
  | [] => mret (Ok [])
  | (max, src) :: r =>
      res <~ add_trace_c ok M max src ;;
      trs <~ add_all ok M r ;;
      mret (Ok (match res with Some tr => tr :: trs | None => trs end))
  end.
Definition database_life (ok : alloc) (M : map_ops) (files : list (N * source)) : mem (list (trace (option N))) :=
  db <~ create_db_c ;;
  trs <~ add_all ok M files ;;
  _ <~ free_db_c db ;;
  mret (Ok trs).

(** No file has undefined behaviour (see C13). *)
Definition defined (ok : alloc) (M : map_ops) (file : N * source) : Prop :=
  match file with
  | (max, Some (bs, t)) => forall k, read_trace ok M max (open_stream bs t) <> UB k
  | (_, None) => True
  end.

(** The traces a database holds after the files were added. *)
Definition readable (ok : alloc) (M : map_ops) (file : N * source) : list (trace (option N)) :=
  match file with
  | (max, Some (bs, t)) => match read_trace ok M max (open_stream bs t) with Ok c => [c] | _ => [] end
  | (_, None) => []
  end.

(** A file without blobs that is not cut within its first number. *)
Definition no_blob_file (ok : alloc) (f : N * source) : Prop :=
  match snd f with
  | None => True
  | Some (bs, _) => 8 <= lenN bs /\
      forall names types rest, names_wf ok names -> types_wf ok types -> bs = enc_header names types ++ rest ->
      Forall (fun t => t_fmt t <> BLOB) types
  end.
