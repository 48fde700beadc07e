(** C36 (files), C37, C38, C39: model of the Vortex file layer (vortex-serde/src/layouts). *)
From Verif Require Import Base Spec Arr ArrRead ArrWf ArrSlice IntEnc ArrOps Ipc.

(** * Layouts and the libraries that are not modelled *)

(** Layout, layouts/write/layouts.rs:10-57: id, byte ranges, children, metadata. Ids are those of layouts/mod.rs:13-16. *)
Inductive layout := Lay (id : nat) (bufs : option (list (nat * nat))) (ch : option (list layout)) (meta : option (list Z)).
Definition lay_flat (r : nat * nat) := Lay 1 (Some [r]) None None.
Definition lay_chunked (ch : list layout) (has_meta : bool) := Lay 2 None (Some ch) (Some [if has_meta then 1 else 0]%Z).
Definition lay_column (ch : list layout) := Lay 3 None (Some ch) None.
Definition lay_schema (ch : list layout) (r : nat * nat) := Lay 4 (Some [r]) (Some ch) None.

(** The flatbuffers library for the footer and the postscript (write/footer.rs): abstract encodings, as in Ipc.v. *)
Record fcodec := FCodec {
  f_enc : layout * nat -> list Z; f_dec : list Z -> option (layout * nat);
  p_enc : nat * nat -> list Z; p_dec : list Z -> option (nat * nat) }.

(** How an in-memory array becomes a tree of (encoding, metadata, buffers, children) and back: each encoding's own metadata and buffers.
    Abstract; what is used is that [a_de] undoes [a_ser] on the arrays written. *)
Record acodec := ACodec { a_ser : array -> atree; a_de : dtype -> nat -> atree -> result array }.

(** * Writer: layouts/write/writer.rs *)

(** MessageWriter::write_message for any flatbuffer (message_writer.rs:88-126); [Ipc.write_message c w m] is [write_fb w (enc c m)]. *)
Definition write_fb (w : writer) (buffer : list Z) : result writer :=
  let unaligned := 4 + length buffer in
  let al := aligned unaligned in
  let w := put w (u32_le (as_u32 (al - 4))) in
  let w := put w buffer in
  do z <- zeros_r (al - unaligned);
  let w := put w z in
  if w_pos w mod 64 =? 0 then Ok w else Panic.

(** BatchOffsets, writer.rs:203-216. *)
Record offsets := Offs { o_rows : list nat; o_bytes : list (list nat) }.
(** LayoutWriter, writer.rs:22-28. *)
Record lwriter := LW { lw_w : writer; lw_rows : nat; lw_dtype : option dtype; lw_cols : list offsets }.
Definition new_writer : lwriter := LW (W [] 0) 0 None [].

(** The loop of write_column_chunks, writer.rs:102-107. *)
Fixpoint write_col_loop (c : codec) (ac : acodec) (w : writer) (n : nat) (cs : list array) : result (writer * list nat * list nat) :=
  match cs with
  | [] => Ok (w, [], [])
  | a :: r =>
      do w <- write_batch c w (alen a) (a_ser ac a);
      do (w', ro, bo) <- write_col_loop c ac w (n + alen a) r;
      Ok (w', (n + alen a) :: ro, w_pos w :: bo)
  end.
(** write_column_chunks, writer.rs:84-118. *)
Definition write_column_chunks (c : codec) (ac : acodec) (w : writer) (cols : list offsets) (i : nat) (cs : list array) : result (writer * list offsets) :=
  do (ro0, n) <- match nth_error cols i with
                 | None => Ok ([0], 0)
                 | Some x => match o_rows x with [] => Panic | _ :: _ => Ok ([], last (o_rows x) 0) end
                 end;
  do (w', ro, bo) <- write_col_loop c ac w n cs;
  let ro := ro0 ++ ro in
  let bo := w_pos w :: bo in
  Ok (w', match nth_error cols i with
          | Some x => list_set cols i (Offs (o_rows x ++ ro) (o_bytes x ++ [bo]))
          | None => cols ++ [Offs ro [bo]]
          end).
(** The columns of one batch, writer.rs:70-78: the chunks of a chunked field are written one by one. *)
Definition chunks_of (a : array) : list array := match a with AChunked _ cs => cs | _ => [a] end.
Fixpoint write_fields (c : codec) (ac : acodec) (w : writer) (cols : list offsets) (i : nat) (fls : list array) : result (writer * list offsets) :=
  match fls with
  | [] => Ok (w, cols)
  | a :: r => do (w, cols) <- write_column_chunks c ac w cols i (chunks_of a); write_fields c ac w cols (S i) r
  end.
(** write_array_columns_stream, writer.rs:50-82: [d] is the data type of the stream. The validity of the struct is not written. *)
Fixpoint write_batches (c : codec) (ac : acodec) (s : lwriter) (bs : list array) : result lwriter :=
  match bs with
  | [] => Ok s
  | AStruct _ fls n _ :: r =>
      do (w, cols) <- write_fields c ac (lw_w s) (lw_cols s) 0 fls;
      write_batches c ac (LW w (lw_rows s + n) (lw_dtype s) cols) r
  | _ :: _ => Err
  end.
Definition write_array_stream (c : codec) (ac : acodec) (s : lwriter) (d : dtype) (bs : list array) : result lwriter :=
  match lw_dtype s with
  | Some d' => if dtype_eqb d' d then write_batches c ac s bs else Err
  | None => write_batches c ac (LW (lw_w s) (lw_rows s) (Some d) (lw_cols s)) bs
  end.

(** ByteRange::new asserts that the range is not empty, stream_writer/mod.rs:113-116. *)
Definition byte_range (b e : nat) : result (nat * nat) := if b <? e then Ok (b, e) else Panic.
(** write_metadata_arrays, writer.rs:120-157. *)
Definition pairs (bo : list nat) : list (nat * nat) := combine bo (skipn 1 bo).
Fixpoint write_metadata (c : codec) (ac : acodec) (w : writer) (cols : list offsets) : result (writer * list layout) :=
  match cols with
  | [] => Ok (w, [])
  | o :: r =>
      do chunks <- mapM (fun be => do x <- byte_range (fst be) (snd be); Ok (lay_flat x)) (flat_map pairs (o_bytes o));
      if length (o_rows o) =? 0 then Panic
      else
        let len := length (o_rows o) - 1 in
        let rows := firstn len (o_rows o) in
        if negb (length chunks =? length rows) then Panic
        else
          let meta := AStruct [0] [APrim U64 (map Z.of_nat rows) VNonNull] len VNonNull in
          let b0 := w_pos w in
          do w1 <- write_message c w (MSchema (adtype meta));
          do w2 <- write_batch c w1 len (a_ser ac meta);
          do r1 <- byte_range (w_pos w1) (w_pos w2);
          do r2 <- byte_range b0 (w_pos w1);
          do (w', ls) <- write_metadata c ac w2 r;
          Ok (w', lay_chunked (lay_schema [lay_flat r1] r2 :: chunks) true :: ls)
  end.

(** MAGIC_BYTES, VERSION, layouts/mod.rs:8-12. *)
Definition magic : list Z := [86; 82; 84; 88]%Z.
Definition eof_bytes : list Z := [1; 0; 0; 0]%Z ++ magic.
(** finalize, writer.rs:159-188. *)
Definition finalize (c : codec) (fc : fcodec) (ac : acodec) (s : lwriter) : result (list Z) :=
  do (w, cols) <- write_metadata c ac (lw_w s) (lw_cols s);
  match lw_dtype s with
  | None => Err
  | Some d =>
      let so := w_pos w in
      do w <- write_message c w (MSchema d);
      let fo := w_pos w in
      do w <- write_fb w (f_enc fc (lay_column cols, lw_rows s));
      Ok (w_out w ++ p_enc fc (so, fo) ++ eof_bytes)
  end.

(** * Opening a file: layouts/read/footer.rs *)

(** VortexReadAt::read_at_into, io/read.rs:107-121. *)
Definition read_at (file : list Z) (pos n : nat) : result (list Z) := if length file <? pos + n then Err else Ok (firstn n (skipn pos file)).
Definition initial_read_size : nat := Z.to_nat 8388608.
Record descriptor := Desc { d_schema : nat; d_footer : nat; d_read : list Z; d_off : nat }.
Definition zlist_eqb (a b : list Z) : bool := if list_eq_dec Z.eq_dec a b then true else false.
(** read_footer, footer.rs:140-187, of a file of the given size. *)
Definition read_footer (fc : fcodec) (file : list Z) : result descriptor :=
  let size := length file in
  if size <? 8 then Err
  else
    let rs := Nat.min initial_read_size size in
    do buf <- read_at file (size - rs) rs;
    let eof := rs - 8 in
    if negb (zlist_eqb (skipn (eof + 4) buf) magic) then Err
    else if negb (nth eof buf 0 + 256 * nth (eof + 1) buf 0 =? 1)%Z then Err
    else if eof <? 32 then Panic
    else
      match p_dec fc (firstn 32 (skipn (eof - 32) buf)) with
      | None => Err
      | Some (so, fo) => Ok (Desc so fo buf (size - rs))
      end.
(** [initial_read.slice(start + 4 .. end)], footer.rs:61-67,74-78,90-94: subtraction and slicing panic. *)
Definition desc_slice (d : descriptor) (b e : nat) : result (list Z) :=
  if (b <? d_off d) || (e <? d_off d) then Panic
  else
    let b := b - d_off d + 4 in let e := e - d_off d in
    if (e <? b) || (length (d_read d) <? e) then Panic else Ok (lslice (d_read d) b e).
(** LayoutDescriptor::layout, 69-87. *)
Definition desc_layout (fc : fcodec) (d : descriptor) : result (layout * nat) :=
  if length (d_read d) <? 40 then Panic
  else
    do b <- desc_slice d (d_footer d) (d_off d + (length (d_read d) - 40));
    match f_dec fc b with Some x => Ok x | None => Err end.
(** LayoutDescriptor::dtype, 100-128. *)
Definition desc_dtype (c : codec) (d : descriptor) : result dtype :=
  do b <- desc_slice d (d_schema d) (d_footer d);
  match dec c b with Some (MSchema t) => Ok t | _ => Err end.

(** * Fields and projections *)
Inductive field := FName (n : nat) | FIndex (i : nat).
(** [position(|name| name == n)]: the first match. *)
Fixpoint position (ns : list nat) (n : nat) : option nat :=
  match ns with [] => None | m :: r => if m =? n then Some 0 else match position r n with Some i => Some (S i) | None => None end end.
(** resolve_field, vortex-dtype/src/serde/flatbuffers/project.rs:11-24 (and cache.rs:103-126). *)
Definition resolve_field (ns : list nat) (f : field) : result nat :=
  match f with FName n => match position ns n with Some i => Ok i | None => Err end | FIndex i => Ok i end.
(** read_field, project.rs:50-62: flatbuffer vectors panic out of bounds. *)
Definition read_field (ns : list nat) (ts : list dtype) (i : nat) : result (nat * dtype) :=
  match nth_error ns i, nth_error ts i with Some n, Some t => Ok (n, t) | _, _ => Panic end.
(** deserialize_and_project, project.rs:27-48. *)
Definition project_dtype (d : dtype) (p : list field) : result dtype :=
  match d with
  | DStruct ns ts nl =>
      do l <- mapM (fun f => do i <- resolve_field ns f; read_field ns ts i) p;
      Ok (DStruct (map fst l) (map snd l) nl)
  | _ => Err
  end.
Inductive projection := PAll | PFlat (p : list field).
Definition projected (d : dtype) (p : projection) : result dtype := match p with PAll => Ok d | PFlat p => project_dtype d p end.

(** StructDType::find_name, field_info, project, vortex-dtype/src/dtype.rs:172-220: [index > len] is the bound check, the index
    then panics. *)
Definition field_info (ns : list nat) (ts : list dtype) (f : field) : result (nat * nat * dtype) :=
  do i <- resolve_field ns f;
  if length ns <? i then Err else do (n, t) <- read_field ns ts i; Ok (i, n, t).
Definition struct_project (ns : list nat) (ts : list dtype) (p : list field) : result (list nat * list dtype) :=
  do l <- mapM (field_info ns ts) p; Ok (map (fun x => snd (fst x)) l, map snd l).
(** Schema::project and field_type, vortex-schema/src/lib.rs:17-46. *)
Definition schema_project (d : dtype) (p : projection) : result dtype :=
  match p with
  | PAll => Ok d
  | PFlat p => match d with DStruct ns ts nl => do (ns', ts') <- struct_project ns ts p; Ok (DStruct ns' ts' nl) | _ => Err end
  end.
Definition field_type (d : dtype) (f : field) : result dtype :=
  match d with
  | DStruct ns ts _ =>
      match match f with FName n => position ns n | FIndex i => Some i end with
      | Some i => match nth_error ts i with Some t => Ok t | None => Err end
      | None => Err
      end
  | _ => Err
  end.

(** * Readers *)

(** Messages are identified by a path of u16 (layouts/read/mod.rs:45-48), requested with their byte range. *)
Definition as_u16 (i : nat) : nat := Z.to_nat (Z.of_nat i mod 65536).
Definition message : Type := list nat * (nat * nat).
Inductive read_result := ReadMore (m : list message) | Batch (a : array).
(** LayoutMessageCache, cache.rs:16-33. *)
Definition cache := list (list nat * list Z).
Fixpoint cache_get (ch : cache) (p : list nat) : option (list Z) :=
  match ch with [] => None | (q, b) :: r => if natlist_eqb q p then Some b else cache_get r p end.
Definition cache_set (ch : cache) (l : list (list nat * list Z)) : cache := rev l ++ ch.

(** The parts of the environment a scan uses: codecs, known encodings, the file. *)
Record env := Env { e_c : codec; e_fc : fcodec; e_ac : acodec; e_known : nat -> bool; e_file : list Z }.

(** FlatLayout::array_from_bytes, flat.rs:84-91 with ArrayBufferReader, message_reader.rs:247-342; [split_to] panics beyond the end. *)
Definition split_to (b : list Z) (n : nat) : result (list Z * list Z) := if length b <? n then Panic else Ok (firstn n b, skipn n b).
Definition array_from_bytes (e : env) (d : dtype) (buf : list Z) : result array :=
  do (lb, buf) <- split_to buf 4;
  do (m, buf) <- split_to buf (Z.to_nat (le_u32 lb));
  match dec (e_c e) m with
  | None => Panic
  | Some (MBatch a len bufs size) =>
      do (body, _) <- split_to buf size;
      do bs <- split_buffers bufs size body;
      do (n, t) <- into_array (e_known e) (MBatch a len bufs size) bs;
      a_de (e_ac e) d n t
  | Some _ => Err
  end.

(** FlatLayout, flat.rs:53-61. *)
Record flat_st := FS { fl_path : list nat; fl_range : nat * nat; fl_dtype : dtype; fl_done : bool; fl_arr : option array }.
(** FlatLayout::read_next, flat.rs:94-118; [bs] is the batch size of the scan. *)
Definition flat_emit (bs : nat) (st : flat_st) (a : array) : result (option read_result * flat_st) :=
  if bs <? alen a then
    let n := Nat.min bs (alen a) in
    do taken <- slice a 0 n;
    do rem <- slice a n (alen a);
    Ok (Some (Batch taken), FS (fl_path st) (fl_range st) (fl_dtype st) false (Some rem))
  else Ok (Some (Batch a), FS (fl_path st) (fl_range st) (fl_dtype st) true None).
Definition flat_read (e : env) (bs : nat) (ch : cache) (st : flat_st) : result (option read_result * flat_st) :=
  if fl_done st then Ok (None, st)
  else
    match fl_arr st with
    | Some a => flat_emit bs st a
    | None =>
        match cache_get ch (fl_path st) with
        | Some buf => do a <- array_from_bytes e (fl_dtype st) buf; flat_emit bs st a
        | None => Ok (Some (ReadMore [(fl_path st, fl_range st)]), st)
        end
    end.

(** ChunkedLayout with its BufferedReader, chunked.rs:44-51, buffered.rs:11-15. *)
Record chunk_st := CS { ck_layouts : list flat_st; ck_arrays : list array }.
Definition row_count (l : list array) : nat := list_sum (map alen l).
(** BufferedReader::buffer, buffered.rs:34-53. [fuel] bounds the loop. *)
Fixpoint buffer_rows (fuel : nat) (e : env) (bs : nat) (ch : cache) (st : chunk_st) : result (option (list message) * chunk_st) :=
  match fuel with
  | 0 => Panic
  | S n =>
      if bs <=? row_count (ck_arrays st) then Ok (None, st)
      else
        match ck_layouts st with
        | [] => Ok (None, st)
        | l :: r =>
            do (x, l') <- flat_read e bs ch l;
            match x with
            | None => buffer_rows n e bs ch (CS r (ck_arrays st))
            | Some (ReadMore m) => Ok (Some m, CS (l' :: r) (ck_arrays st))
            | Some (Batch a) => buffer_rows n e bs ch (CS (l' :: r) (ck_arrays st ++ [a]))
            end
        end
  end.
(** The loop of BufferedReader::read, buffered.rs:75-93 (after a split the loop ends: the part taken has exactly the rows wanted). *)
Fixpoint take_front (arrays : list array) (n : nat) : result (list array * list array) :=
  if n =? 0 then Ok ([], arrays)
  else
    match arrays with
    | [] => Ok ([], [])
    | a :: r =>
        if n <? alen a then
          do taken <- slice a 0 n;
          do rem <- slice a n (alen a);
          Ok ([taken], rem :: r)
        else do (x, rest) <- take_front r (n - alen a); Ok (a :: x, rest)
    end.
(** BufferedReader::read, buffered.rs:55-104. *)
Definition chunk_read (fuel : nat) (e : env) (bs : nat) (ch : cache) (st : chunk_st) : result (option read_result * chunk_st) :=
  match ck_layouts st, ck_arrays st with
  | [], [] => Ok (None, st)
  | _, _ =>
      do (m, st) <- buffer_rows fuel e bs ch st;
      match m with
      | Some m => Ok (Some (ReadMore m), st)
      | None =>
          let n := match ck_layouts st with [] => Nat.min bs (row_count (ck_arrays st)) | _ => bs end in
          do (res, rest) <- take_front (ck_arrays st) n;
          let st := CS (ck_layouts st) rest in
          match res with
          | [] => Ok (None, st)
          | [a] => Ok (Some (Batch a), st)
          | a :: _ => do x <- try_chunked res (adtype a); Ok (Some (Batch x), st)
          end
      end
  end.

(** ColumnLayout with its BatchReader, column.rs:47-54, batch.rs:11-15. *)
Record col_st := CO { co_names : list nat; co_children : list chunk_st; co_arrays : list (option array) }.
(** The loop of BatchReader::read, batch.rs:28-50: the flag says that a child had no more data and the loop returned. *)
Fixpoint fill_cols (fuel : nat) (e : env) (bs : nat) (ch : cache) (cs : list chunk_st) (l : list (option array))
  : result (bool * list message * list chunk_st * list (option array)) :=
  match cs, l with
  | c :: cs', Some a :: l' => do (b, m, x, y) <- fill_cols fuel e bs ch cs' l'; Ok (b, m, c :: x, Some a :: y)
  | c :: cs', None :: l' =>
      do (r, c') <- chunk_read fuel e bs ch c;
      match r with
      | None => Ok (true, [], c' :: cs', None :: l')
      | Some (ReadMore m0) => do (b, m, x, y) <- fill_cols fuel e bs ch cs' l'; Ok (b, m0 ++ m, c' :: x, None :: y)
      | Some (Batch a) => do (b, m, x, y) <- fill_cols fuel e bs ch cs' l'; Ok (b, m, c' :: x, Some a :: y)
      end
  | _, _ => Ok (false, [], cs, l)
  end.
(** StructArray::from_fields, struct_/mod.rs:89-101. *)
Definition from_fields (ns : list nat) (fls : list array) : result array :=
  match fls with [] => Err | a :: _ => try_struct ns fls (alen a) VNonNull end.
(** BatchReader::read, batch.rs:27-65. *)
Definition col_read (fuel : nat) (e : env) (bs : nat) (ch : cache) (st : col_st) : result (option read_result * col_st) :=
  do (stop, m, cs, l) <- fill_cols fuel e bs ch (co_children st) (co_arrays st);
  if (stop : bool) then Ok (None, CO (co_names st) cs l)
  else
    match m with
    | [] =>
        do fls <- mapM (fun o => match o with Some a => Ok a | None => Err end) l;
        do x <- from_fields (co_names st) fls;
        Ok (Some (Batch x), CO (co_names st) cs (repeat None (length cs)))
    | _ => Ok (Some (ReadMore m), CO (co_names st) cs l)
    end.

(** ChunkedLayout::read_next builds its children on first use, chunked.rs:91-109, FlatLayoutSpec::layout, flat.rs:26-50. (Built here when
    the column layout is built.) Only children with the flat layout are modelled: the writer writes no other. *)
Definition has_meta (meta : option (list Z)) : bool := match meta with Some (b :: _) => negb (b =? 0)%Z | _ => false end.
Definition open_flat (path : list nat) (d : dtype) (l : layout) : result flat_st :=
  match l with Lay 1 (Some (r :: _)) _ _ => Ok (FS path r d false None) | _ => Err end.
Definition open_chunked (path : list nat) (d : dtype) (l : layout) : result chunk_st :=
  match l with
  | Lay 2 _ (Some cs) meta =>
      do fl <- mapM (fun ic => open_flat (path ++ [as_u16 (fst ic)]) d (snd ic))
                 (skipn (if has_meta meta then 1 else 0) (combine (seq 0 (length cs)) cs));
      Ok (CS fl [])
  | _ => Err
  end.
(** ColumnLayout::read_child, column.rs:81-102. *)
Definition open_child (cs : list layout) (i : nat) (d : dtype) : result chunk_st :=
  match nth_error cs i with Some l => open_chunked [as_u16 i] d l | None => Panic end.
(** ColumnLayout::read_next on first use, column.rs:117-140; [d] is the data type in the footer. *)
Definition open_column (d : dtype) (p : projection) (l : layout) : result col_st :=
  do pd <- projected d p;
  match d, pd, l with
  | DStruct ns0 _ _, DStruct ns ts _, Lay 3 _ (Some cs) _ =>
      do children <- match p with
                     | PAll => if length cs =? length ts then mapM (fun it => open_child cs (fst it) (snd it)) (combine (seq 0 (length cs)) ts) else Panic
                     | PFlat p => mapM (fun ft => do i <- resolve_field ns0 (fst ft); open_child cs i (snd ft)) (combine p ts)
                     end;
      Ok (CO ns children (repeat None (length children)))
  | _, _, _ => Err
  end.

(** * The scan: stream.rs *)

(** LayoutBatchStream, stream.rs:22-31, with the two resting states of its state machine. *)
Record scan_st := SS { sc_data : col_st; sc_filter : option col_st; sc_cache : cache; sc_mask : option (list bool); sc_init : bool }.
(** read_ranges, stream.rs:206-227: the reads are independent; [buffered] keeps their order. *)
Definition read_ranges (e : env) (m : list message) : result (list (list nat * list Z)) :=
  mapM (fun x => do b <- read_at (e_file e) (fst (snd x)) (snd (snd x) - fst (snd x)); Ok (fst x, b)) m.
(** poll_next, stream.rs:91-187. [ev] is the row filter: the mask of a batch. [fuel] bounds the loops. Errors are final. *)
Fixpoint poll (fuel bfuel : nat) (e : env) (bs : nat) (ev : array -> result (list bool)) (s : scan_st) : result (option array * scan_st) :=
  match fuel with
  | 0 => Panic
  | S n =>
      if sc_init s then
        do (r, d) <- col_read bfuel e bs (sc_cache s) (sc_data s);
        match r with
        | None => Ok (None, SS d (sc_filter s) (sc_cache s) (sc_mask s) true)
        | Some (ReadMore m) =>
            do l <- read_ranges e m;
            poll n bfuel e bs ev (SS d (sc_filter s) (cache_set (sc_cache s) l) (sc_mask s) true)
        | Some (Batch a) =>
            let goto := match sc_filter s with Some _ => false | None => true end in
            match sc_mask s with
            | Some m =>
                if count id m =? 0 then poll n bfuel e bs ev (SS d (sc_filter s) (sc_cache s) None true)
                else do b <- filter_array a (mask_of m); Ok (Some b, SS d (sc_filter s) (sc_cache s) None goto)
            | None => Ok (Some a, SS d (sc_filter s) (sc_cache s) None goto)
            end
        end
      else
        match sc_filter s with
        | None => Panic
        | Some f =>
            do (r, f) <- col_read bfuel e bs (sc_cache s) f;
            match r with
            | None => Ok (None, SS (sc_data s) (Some f) (sc_cache s) (sc_mask s) false)
            | Some (ReadMore m) =>
                do l <- read_ranges e m;
                poll n bfuel e bs ev (SS (sc_data s) (Some f) (cache_set (sc_cache s) l) (sc_mask s) false)
            | Some (Batch a) => do m <- ev a; poll n bfuel e bs ev (SS (sc_data s) (Some f) (sc_cache s) (Some m) true)
            end
        end
  end.
(** Collecting the stream (read_all, stream.rs:190-203, before it is wrapped in a chunked array). *)
Fixpoint collect (k fuel bfuel : nat) (e : env) (bs : nat) (ev : array -> result (list bool)) (s : scan_st) : result (list array) :=
  match k with
  | 0 => Panic
  | S n =>
      do (x, s) <- poll fuel bfuel e bs ev s;
      match x with None => Ok [] | Some a => do r <- collect n fuel bfuel e bs ev s; Ok (a :: r) end
  end.
(** LayoutReaderBuilder::build, builder.rs:68-127; the filter is given with the list of the columns it refers to. *)
Definition build (e : env) (p : projection) (filter : option (list field)) : result scan_st :=
  do desc <- read_footer (e_fc e) (e_file e);
  do d <- desc_dtype (e_c e) desc;
  do _ <- projected d p;
  do (l, _) <- desc_layout (e_fc e) desc;
  do data <- open_column d p l;
  do f <- match filter with None => Ok None | Some fp => do x <- open_column d (PFlat fp) l; Ok (Some x) end;
  Ok (SS data f [] None (match f with None => true | Some _ => false end)).
Definition scan (k fuel bfuel : nat) (e : env) (bs : nat) (p : projection) (filter : option (list field * (array -> result (list bool)))) : result (list array) :=
  do s <- build e p (match filter with Some (fp, _) => Some fp | None => None end);
  collect k fuel bfuel e bs (match filter with Some (_, ev) => ev | None => fun _ => Err end) s.
(** read_all, stream.rs:190-203. *)
Definition read_all (k fuel bfuel : nat) (e : env) (bs : nat) (p : projection) (filter : option (list field * (array -> result (list bool)))) : result array :=
  do l <- scan k fuel bfuel e bs p filter;
  match l with
  | [a] => Ok a
  | _ => do desc <- read_footer (e_fc e) (e_file e); do d <- desc_dtype (e_c e) desc; do pd <- projected d p; try_chunked l pd
  end.
