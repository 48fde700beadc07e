(** Model of taking rows from a chunked file: vortex-serde/src/chunked_reader/take_rows.rs and vortex-array/src/stream/take_rows.rs.

    The row and byte offsets are lists of naturals (in the code: arrays, read with take and get_as_cast); the row ids are a
    non-nullable primitive array of an integer type [p]. Chunks are read one at a time ([buffered(10)] only overlaps the reads). *)
From Verif Require Import Base Spec SearchModel Arr ArrRead ArrWf ArrSlice ArrOps Ipc Layout.

(** The sortedness statistics of a primitive integer array, primitive/stats.rs:37-46 and 131-235: none for an empty array. *)
Fixpoint incr (strict : bool) (l : list Z) : bool :=
  match l with
  | x :: ((y :: _) as r) => (if strict then x <? y else x <=? y)%Z && incr strict r
  | _ => true
  end.
Definition stat_sorted (strict : bool) (l : list Z) : option bool := match l with [] => None | _ => Some (incr strict l) end.

(** compute::search_sorted, search_sorted.rs:135-159: the value is first cast to the type of the array. *)
Definition search_idx (p : ptype) (idx : list Z) (v : Z) (s : side) : result nat :=
  if in_rangeb p v then do r <- search_sorted_list idx v s; Ok (to_index r) else Err.

(** subtract_scalar_integer, subtract_scalar.rs:48-75: [v - to_subtract] panics on overflow. *)
Definition subtract_idx (p : ptype) (idx : list Z) (v : Z) : result (list Z) :=
  if (v =? 0)%Z then Ok idx else mapM (fun z => if in_rangeb p (z - v) then Ok (z - v)%Z else Panic) idx.

(** Primitive slice, with the bounds checks of compute::slice. *)
Definition slice_idx (idx : list Z) (i j : nat) : result (list Z) :=
  if (j <=? length idx) && (i <=? j) then Ok (lslice idx i j) else Err.

(** TakeRows, stream/take_rows.rs: try_new (25-60), then poll_next (66-99) until the end of the stream. [batches] yields the arrays
    of the underlying stream, [last] how it ends. A negative index cannot be taken: Err. *)
Definition take_ids (b : array) (p : ptype) (ids : list Z) : result array :=
  if forallb (fun z => 0 <=? z)%Z ids then take b p (map Z.to_nat ids) else Err.
Fixpoint stream_take (p : ptype) (idx : list Z) (off : nat) (batches : list (result array)) : result (list array) :=
  match batches with
  | [] => Ok []
  | rb :: rest =>
      do b <- rb;
      do l <- search_idx p idx (Z.of_nat off) Left;
      do r <- search_idx p idx (Z.of_nat (off + alen b)) Left;
      if l =? r then stream_take p idx (off + alen b) rest
      else
        do part <- slice_idx idx l r;
        do ids <- subtract_idx p part (Z.of_nat off);
        do x <- take_ids b p ids;
        do xs <- stream_take p idx (off + alen b) rest;
        Ok (x :: xs)
  end.
Definition take_stream (p : ptype) (idx : list Z) (batches : list (result array)) : result (list array) :=
  match idx with
  | [] => Ok []
  | _ =>
      match stat_sorted false idx with
      | Some true => if is_signed p && existsb (fun z => z <? 0)%Z idx then Err else stream_take p idx 0 batches
      | _ => Err
      end
  end.

(** find_chunks, 155-196: the chunks that hold the rows, in order. The entries' row ranges are not used by the caller. *)
Fixpoint insert_key (k : nat) (l : list nat) : list nat :=
  match l with
  | [] => [k]
  | x :: r => if k <? x then k :: l else if k =? x then l else x :: insert_key k r
  end.
Definition sorted_keys (l : list nat) : list nat := fold_right insert_key [] l.
Definition chunk_of (ro : list nat) (z : Z) : result nat :=
  do r <- search_sorted_list (map Z.of_nat ro) z Right;
  do e <- to_ends_index r (length ro);
  Ok (Z.to_nat (Z.of_nat (e - 1) mod 4294967296)).
Definition last_opt {A} (l : list A) : option A := match rev l with [] => None | x :: _ => Some x end.
Definition find_chunks (ro : list nat) (idx : list Z) : result (list nat) :=
  if forallb (in_rangeb U64) idx then
    if match last_opt idx, last_opt ro with Some z, Some n => (Z.of_nat n <=? z)%Z | _, _ => false end then Err
    else do ks <- mapM (chunk_of ro) idx; Ok (sorted_keys ks)
  else Err.

(** take_from_chunk, 119-150, and the collection of its stream. The reader gets exactly the bytes of the range. *)
Definition read_range (file : list Z) (sb eb : nat) : result (list Z) :=
  if eb <? sb then Panic else if length file <? eb then Err else Ok (firstn (eb - sb) (skipn sb file)).
Definition batch_stream (c : codec) (known : nat -> bool) (ac : acodec) (d : dtype) (fuel : nat) (bytes : list Z) : result (list (result array)) :=
  do r <- try_reader c bytes;
  let (l, e) := array_stream c known fuel r in
  let bs := map (fun x => a_de ac d (fst x) (snd x)) l in
  match e with Ok (Some _) => Ok bs | Err => Ok (bs ++ [Err]) | _ => Panic end.
Definition take_from_chunk (c : codec) (known : nat -> bool) (ac : acodec) (d : dtype) (fuel : nat) (file : list Z) (p : ptype) (idx : list Z)
    (sb eb sr er : nat) : result (list array) :=
  do i <- search_idx p idx (Z.of_nat sr) Left;
  do j <- search_idx p idx (Z.of_nat er) Right;
  do part <- slice_idx idx i j;
  do rel <- subtract_idx p part (Z.of_nat sr);
  do bytes <- read_range file sb eb;
  do bs <- batch_stream c known ac d fuel bytes;
  take_stream p rel bs.

(** take_rows, 22-44 and 51-103: anything but a strictly sorted, non-empty list of row ids is [unimplemented!]. *)
Definition get_off (l : list nat) (k : nat) : result nat := match nth_error l k with Some n => Ok n | None => Err end.
Definition take_rows (c : codec) (known : nat -> bool) (ac : acodec) (d : dtype) (fuel : nat) (file : list Z) (ro bo : list nat) (p : ptype) (idx : list Z)
    : result array :=
  match stat_sorted true idx with
  | Some true =>
      do ks <- find_chunks ro idx;
      do rs <- mapM (fun k =>
                 do sr <- get_off ro k; do sb <- get_off bo k; do er <- get_off ro (k + 1); do eb <- get_off bo (k + 1);
                 take_from_chunk c known ac d fuel file p idx sb eb sr er) ks;
      try_chunked (concat rs) d
  | _ => Panic
  end.
