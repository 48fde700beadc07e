(** Model of into_canonical, logical_validity, take and filter for every encoding of [array].

    Index arrays are modelled as non-nullable primitive arrays given by their type [ip] and their values (natural
    numbers: negative indices are not modelled). A mask is a non-nullable BoolArray. *)
From Verif Require Import Base Spec SearchModel Arr ArrRead ArrSlice ValidityModel IntEnc RunEnc.

(** BoolArray used as a predicate: bit offset, buffer, length. *)
Record mask := Mask { moff : nat; mbuf : list bool; mlen : nat }.
(** boolean_buffer(), bool/mod.rs:44-52. *)
Definition mbits (m : mask) : list bool := lslice (mbuf m) (moff m) (moff m + mlen m).
(** What maybe_null_indices_iter and maybe_null_slices_iter walk over, bool/mod.rs:99-105: the buffer from bit 0, whatever
    the array's bit offset. *)
Definition miter (m : mask) : list bool := lslice (mbuf m) 0 (mlen m).
(** true_count, variants.rs:102-106 and bool/stats.rs. *)
Definition mcount (m : mask) : nat := count id (mbits m).
(** BoolArray::from(BooleanBuffer). *)
Definition mask_of (l : list bool) : mask := Mask 0 l (length l).

(** The operations an encoding offers. *)
Record ops_t := Ops {
  o_lval : result lvalidity;                        (* ArrayValidity::logical_validity *)
  o_canon : result array;                           (* IntoCanonical::into_canonical *)
  o_take : ptype -> list nat -> result array;       (* compute::take *)
  o_filter : mask -> result array                   (* compute::filter *)
}.

(** * Helpers *)

(** Indexing that panics out of range. *)
Definition gather {A} (l : list A) (idx : list nat) : result (list A) :=
  mapM (fun i => match nth_error l i with Some x => Ok x | None => Panic end) idx.

(** Canonical::into_primitive / into_bool / into_varbinview / into_extension, canonical.rs: errors on another kind. *)
Definition into_prim (r : result array) : result (ptype * list Z * validity) :=
  do c <- r; match c with APrim p l v => Ok (p, l, v) | _ => Err end.
Definition into_bool (r : result array) : result (list bool * validity) :=
  do c <- r; match c with ABool off buf len v => Ok (lslice buf off (off + len), v) | _ => Err end.
Definition into_view (r : result array) : result (list view * list (list Z)) :=
  do c <- r; match c with AView _ vs bufs _ => Ok (vs, bufs) | _ => Err end.
Definition into_ext (r : result array) : result array :=
  do c <- r; match c with AExt _ st => Ok st | _ => Err end.

(** [for (i, x) in pos.zip_eq(xs) { l[i] = x }]. *)
Fixpoint set_many {A} (l : list A) (pos : list nat) (xs : list A) : result (list A) :=
  match pos, xs with
  | [], [] => Ok l
  | i :: pos', x :: xs' => if i <? length l then set_many (list_set l i x) pos' xs' else Panic
  | _, _ => Panic
  end.

(** arrow/array.rs:189-204: the validity of an array coming from Arrow. *)
Definition arrow_nulls (nb : option (list bool)) (nullable : bool) : result validity :=
  if nullable then
    Ok (match nb with
        | None => VAllValid
        | Some b => if count negb b =? length b then VAllInvalid else vfrom b
        end)
  else match nb with None => Ok VNonNull | Some _ => Panic end.
(** Arrow kernels drop a null buffer that has no nulls. *)
Definition drop_nulls (b : list bool) : option (list bool) := if count negb b =? 0 then None else Some b.

(** * Canonical arrays: take and filter *)

(** null/compute.rs:40-55. *)
Definition null_take (n : nat) (idx : list nat) : result array :=
  if forallb (fun i => i <? n) idx then Ok (ANull (length idx)) else Err.
(** bool/compute/take.rs:10-25. *)
Definition bool_take (off : nat) (buf : list bool) (len : nat) (v : validity) (idx : list nat) : result array :=
  do v' <- vtake v idx;
  do bs <- gather (lslice buf off (off + len)) idx;
  try_bool 0 bs (length bs) v'.
(** primitive/compute/take.rs:9-33. *)
Definition prim_take (p : ptype) (l : list Z) (v : validity) (idx : list nat) : result array :=
  do xs <- gather l idx;
  do v' <- vtake v idx;
  expect (try_prim p xs v').
(** varbinview/compute.rs:68-77: Arrow's take of the views; nullability is that of the taken rows. *)
Definition view_take (u : bool) (vs : list view) (bufs : list (list Z)) (v : validity) (idx : list nat) : result array :=
  do vs' <- gather vs idx;
  do nb <- match to_null_buffer (to_logical v (length vs)) with
           | None => Ok None
           | Some b => do b' <- gather b idx; Ok (drop_nulls b')
           end;
  do v' <- arrow_nulls nb (match nb with Some _ => true | None => false end);
  Ok (AView u vs' bufs v').

(** The default filter, compute/filter.rs:42-52: into_canonical, into_arrow, Arrow's filter, from_arrow. Structs, constants,
    etc. have their own FilterFn; extension arrays are not modelled (Err) except that the non-temporal ones are an error in
    the code as well (canonical.rs: no Arrow form). *)
Definition filter_validity (v : validity) (n : nat) (nullable : bool) (m : list bool) : result validity :=
  arrow_nulls (match to_null_buffer (to_logical v n) with None => None | Some b => drop_nulls (bfilter b m) end) nullable.
Definition canon_filter (c : array) (nullable : bool) (m : list bool) : result array :=
  match c with
  | ANull n => Ok (ANull (count id m))
  | ABool off buf len v =>
      do v' <- filter_validity v len nullable m;
      let bs := bfilter (lslice buf off (off + len)) m in Ok (ABool 0 bs (length bs) v')
  | APrim p l v => do v' <- filter_validity v (length l) nullable m; Ok (APrim p (bfilter l m) v')
  | AView u vs bufs v => do v' <- filter_validity v (length vs) nullable m; Ok (AView u (bfilter vs m) bufs v')
  | _ => Err
  end.
Definition default_filter (a : array) (c : result array) (m : mask) : result array :=
  do c <- c; canon_filter c (nullable (adtype a)) (mbits m).

(** * VarBin *)

(** VarBinBuilder, varbin/builder.rs:12-96. *)
Record vbb := VBB { b_offs : list Z; b_data : list Z; b_valid : list bool }.
Definition vbb_new : vbb := VBB [0%Z] [] [].
Definition push_value (p : ptype) (st : vbb) (s : list Z) : result vbb :=
  let n := Z.of_nat (length (b_data st) + length s) in
  if in_rangeb p n then Ok (VBB (b_offs st ++ [n]) (b_data st ++ s) (b_valid st ++ [true])) else Panic.
Definition push_null (st : vbb) : vbb :=
  VBB (b_offs st ++ [last (b_offs st) 0%Z]) (b_data st) (b_valid st ++ [false]).
Definition push (p : ptype) (st : vbb) (x : option (list Z)) : result vbb :=
  match x with Some s => push_value p st s | None => Ok (push_null st) end.
(** [as_()] wraps, [+] panics on overflow. *)
Definition push_values (p : ptype) (st : vbb) (s : list Z) (ends : list Z) : result vbb :=
  do es <- mapM (fun o => let z := (o + wrap p (Z.of_nat (length (b_data st))))%Z in
                          if in_rangeb p z then Ok z else Panic) ends;
  Ok (VBB (b_offs st ++ es) (b_data st ++ s) (b_valid st ++ repeat true (length ends))).
Definition vbb_finish (u nullable : bool) (p : ptype) (st : vbb) : result array :=
  do v <- (if nullable then Ok (if forallb id (b_valid st) then VAllValid else vfrom (b_valid st))
           else if forallb id (b_valid st) then Ok VNonNull else Panic);
  expect (try_varbin u (APrim p (b_offs st) VNonNull) (b_data st) v).
Fixpoint foldM {A S} (g : S -> A -> result S) (st : S) (l : list A) : result S :=
  match l with [] => Ok st | x :: r => do st' <- g st x; foldM g st' r end.

(** [&data[start..stop]] for two consecutive offsets; both conversions to usize must succeed, the slice must be in range. *)
Definition vb_bytes (ol : list Z) (data : list Z) (i : nat) : result (list Z) :=
  match nth_error ol i, nth_error ol (i + 1) with
  | Some s, Some e =>
      if ((s <? 0) || (e <? 0))%Z then Err
      else if ((e <? s) || (Z.of_nat (length data) <? e))%Z then Panic
      else Ok (lslice data (Z.to_nat s) (Z.to_nat e))
  | _, _ => Panic
  end.
(** varbin/compute/take.rs:11-83. *)
Definition varbin_take (u : bool) (offs : result array) (bytes : list Z) (v : validity) (idx : list nat) : result array :=
  do (p, ol, _) <- into_prim offs;
  let n := length ol - 1 in
  do st <- match to_null_buffer (to_logical v n) with
           | None => foldM (fun st i => do s <- vb_bytes ol bytes i; push_value p st s) vbb_new idx
           | Some b =>
               foldM (fun st i => match nth_error b i with
                                  | None => Panic
                                  | Some true => do s <- expect (vb_bytes ol bytes i); push_value p st s
                                  | Some false => Ok (push_null st)
                                  end) vbb_new idx
           end;
  vbb_finish u (vnullable v) p st.
(** update_non_nullable_slice, varbin/compute/filter.rs:109-133. *)
Definition update_slice (p : ptype) (ol data : list Z) (st : vbb) (s e : nat) : result vbb :=
  match nth_error ol s, nth_error ol e with
  | Some os, Some oe =>
      if ((os <? 0) || (oe <? os) || (Z.of_nat (length data) <? oe))%Z then Panic
      else push_values p st (lslice data (Z.to_nat os) (Z.to_nat oe)) (map (fun o => o - os)%Z (lslice ol (s + 1) (e + 1)))
  | _, _ => Panic
  end.
(** filter_select_var_bin_by_slice, 36-107. *)
Definition vb_slice_step (p : ptype) (ol data : list Z) (nb : option (list bool)) (st : vbb) (se : nat * nat) : result vbb :=
  match nb with
  | None => update_slice p ol data st (fst se) (snd se)
  | Some b =>
      let sl := lslice b (fst se) (snd se) in
      if count negb sl =? 0 then update_slice p ol data st (fst se) (snd se)
      else foldM (fun st iv => if snd iv : bool then do s <- vb_bytes ol data (fst iv + fst se); push_value p st s
                               else Ok (push_null st))
             st (combine (seq 0 (length sl)) sl)
  end.
(** varbin/compute/filter.rs:13-178. *)
Definition varbin_filter (u : bool) (offs : result array) (bytes : list Z) (v : validity) (m : mask) : result array :=
  do (p, ol, _) <- into_prim offs;
  do st <- (if mlen m <? mcount m * 2 then
              foldM (vb_slice_step p ol bytes (to_null_buffer (to_logical v (length ol - 1)))) vbb_new (set_slices (miter m))
            else
              foldM (fun st i => do ok <- vvalid_r v i;
                                 if ok : bool then do s <- vb_bytes ol bytes i; push_value p st s else Ok (push_null st))
                vbb_new (set_indices (miter m)));
  vbb_finish u (vnullable v) p st.

(** varbin/flatten.rs:10-18 with varbin_to_arrow, varbin/arrow.rs:15-85: offsets keep i32/i64, u64 is cast to i64, every
    other type to i32 (cast errors when a value does not fit); the result is always Utf8View, Arrow turns invalid UTF-8 of a
    Binary array into null; the views reference the one data buffer. *)
Definition varbin_canon (u : bool) (offs : result array) (bytes : list Z) (v : validity) : result array :=
  do (p, ol, _) <- into_prim offs;
  let p' := match p with I32 => I32 | I64 | U64 => I64 | _ => I32 end in
  if negb (forallb (in_rangeb p') ol) then Err
  else
    let n := length ol - 1 in
    let str i := lslice bytes (Z.to_nat (nth i ol 0%Z)) (Z.to_nat (nth (i + 1) ol 0%Z)) in
    let views := tab n (fun i => make_view (str i) 0 (Z.to_nat (nth i ol 0%Z))) in
    let nb := to_null_buffer (to_logical v n) in
    let nb := if u then nb
              else drop_nulls (tab n (fun i => match nb with Some b => nth i b false | None => true end && utf8_valid (str i))) in
    do v' <- arrow_nulls nb (vnullable v);
    Ok (AView true views [bytes] v').

(** * Constant *)

(** constant/canonical.rs:14-116. Null, struct and extension constants are errors; [make_view] inlines up to 12 bytes, the
    buffer is pushed from 12 bytes on. *)
Definition const_canon (d : dtype) (x : value) (n : nat) : result array :=
  let v := if nullable d then (if is_null x then VAllInvalid else VAllValid) else VNonNull in
  let bytes_canon u :=
    match x with
    | VNull => if nullable d then try_view u (repeat (VInl []) n) [] VAllInvalid else Err
    | VBytes s => try_view u (repeat (make_view s 0 0) n) (if 12 <=? length s then [s] else [])
                    (if nullable d then VAllValid else VNonNull)
    | _ => Err
    end in
  match d with
  | DBool _ => try_bool 0 (repeat (match x with VBool b => b | _ => false end) n) n v
  | DUtf8 _ => bytes_canon true
  | DBinary _ => bytes_canon false
  | DPrim p _ => try_prim p (repeat (match x with VInt z => z | _ => 0%Z end) n) v
  | _ => Err
  end.

(** * Sparse *)

(** SparseArray::resolved_indices, sparse/mod.rs:131-142. *)
Definition resolved_indices (idx : result array) (off : nat) : result (list nat) :=
  do (_, l, _) <- expect (into_prim idx);
  mapM (fun z => if (z <? Z.of_nat off)%Z then Panic else Ok (Z.to_nat (z - Z.of_nat off))) l.

(** sparse/flatten.rs:13-97. *)
Definition sparse_canon (d : dtype) (idx vals : result array) (off len : nat) (fill : value) : result array :=
  do pos <- resolved_indices idx off;
  match d with
  | DBool _ =>
      do (bs, _) <- into_bool vals;
      do f <- match fill with VNull => Ok false | VBool b => Ok b | _ => Err end;
      if length bs <? length pos then Panic
      else
        do flat <- set_many (repeat f len) pos (firstn (length pos) bs);
        do valid <- set_many (repeat false len) pos (repeat true (length pos));
        Ok (ABool 0 flat len (vfrom valid))
  | _ =>
      do (p, l, _) <- into_prim vals;
      do f <- match fill with VNull => Ok 0%Z | VInt z => Ok z | _ => Err end;
      do res <- set_many (repeat f len) pos l;
      do valid <- set_many (repeat false len) pos (repeat true (length pos));
      Ok (APrim p res (if is_null fill then vfrom valid else VNonNull))
  end.
(** sparse/mod.rs:193-218: a sparse boolean array over the same indices, given here by its bits. *)
Definition sparse_lval (idx : array) (vlval : result lvalidity) (off len : nat) (fill : value) : result lvalidity :=
  do bits <- (if is_null fill then Ok (repeat true (alen idx)) else rmap lbuf vlval);
  let il := ints (logical idx) in
  Ok (LBits (tab len (fun i => match pos_of (Z.of_nat (off + i)) il with Some k => nth k bits false | None => false end))).

Fixpoint filter_map {A B} (g : A -> option B) (l : list A) : list B :=
  match l with [] => [] | x :: r => match g x with Some y => y :: filter_map g r | None => filter_map g r end end.

(** The HashMap of take_map, sparse/compute/take.rs:39-44: a later entry wins. *)
Fixpoint last_pos (i : nat) (l : list nat) (x : nat) : option nat :=
  match l with
  | [] => None
  | y :: r => match last_pos (S i) r x with Some k => Some k | None => if y =? x then Some i else None end
  end.
(** sparse/compute/take.rs:13-88. *)
Definition sparse_take (idx : array) (idxc : result array) (take_vals : ptype -> list nat -> result array)
  (off : nat) (fill : value) (q : list nat) : result array :=
  do mn <- sparse_min_index idx (reads idx) off;
  do mx <- sparse_max_index idx (reads idx) off;
  let mn := match mn with Some k => k | None => 0 end in
  let mx := match mx with Some k => k | None => 0 end in
  let cand := filter (fun pi => (mn <=? snd pi) && (snd pi <=? mx)) (combine (seq 0 (length q)) q) in
  do pairs <- (if 128 <? length q then
                 do pos <- resolved_indices idxc off;
                 Ok (filter_map (fun pi => match last_pos 0 pos (snd pi) with Some k => Some (fst pi, k) | None => None end) cand)
               else
                 do rs <- mapM (fun pi => do r <- sparse_search_index idx (reads idx) off (snd pi); Ok (fst pi, to_found r)) cand;
                 Ok (filter_map (fun pr => match snd pr with Some k => Some (fst pr, k) | None => None end) rs));
  do vals' <- take_vals U64 (map snd pairs);
  try_sparse (APrim U64 (map (fun pr => Z.of_nat (fst pr)) pairs) VNonNull) vals' (length q) 0 fill.

(** The loop of sparse/compute/mod.rs:92-100: (last_inserted_index, coordinates so far, value indices so far). *)
Fixpoint sparse_filter_loop (bs : list bool) (last : nat) (coord : option nat) (vi : nat) (pos : list nat)
  : result (list nat * list nat) :=
  match pos with
  | [] => Ok ([], [])
  | c :: r =>
      match nth_error bs c with
      | None => Panic
      | Some true =>
          if c <? last then Panic
          else
            let co := count id (lslice bs last c) + match coord with Some k => k | None => 0 end in
            do (cs, vis) <- sparse_filter_loop bs c (Some co) (S vi) r; Ok (co :: cs, vi :: vis)
      | Some false => sparse_filter_loop bs last coord (S vi) r
      end
  end.
(** sparse/compute/mod.rs:76-111. *)
Definition sparse_filter (idxc : result array) (take_vals : ptype -> list nat -> result array) (off : nat) (fill : value)
  (m : mask) : result array :=
  do pos <- resolved_indices idxc off;
  do (cs, vis) <- sparse_filter_loop (mbits m) 0 None 0 pos;
  do vals' <- take_vals U64 vis;
  try_sparse (APrim U64 (map Z.of_nat cs) VNonNull) vals' (count id (mbits m)) 0 fill.

(** * Struct fields *)

(** StructArrayTrait::field: struct_/mod.rs (the child), chunked/variants.rs:65-83, constant/variants.rs:193-199 (no field
    of a null constant). Other encodings of a struct dtype have no as_struct_array and panic. *)
Fixpoint field (a : array) (k : nat) : result (option array) :=
  match a with
  | AStruct _ fs _ _ => Ok (nth_error fs k)
  | AChunked d cs =>
      do xs <- mapM (fun g => g k) (map field cs);
      if existsb (fun x => match x with None => true | Some _ => false end) xs then Ok None
      else match d with
           | DStruct _ ts _ =>
               match nth_error ts k with
               | None => Ok None
               | Some t => do c <- expect (try_chunked (filter_map id xs) t); Ok (Some c)
               end
           | _ => Ok None
           end
  | AConst d x n =>
      match d, x with
      | DStruct _ ts _, VStruct vs =>
          match nth_error vs k, nth_error ts k with
          | Some v, Some t => Ok (Some (AConst t v n))
          | Some _, None => Panic
          | None, _ => Ok None
          end
      | _, _ => Ok None
      end
  | _ => Panic
  end.

(** * Chunked *)

(** chunked/canonical.rs:214-231. *)
Definition shift_view (n : nat) (w : view) : view :=
  match w with VInl s => VInl s | VRef size pre b off => VRef size pre (n + b) off end.
Fixpoint pack_views (views : list view) (bufs : list (list Z)) (cs : list (list view * list (list Z)))
  : list view * list (list Z) :=
  match cs with
  | [] => (views, bufs)
  | (vs, bs) :: r => pack_views (views ++ map (shift_view (length bufs)) vs) (bufs ++ bs) r
  end.

(** try_canonicalize_chunks, chunked/canonical.rs:27-236. *)
Definition chunked_canon (d : dtype) (cs : list (array * result array)) (validity : validity) : result array :=
  let total := list_sum (map (fun c => alen (fst c)) cs) in
  if negb (forallb (fun c => dtype_eqb (adtype (fst c)) d) cs) then Err
  else match d with
  | DStruct ns ts _ =>
      do fls <- mapM (fun kt : nat * dtype =>
                  do chunks <- mapM (fun c => do x <- field (fst c) (fst kt); match x with Some y => Ok y | None => Err end) cs;
                  try_chunked chunks (snd kt)) (combine (seq 0 (length ts)) ts);
      try_struct ns fls total validity
  | DExt id _ =>
      do sts <- mapM (fun c => into_ext (snd c)) cs;
      match sts with
      | [] => Err
      | s0 :: _ => do st <- try_chunked sts (adtype s0); Ok (AExt id st)
      end
  | DBool _ =>
      do bs <- mapM (fun c => into_bool (snd c)) cs;
      let buf := concat (map fst bs) in
      try_bool 0 buf (length buf) validity
  | DPrim p _ =>
      do ls <- mapM (fun c => do (q, l, _) <- into_prim (snd c); if ptype_eqb q p then Ok l else Panic) cs;
      expect (try_prim p (concat ls) validity)
  | DUtf8 _ =>
      do vs <- mapM (fun c => into_view (snd c)) cs;
      let '(views, bufs) := pack_views [] [] vs in try_view true views bufs validity
  | DBinary _ =>
      do vs <- mapM (fun c => into_view (snd c)) cs;
      let '(views, bufs) := pack_views [] [] vs in try_view false views bufs validity
  | DNull => Ok (ANull total)
  end.

(** chunked/compute/take.rs:58-107: the slice of the (strictly sorted) indices for each chunk. [fuel] bounds the number of
    iterations; each one advances. *)
Fixpoint strict_groups (fuel : nat) (lens : list nat) (ip : ptype) (idx : list nat) (pos : nat)
  (acc : list (option (ptype * list nat))) : result (list (option (ptype * list nat))) :=
  match fuel with
  | 0 => Ok acc
  | S fuel' =>
      match nth_error idx pos with
      | None => Ok acc
      | Some i =>
          do ko <- find_chunk_idx lens i;
          let offs := offsets_from 0 lens in
          match nth_error offs (fst ko), nth_error offs (fst ko + 1) with
          | Some cb, Some ce =>
              if negb (in_rangeb ip (Z.of_nat ce)) then Err             (* Scalar::cast of chunk_end *)
              else
                do r <- search_sorted_list (map Z.of_nat idx) (Z.of_nat ce) Left;
                let cend := to_index r in
                if slice_bad (length idx) pos cend then Err
                else
                  let q := if (Z.of_nat cb <? pmax ip)%Z then ip else U64 in
                  do sub <- mapM (fun x => if x <? cb then Panic else Ok (x - cb)) (lslice idx pos cend);
                  strict_groups fuel' lens ip idx cend (list_set acc (fst ko) (Some (q, sub)))
          | _, _ => Err
          end
      end
  end.
(** chunked/compute/take.rs:29-52: consecutive indices in the same chunk, as (chunk, indices) in order. *)
Fixpoint unsorted_groups (lens : list nat) (prev : nat) (acc : list nat) (idx : list nat) : result (list (nat * list nat)) :=
  match idx with
  | [] => Ok (match acc with [] => [] | _ => [(prev, acc)] end)
  | i :: r =>
      do ko <- find_chunk_idx lens i;
      if fst ko =? prev then unsorted_groups lens (fst ko) (acc ++ [snd ko]) r
      else do rest <- unsorted_groups lens (fst ko) [snd ko] r; Ok ((prev, acc) :: rest)
  end.
Definition take_chunk (cs : list (array * ops_t)) (k : nat) (ip : ptype) (idx : list nat) : result array :=
  match nth_error cs k with Some c => o_take (snd c) ip idx | None => Err end.
(** chunked/compute/take.rs:12-56. The strict-sortedness statistic of a primitive array is absent when it is empty. *)
Definition chunked_take (a : array) (d : dtype) (cs : list (array * ops_t)) (ip : ptype) (idx : list nat) : result array :=
  let lens := map (fun c => alen (fst c)) cs in
  match idx with
  | [] => Panic                                                         (* [0] on an empty slice *)
  | i0 :: _ =>
      if ssortedb (map Z.of_nat idx) then
        if list_sum lens =? length idx then Ok a
        else
          do gs <- strict_groups (length idx) lens ip idx 0 (repeat None (length cs));
          do xs <- mapM (fun kg => match snd kg : option (ptype * list nat) with
                                   | None => Ok None
                                   | Some g => do x <- take_chunk cs (fst kg) (fst g) (snd g); Ok (Some x)
                                   end) (combine (seq 0 (length gs)) gs);
          try_chunked (filter_map id xs) d
      else
        do k0 <- find_chunk_idx lens i0;
        do gs <- unsorted_groups lens (fst k0) [] idx;
        do xs <- mapM (fun g => take_chunk cs (fst g) U64 (snd g)) gs;
        try_chunked xs d
  end.

(** find_chunk_idx of chunked/compute/filter.rs:203-213. *)
Definition filter_chunk_idx (lens : list nat) (i : nat) : result (nat * nat) :=
  let offs := offsets_from 0 lens in
  do r <- search_sorted_list (map Z.of_nat offs) (Z.of_nat i) Right;
  do e <- to_ends_index r (length offs);
  let k := e - 1 in
  match nth_error offs k with
  | None => Panic
  | Some s => if i <? s then Panic else Ok (k, i - s)
  end.
Inductive chunk_filter := CFAll | CFNone | CFSlices (l : list (nat * nat)).
Definition cf_add (f : chunk_filter) (se : nat * nat) : chunk_filter :=
  match f with CFSlices l => CFSlices (l ++ [se]) | _ => CFSlices [se] end.
(** chunked/compute/filter.rs:89-133. *)
Definition cf_upd (fs : list chunk_filter) (k : nat) (se : nat * nat) : result (list chunk_filter) :=
  match nth_error fs k with None => Panic | Some f => Ok (list_set fs k (cf_add f se)) end.
Definition filter_slice_step (lens : list nat) (fs : list chunk_filter) (se : nat * nat) : result (list chunk_filter) :=
  do s <- filter_chunk_idx lens (fst se);
  do e <- filter_chunk_idx lens (snd se - 1);
  let eidx := snd e + 1 in
  if fst s =? fst e then cf_upd fs (fst s) (snd s, eidx)
  else
    let offs := offsets_from 0 lens in
    match nth_error offs (fst s), nth_error offs (fst s + 1) with
    | Some b, Some b' =>
        do fs <- cf_upd fs (fst s) (snd s, b' - b);
        do fs <- cf_upd fs (fst e) (0, eidx);
        if (fst e <? fst s + 1) || (length fs <? fst e) then Panic
        else Ok (firstn (fst s + 1) fs ++ repeat CFAll (fst e - (fst s + 1)) ++ skipn (fst e) fs)
    | _, _ => Panic
    end.
(** slices_to_predicate, 55-73; both subtractions panic on underflow. *)
Fixpoint slices_to_bits (pos : nat) (l : list (nat * nat)) (len : nat) : result (list bool) :=
  match l with
  | [] => if len <? pos then Panic else Ok (repeat false (len - pos))
  | (s, e) :: r =>
      if (s <? pos) || (e <? s) then Panic
      else do rest <- slices_to_bits e r len; Ok (repeat false (s - pos) ++ repeat true (e - s) ++ rest)
  end.
Definition apply_chunk_filter (c : array * ops_t) (f : chunk_filter) : result (option array) :=
  match f with
  | CFAll => Ok (Some (fst c))
  | CFNone => Ok None
  | CFSlices l =>
      do bits <- slices_to_bits 0 l (alen (fst c));
      do x <- o_filter (snd c) (mask_of bits); Ok (Some x)
  end.
(** filter_indices, 152-201: groups of indices by chunk (empty groups are skipped). *)
Fixpoint index_groups (lens : list nat) (cur : nat) (acc : list nat) (idx : list nat) : result (list (nat * list nat)) :=
  match idx with
  | [] => Ok (match acc with [] => [] | _ => [(cur, acc)] end)
  | i :: r =>
      do ko <- filter_chunk_idx lens i;
      if fst ko =? cur then index_groups lens cur (acc ++ [snd ko]) r
      else do rest <- index_groups lens (fst ko) [snd ko] r;
           Ok (match acc with [] => rest | _ => (cur, acc) :: rest end)
  end.
(** chunked/compute/filter.rs:11-40. The float selectivity test [selected / len > 0.8] is taken over the rationals. *)
Definition chunked_filter (a : array) (d : dtype) (cs : list (array * ops_t)) (m : mask) : result array :=
  let lens := map (fun c => alen (fst c)) cs in
  let total := list_sum lens in
  let selected := mcount m in
  if selected =? total then Ok a
  else if selected =? 0 then try_chunked [] d
  else if 4 * total <? 5 * selected then
    do fs <- foldM (filter_slice_step lens) (repeat CFNone (length cs)) (set_slices (miter m));
    do xs <- mapM (fun cf => apply_chunk_filter (fst cf) (snd cf)) (combine cs fs);
    try_chunked (filter_map id xs) d
  else
    do gs <- index_groups lens 0 [] (set_indices (miter m));
    do xs <- mapM (fun g => expect (match nth_error cs (fst g) with Some _ => Ok tt | None => Err end)) gs;
    do xs <- mapM (fun g => take_chunk cs (fst g) U64 (snd g)) gs;
    try_chunked xs d.

(** * Run-end *)

(** RunEndArray::find_physical_indices, runend/src/array.rs:104-116. *)
Definition runend_find_many (ends : array) (off : nat) (idx : list nat) : result (list nat) :=
  do rs <- mapM (fun i => search_sorted_u64_many ends (Z.of_nat (i + off)) Right) idx;
  mapM (fun r => to_ends_index r (alen ends)) rs.
(** runend/src/compute.rs:39-95. *)
Definition runend_take (ends vals : array) (take_vals : ptype -> list nat -> result array)
  (filter_ : array -> mask -> result array) (v : validity) (off len : nat) (idx : list nat) : result array :=
  do _ <- mapM (fun i => if len <=? i then Err else Ok tt) idx;
  do phys <- runend_find_many ends off idx;
  do dense <- take_vals U64 phys;
  match v with
  | VNonNull | VAllValid => Ok dense
  | VAllInvalid => Ok (AConst (adtype vals) VNull (length idx))
  | VBits _ =>
      do v' <- vtake v idx;
      match v' with
      | VBits bs =>
          do filtered <- filter_ dense (mask_of bs);
          try_sparse (APrim U64 (map Z.of_nat (set_indices bs)) VNonNull) filtered (length bs) 0 VNull
      | _ => Err
      end
  end.

(** * Bit-packed *)

(** Number of groups of consecutive elements with the same key (itertools chunk_by). *)
Fixpoint group_by {A} (key : A -> nat) (l : list A) : list (nat * list A) :=
  match l with
  | [] => []
  | x :: r =>
      match group_by key r with
      | (k, g) :: rest => if k =? key x then (k, x :: g) :: rest else (key x, [x]) :: (k, g) :: rest
      | [] => [(key x, [x])]
      end
  end.
(** inner_patch, bitpacking/compute/take.rs:133-158: [take_sparse] takes from the patches, [canon] decodes the taken values;
    [output.len() - indices.len()] is added to every position. *)
Definition inner_patch (take_sparse : ptype -> list nat -> result array) (canon : array -> result array)
  (ip : ptype) (idx : list nat) (out : list Z) : result (list Z) :=
  do t <- take_sparse ip idx;
  match t with
  | ASparse pidx pvals poff _ _ =>
      do (_, vs, _) <- into_prim (canon pvals);
      do pos <- resolved_indices (canon pidx) poff;
      if length out <? length idx then Panic
      else set_many out (map (fun k => (length out - length idx) + k) pos) vs
  | _ => Err
  end.
(** patch_for_take_primitive, 126-213. *)
Definition bp_patch_take (q : array) (qidx : array) (qoff : nat)
  (take_ : array -> ptype -> list nat -> result array) (canon : array -> result array)
  (ip : ptype) (off : nat) (idx : list nat) (batch_count : nat) (out : list Z) : result (list Z) :=
  if length idx <? batch_count * 64 then inner_patch (take_ q) canon ip idx out
  else
    do mn <- sparse_min_index qidx (reads qidx) qoff;
    do mx <- sparse_max_index qidx (reads qidx) qoff;
    let mn := match mn with Some k => k | None => 0 end in
    let mx := match mx with Some k => k | None => 0 end in
    let cand := filter (fun i => (mn <=? i) && (i <=? mx)) (map (fun i => i + off) idx) in
    foldM (fun out (g : nat * list nat) =>
             let start := if fst g =? 0 then 0 else fst g * 1024 - off in
             let stop := Nat.min ((fst g + 1) * 1024 - off) (alen q) in
             do qs <- slice q start stop;
             if alen qs =? 0 then Ok out
             else match qs with
                  | ASparse si _ soff _ _ =>
                      do mn <- sparse_min_index si (reads si) soff;
                      do mx <- sparse_max_index si (reads si) soff;
                      let mn := match mn with Some k => k | None => 0 end in
                      let mx := match mx with Some k => k | None => 0 end in
                      let os := filter (fun i => (mn <=? i) && (i <=? mx)) (map (fun i => i mod 1024) (snd g)) in
                      match os with [] => Ok out | _ => inner_patch (take_ qs) canon U16 os out end
                  | _ => Err
                  end)
      out (group_by (fun i => i / 1024) cand).
(** bitpacking/compute/take.rs:21-126. Unpacking a whole block and picking, or unpacking single fields, both read field
    [off + i]; an index beyond the packed buffer panics. *)
Definition bp_take (p : ptype) (packed : list Z) (off len : nat) (v : validity) (patches : option array)
  (canon_self : result array) (take_ : array -> ptype -> list nat -> result array) (canon : array -> result array)
  (ip : ptype) (idx : list nat) : result array :=
  if len <? length idx * 8 then
    do (q, l, w) <- into_prim canon_self; prim_take q l w idx
  else
    do v' <- vtake v idx;
    do out <- match idx with
              | [] => Ok []
              | _ =>
                  do out <- gather packed (map (fun i => i + off) idx);
                  match patches with
                  | None => Ok out
                  | Some q =>
                      match q with
                      | ASparse qidx _ qoff _ _ =>
                          bp_patch_take q qidx qoff take_ canon ip off idx
                            (length (group_by (fun i => i / 1024) (map (fun i => i + off) idx))) out
                      | _ => Err
                      end
                  end
              end;
    expect (try_prim p out v').

(** * ByteBool *)

(** bytebool/src/compute.rs:50-93 with bytebool/src/array.rs:102-122. *)
Definition byte_of (b : bool) : Z := if b then 1%Z else 0%Z.
Definition bytebool_take (l : list Z) (v : validity) (idx : list nat) : result array :=
  match v with
  | VNonNull | VAllValid =>
      do bs <- gather l idx; Ok (AByteBool bs VAllValid)
  | VAllInvalid => Ok (AByteBool (repeat 0%Z (length idx)) (vfrom (repeat false (length idx))))
  | VBits _ =>
      do os <- mapM (fun i => do ok <- vvalid_r v i;
                              if ok : bool then match nth_error l i with Some z => Ok (Some z) | None => Panic end
                              else Ok None) idx;
      Ok (AByteBool (map (fun o => match o with Some z => z | None => 0%Z end) os)
            (vfrom (map (fun o => match o with Some _ => true | None => false end) os)))
  end.

(** * Dispatch *)

Definition own_lval (v : validity) (n : nat) : result lvalidity := Ok (to_logical v n).
Definition fail_ops : ops_t := Ops Err Err (fun _ _ => Err) (fun _ => Err).

(** filter's entry checks, compute/filter.rs:26-41. *)
Definition with_mask (a : array) (k : mask -> result array) (m : mask) : result array :=
  if mlen m =? alen a then k m else Err.

(** One level of dispatch: [rec] are the operations of other arrays. *)
Definition ops_step (rec : array -> ops_t) (a : array) : ops_t :=
  let dflt c := with_mask a (default_filter a c) in
  match a with
  | ANull n => Ops (Ok (LAllInvalid n)) (Ok a) (fun _ => null_take n) (dflt (Ok a))        (* null/mod.rs, null/compute.rs *)
  | ABool off buf len v => Ops (own_lval v len) (Ok a) (fun _ => bool_take off buf len v) (dflt (Ok a))
  | APrim p l v => Ops (own_lval v (length l)) (Ok a) (fun _ => prim_take p l v) (dflt (Ok a))
  | AView u vs bufs v =>
      (* varbinview/mod.rs:507-518: through Arrow and back *)
      let c := do v' <- arrow_nulls (to_null_buffer (to_logical v (length vs))) (vnullable v); Ok (AView u vs bufs v') in
      Ops (own_lval v (length vs)) c (fun _ => view_take u vs bufs v) (dflt c)
  | AVarBin u offs bytes v =>
      let oc := o_canon (rec offs) in
      Ops (own_lval v (alen a)) (varbin_canon u oc bytes v) (fun _ => varbin_take u oc bytes v)
        (with_mask a (varbin_filter u oc bytes v))
  | AStruct ns fls n v =>
      Ops (own_lval v n) (Ok a)
        (fun ip idx =>                                                                   (* struct_/compute.rs:50-62 *)
           do fls' <- mapM (fun x => o_take (rec x) ip idx) fls;
           do v' <- vtake v idx; try_struct ns fls' (length idx) v')
        (with_mask a (fun m =>                                                           (* struct_/compute.rs:80-100 *)
           do fls' <- mapM (fun x => o_filter (rec x) m) fls;
           let len := match fls' with
                      | x :: _ => alen x
                      | [] => if mlen m =? 0 then 0 else mcount m   (* no true count for an empty predicate *)
                      end in
           do v' <- vfilter v (mbits m); try_struct ns fls' len v'))
  | AExt id st =>
      Ops (o_lval (rec st)) (Ok a)
        (fun ip idx => do st' <- o_take (rec st) ip idx; Ok (AExt id st'))                (* extension/compute.rs:85-89 *)
        (fun _ => Err)
  | AConst d x n =>
      Ops (Ok (if is_null x then LAllInvalid n else LAllValid n)) (const_canon d x n)
        (fun _ idx => Ok (AConst d x (length idx)))                                      (* constant/compute.rs:60-64 *)
        (with_mask a (fun m => Ok (AConst d x (mcount m))))                              (* constant/compute.rs:72-87 *)
  | ASparse idx vals off len fill =>
      let ic := o_canon (rec idx) in
      Ops (sparse_lval idx (o_lval (rec vals)) off len fill)
        (sparse_canon (adtype vals) ic (o_canon (rec vals)) off len fill)
        (fun _ => sparse_take idx ic (o_take (rec vals)) off fill)
        (with_mask a (sparse_filter ic (o_take (rec vals)) off fill))
  | AChunked d cs =>
      let lval := do ls <- mapM (fun c => o_lval (rec c)) cs; Ok (to_logical (vcollect ls) (alen a)) in  (* chunked/mod.rs:221-229 *)
      let cos := map (fun c => (c, rec c)) cs in
      Ops lval
        (do v <- (if nullable d then rmap into_validity lval else Ok VNonNull);
         chunked_canon d (map (fun c => (c, o_canon (rec c))) cs) v)
        (chunked_take a d cos) (with_mask a (chunked_filter a d cos))
  | ADict codes vals =>
      let cc := o_canon (rec codes) in
      Ops (if nullable (adtype vals)                                                     (* dict/src/array.rs:87-104 *)
           then do (_, l, _) <- expect (into_prim cc); Ok (LBits (map (fun z => negb (z =? 0)%Z) l))
           else Ok (LAllValid (alen codes)))
        (do vc <- o_canon (rec vals);                                                    (* dict/src/array.rs:68-73 *)
         do (cp, cl, _) <- into_prim cc;
         do t <- o_take (rec vc) cp (nats cl);
         o_canon (rec t))
        (fun ip idx => do codes' <- o_take (rec codes) ip idx; try_dict codes' vals)
        (with_mask a (fun m => do codes' <- o_filter (rec codes) m; try_dict codes' vals))
  | ARunEnd ends vals v off len =>
      let c := do (pe, el, _) <- into_prim (o_canon (rec ends));                         (* runend/src/array.rs:188-204 *)
               do (p, vl, _) <- into_prim (o_canon (rec vals));
               runend_decode pe el p vl v off len in
      Ops (own_lval v len) c
        (fun _ => runend_take ends vals (o_take (rec vals)) (fun x => o_filter (rec x)) v off len)
        (dflt c)
  | AFoR p e ref sh =>
      Ops (o_lval (rec e))
        (do (_, l, v) <- into_prim (o_canon (rec e)); Ok (for_decompress p l v ref (Z.to_nat sh)))  (* for/mod.rs:88-92 *)
        (fun ip idx => do e' <- o_take (rec e) ip idx; Ok (AFoR p e' ref sh))             (* for/compute.rs:38-47 *)
        (with_mask a (fun m => do e' <- o_filter (rec e) m; Ok (AFoR p e' ref sh)))       (* for/compute.rs:49-58 *)
  | AZigZag e =>
      let c := do (p, l, v) <- into_prim (o_canon (rec e)); zigzag_decode p l v in        (* zigzag/src/array.rs:95-99 *)
      Ops (o_lval (rec e)) c
        (fun ip idx => do x <- c; o_take (rec x) ip idx)                                 (* no TakeFn: compute/take.rs:24-33 *)
        (dflt c)
  | ABitPacked p packed bw off len v patches =>
      let c := do q <- match patches with
                       | None => Ok None
                       | Some (ASparse qi qv qo _ _) =>
                           do pos <- resolved_indices (o_canon (rec qi)) qo;
                           do (_, vl, _) <- into_prim (o_canon (rec qv)); Ok (Some (pos, vl))
                       | Some _ => Panic
                       end;
               bp_unpack p packed bw off len v q in
      Ops (own_lval v len) c
        (bp_take p packed off len v patches c (fun x => o_take (rec x)) (fun x => o_canon (rec x)))
        (dflt c)
  | AByteBool l v =>
      (* BooleanBuffer::from(&[bool]): any non-zero byte... bytes are read as Rust bools, bytebool/src/array.rs:124-131 *)
      let c := try_bool 0 (map (fun z => negb (z =? 0)%Z) l) (length l) v in
      Ops (own_lval v (length l)) c (fun _ => bytebool_take l v) (dflt c)
  end.

(** Dispatch with recursion fuel; [depth a] is enough (the results of take and filter are not deeper than their input). *)
Fixpoint ops (n : nat) (a : array) : ops_t :=
  match n with
  | 0 => ops_step (fun _ => fail_ops) a
  | S n' => ops_step (ops n') a
  end.

(** * The public functions *)
Definition logical_validity (a : array) : result lvalidity := o_lval (ops (depth a) a).
Definition canon (a : array) : result array := o_canon (ops (depth a) a).
(** compute::take, compute/take.rs:10-34: the index type must be an integer. *)
Definition take (a : array) (ip : ptype) (idx : list nat) : result array :=
  if is_int ip then o_take (ops (depth a) a) ip idx else Err.
Definition filter_array (a : array) (m : mask) : result array := o_filter (ops (depth a) a) m.
