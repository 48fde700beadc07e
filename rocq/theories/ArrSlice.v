(** Model of the checked constructors ([try_new]) and of compute::slice for every encoding of [array]. *)
From Verif Require Import Base Spec SearchModel Arr ArrRead.

(** * Checked constructors *)

(** Validity::to_metadata(length), validity.rs:69-87: a validity array must have the right length. *)
Definition vfits (v : validity) (n : nat) : bool := match v with VBits l => length l =? n | _ => true end.

(** ScalarValue::is_instance_of, vortex-scalar/src/value.rs:77-95. Primitive values carry their type in the code; here a
    primitive value is an instance when it fits. Nested values are taken to be instances. *)
Definition instance_of (x : value) (d : dtype) : bool :=
  match x, d with
  | VNull, _ => nullable d
  | VBool _, DBool _ => true
  | VInt z, DPrim p _ => in_rangeb p z
  | VBytes _, DBinary _ => true
  | VBytes _, DUtf8 _ => true
  | VStruct _, DStruct _ _ _ => true
  | _, _ => false
  end.

(** StructArray::try_new, struct_/mod.rs:45-87. *)
Definition try_struct (ns : list nat) (fls : list array) (n : nat) (v : validity) : result array :=
  if negb (length ns =? length fls) then Err
  else if negb (forallb (fun x => alen x =? n) fls) then Err
  else if negb (vfits v n) then Err
  else Ok (AStruct ns fls n v).

Definition int_nonnull (d : dtype) : bool := match d with DPrim p false => is_int p | _ => false end.
Definition uint_nonnull (d : dtype) : bool := match d with DPrim p false => is_unsigned p | _ => false end.
Definition is_uint (d : dtype) : bool := match d with DPrim p _ => is_unsigned p | _ => false end.

(** VarBinArray::try_new, varbin/mod.rs:48-84; [offsets.len() - 1] underflows on an empty offsets array. *)
Definition try_varbin (u : bool) (offs : array) (bytes : list Z) (v : validity) : result array :=
  if negb (int_nonnull (adtype offs)) then Err
  else if alen offs =? 0 then Panic
  else if negb (vfits v (alen offs - 1)) then Err
  else Ok (AVarBin u offs bytes v).

(** VarBinViewArray::try_new, varbinview/mod.rs:217-262. *)
Definition try_view (u : bool) (views : list view) (bufs : list (list Z)) (v : validity) : result array :=
  if negb (vfits v (length views)) then Err else Ok (AView u views bufs v).

(** SparseArray::try_new_with_offset, sparse/mod.rs:47-91. *)
Definition try_sparse (idx vals : array) (len off : nat) (fill : value) : result array :=
  if negb (dtype_eqb (adtype idx) (DPrim U64 false)) then Err
  else if negb (instance_of fill (adtype vals)) then Err
  else if negb (alen idx =? alen vals) then Err
  else if alen idx =? 0 then Ok (ASparse idx vals off len fill)
  else
    do x <- scalar_at idx (alen idx - 1);
    do last <- to_usize x;
    if last <? off then Panic
    else if len <=? last - off then Err
    else Ok (ASparse idx vals off len fill).

(** ChunkedArray::try_new, chunked/mod.rs:47-79. *)
Definition try_chunked (cs : list array) (d : dtype) : result array :=
  if forallb (fun c => dtype_eqb (adtype c) d) cs then Ok (AChunked d cs) else Err.

(** DictArray::try_new, dict/src/array.rs:34-50. *)
Definition try_dict (codes vals : array) : result array :=
  if uint_nonnull (adtype codes) then Ok (ADict codes vals) else Err.

Fixpoint ssortedb (l : list Z) : bool :=
  match l with
  | [] => true
  | x :: r => forallb (fun y => (x <? y)%Z) r && ssortedb r
  end.

(** RunEndArray::with_offset_and_length, runend/src/array.rs:47-92. The strict-sortedness statistic is taken to be exact. *)
Definition try_runend (ends vals : array) (v : validity) (off len : nat) : result array :=
  if negb (Bool.eqb (nullable (adtype vals)) (vnullable v)) then Err
  else
    do _ <- (if negb (off =? 0) && negb (alen ends =? 0)
             then do x <- scalar_at ends 0; do k <- to_usize x; if k <=? off then Err else Ok tt
             else Ok tt);
    if negb (uint_nonnull (adtype ends)) then Err
    else if negb (ssortedb (ints (logical ends))) then Err
    else if negb (vfits v len) then Err
    else Ok (ARunEnd ends vals v off len).

(** ZigZagArray::try_new, zigzag/src/array.rs:34-47. *)
Definition try_zigzag (e : array) : result array := if is_uint (adtype e) then Ok (AZigZag e) else Err.

(** BitPackedArray::try_new_from_offset, bitpacking/mod.rs:53-122. *)
Definition try_bitpacked (p : ptype) (packed : list Z) (bw : Z) (off len : nat) (v : validity) (patches : option array)
  : result array :=
  if negb (is_unsigned p) then Err
  else if (64 <? bw)%Z then Err
  else if 1023 <? off then Err
  else if negb (length packed =? 1024 * ((len + off + 1023) / 1024)) then Err
  else if negb (vfits v len) then Err
  else match patches with
       | None => Ok (ABitPacked p packed bw off len v patches)
       | Some q =>
           if negb (alen q =? len) then Err
           else match q with
                | ASparse idx _ _ _ _ => if alen idx =? 0 then Err else Ok (ABitPacked p packed bw off len v patches)
                | _ => Err
                end
       end.

(** ByteBoolArray::try_new, bytebool/src/array.rs:50-82. *)
Definition try_bytebool (l : list Z) (v : validity) : result array :=
  if vfits v (length l) then Ok (AByteBool l v) else Err.

(** PrimitiveArray::new, primitive/mod.rs:47-70. *)
Definition try_prim (p : ptype) (l : list Z) (v : validity) : result array :=
  if vfits v (length l) then Ok (APrim p l v) else Err.

(** BoolArray::try_new, bool/mod.rs:59-82: whole bytes before the bit offset are dropped. *)
Definition try_bool (off : nat) (buf : list bool) (len : nat) (v : validity) : result array :=
  if vfits v len then Ok (ABool (off mod 8) (skipn (8 * (off / 8)) buf) len v) else Err.

(** * slice *)

(** check_slice_bounds, compute/slice.rs:36-47. *)
Definition slice_bad (n i j : nat) : bool := (n <? i) || (n <? j) || (j <? i).

(** Validity::slice, validity.rs:135-140. *)
Definition vslice (v : validity) (i j : nat) : result validity :=
  match v with
  | VBits l => if slice_bad (length l) i j then Err else Ok (VBits (lslice l i j))
  | v => Ok v
  end.

(** A slice function of an encoded child, [None] bounds already checked by the callee. *)
Definition slicer := nat -> nat -> result array.

(** ChunkedArray slice, chunked/compute/slice.rs:7-36. *)
Definition chunked_slice (d : dtype) (cs : list (array * slicer)) (i j : nat) : result array :=
  let lens := map (fun c => alen (fst c)) cs in
  do s <- find_chunk_idx lens i;
  do e <- find_chunk_idx lens j;
  if fst e =? fst s then
    match nth_error cs (fst s) with
    | None => Err
    | Some c => do x <- snd c (snd s) (snd e); try_chunked [x] d
    end
  else
    (* chunks fst s ..= fst e, first and last replaced *)
    match lslice cs (fst s) (fst e + 1) with
    | [] => try_chunked [] d
    | c0 :: rest =>
        do x0 <- snd c0 (snd s) (alen (fst c0));
        if snd e =? 0 then try_chunked (x0 :: map fst (removelast rest)) d
        else match rev rest with
             | [] => do x1 <- snd c0 0 (snd e); try_chunked [x1] d
             | cl :: _ => do xl <- snd cl 0 (snd e); try_chunked (x0 :: map fst (removelast rest) ++ [xl]) d
             end
    end.

(** compute::slice, compute/slice.rs:22-34, with each encoding's SliceFn. *)
Fixpoint slice (a : array) (i j : nat) {struct a} : result array :=
  if slice_bad (alen a) i j then Err
  else
  match a with
  | ANull _ => Ok (ANull (j - i))                                         (* null/compute.rs:24-28 *)
  | ABool off buf _ v => do v' <- vslice v i j; try_bool (off + i) buf (j - i) v' (* bool/compute/slice.rs:7-15 *)
  | APrim p l v => do v' <- vslice v i j; try_prim p (lslice l i j) v'     (* primitive/compute/slice.rs:7-16 *)
  | AView u vs bufs v => do v' <- vslice v i j; try_view u (lslice vs i j) bufs v' (* varbinview/compute.rs:49-65 *)
  | AVarBin u offs bytes v =>                                             (* varbin/compute/slice.rs:7-17 *)
      do offs' <- slice offs i (j + 1); do v' <- vslice v i j; try_varbin u offs' bytes v'
  | AStruct ns fls _ v =>                                                 (* struct_/compute.rs:64-78 *)
      do fls' <- mapM (fun g : slicer => g i j) (map slice fls);
      do v' <- vslice v i j; try_struct ns fls' (j - i) v'
  | AExt id st => do st' <- slice st i j; Ok (AExt id st')                 (* extension/compute.rs:75-83 *)
  | AConst d x _ => Ok (AConst d x (j - i))                                (* constant/compute.rs:66-70 *)
  | ASparse idx vals off _ fill =>                                        (* sparse/compute/slice.rs:7-22 *)
      do s <- sparse_search_index idx (reads idx) off i;
      do e <- sparse_search_index idx (reads idx) off j;
      do idx' <- slice idx (to_index s) (to_index e);
      do vals' <- slice vals (to_index s) (to_index e);
      try_sparse idx' vals' (j - i) (off + i) fill
  | AChunked d cs => chunked_slice d (combine cs (map slice cs)) i j
  | ADict c vals => do c' <- slice c i j; try_dict c' vals                 (* dict/src/compute.rs:66-71 *)
  | ARunEnd ends vals v off _ =>                                          (* runend/src/compute.rs:97-111 *)
      do s <- runend_find ends (reads ends) off i;
      do e <- runend_find ends (reads ends) off j;
      do ends' <- slice ends s (e + 1);
      do vals' <- slice vals s (e + 1);
      do v' <- vslice v i j;
      try_runend ends' vals' v' (i + off) (j - i)
  | AFoR p e ref sh => do e' <- slice e i j; Ok (AFoR p e' ref sh)         (* for/compute.rs:87-96 *)
  | AZigZag e => do e' <- slice e i j; try_zigzag e'                      (* zigzag/src/compute.rs:68-72 *)
  | ABitPacked p packed bw off _ v patches =>                             (* bitpacking/compute/slice.rs:10-42 *)
      let ostart := i + off in
      let ostop := j + off in
      let off' := ostart mod 1024 in
      let bstart := ostart - off' in
      let bstop := ((ostop + 1023) / 1024) * 1024 in
      if (length packed <? bstop) || (bstop <? bstart) then Panic          (* Buffer::slice *)
      else
        do v' <- vslice v i j;
        do q' <- match patches with
                 | None => Ok None
                 | Some q =>
                     do q' <- slice q i j;
                     match q' with
                     | ASparse idx' _ _ _ _ => if alen idx' =? 0 then Ok None else Ok (Some q')
                     | _ => Panic
                     end
                 end;
        try_bitpacked p (lslice packed bstart bstop) bw off' (j - i) v' q'
  | AByteBool l v => do v' <- vslice v i j; try_bytebool (lslice l i j) v' (* bytebool/src/compute.rs:40-48 *)
  end.
