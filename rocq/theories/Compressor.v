(** The sampling compressor, vortex-sampling-compressor/src: lib.rs and the compressors for constants, chunked and struct arrays,
    frame of reference, ZigZag, bit-packing, run-end, dictionary and sparse arrays.

    Which compressor is used at each node depends on samples, sizes, costs and previous chunks (lib.rs:231-448, chunked.rs:106-156).
    None of that is modelled: a [plan] gives the choice made at every node, and the theorems hold for all plans. A compressor that
    cannot compress an array ([can_compress] is None) leaves it as it is: in the code it is never chosen (lib.rs:291-298, 390-392;
    mod.rs:137-145; [compress_unchecked], lib.rs:356-365, is only reached by compressors that passed the test on the full array).
    Statistics are those computed from the array; the code also presets some on the results of runend_encode
    (runend/src/compress.rs:26-66), which differ only by values that lie under nulls. Validity arrays are compressed in the code
    (lib.rs:264-269) and are lists of bits here. ALP, ALP-RD, FSST, DateTimeParts, Delta and Roaring compressors are not here: their
    encodings are records of their own (Alp.v, AlpRd.v, Fsst.v, DateTime.v, Delta.v, Roaring.v). *)
From Verif Require Import Base Spec Arr ArrRead ArrWf ArrSlice ValidityModel StatsModel ArrOps IntEnc RunEnc DictEnc.

(** The choices: nothing; constant; one plan per chunk; one per field; frame of reference with a plan for its child; ZigZag;
    bit-packing, with or without patches allowed, and a plan for the patches; run-end (ends, values); dictionary (codes, values);
    sparse (indices, values). *)
Inductive plan :=
  | PKeep
  | PConst
  | PChunks (l : list plan)
  | PStruct (l : list plan)
  | PFoR (q : plan)
  | PZigZag (q : plan)
  | PBit (allow_patches : bool) (q : plan)
  | PRunEnd (qe qv : plan)
  | PDict (qc qv : plan)
  | PSparse (qi qv : plan).

Section Compressor.
  (** nbytes() of an array, and the target sizes of a chunk (lib.rs:113-117): arbitrary. *)
  Variable nb : array -> nat.
  Variables target_bytes target_rows : nat.

  (** ChunkedArray::rechunk, chunked/mod.rs:144-186. *)
  Definition combine_chunks (d : dtype) (acc : list array) : result array := do c <- try_chunked acc d; canon c.
  Fixpoint rechunk_go (d : dtype) (acc : list array) (ab an : nat) (cs : list array) : result (list array) :=
    match cs with
    | [] => match acc with [] => Ok [] | _ => do c <- combine_chunks d acc; Ok [c] end
    | c :: r =>
        let flush := ((target_bytes <? ab + nb c) || (target_rows <? an + alen c)) && negb (length acc =? 0) in
        let big := (target_bytes <? nb c) || (target_rows <? alen c) in
        if flush then
          do x <- combine_chunks d acc;
          do xs <- (if big then do xs <- rechunk_go d [] 0 0 r; Ok (c :: xs) else rechunk_go d [c] (nb c) (alen c) r);
          Ok (x :: xs)
        else if big then
          (* [acc] is empty here, otherwise it would have been flushed *)
          do xs <- rechunk_go d acc ab an r; Ok (c :: xs)
        else rechunk_go d (acc ++ [c]) (ab + nb c) (an + alen c) r
    end.
  Definition rechunk (d : dtype) (cs : list array) : result (list array) := rechunk_go d [] 0 0 cs.

  (** Whether the non-null values of an array are strictly increasing, dict.rs:36-44. *)
  Definition strict (a : array) : bool := match s_strict (stats_after KStrict a) with Some b => b | None => false end.

  (** dict_encode_primitive / dict_encode_varbin / dict_encode_varbinview, dict/src/compress.rs. *)
  Definition dict_of (a : array) : option (array * array) :=
    match a with
    | APrim p l v => Some (dict_encode_primitive p l v)
    | AVarBin u _ _ v | AView u _ _ v => Some (dict_encode_varbin u (vnullable v) (str_opts (logical a)))
    | _ => None
    end.

  (** FoRCompressor::can_compress, for.rs:27-51 ([compute_min] of an all-null array is null). *)
  Definition for_applies (p : ptype) (l : list Z) (v : validity) : bool :=
    is_int p &&
    match s_min (stats_after KMin (APrim p l v)) with
    | Some (_, VInt m) => negb ((m =? 0)%Z && (trailing_zeros (APrim p l v) =? 0) && is_unsigned p)
    | _ => false
    end.
  (** ZigZagCompressor::can_compress, zigzag.rs:25-41. *)
  Definition zigzag_applies (p : ptype) (l : list Z) (v : validity) : bool :=
    is_signed p && match s_min (stats_after KMin (APrim p l v)) with Some (_, VInt m) => (m <? 0)%Z | _ => false end.
  (** find_bit_width, bitpacked.rs:28-36. *)
  Definition find_bit_width (allow : bool) (p : ptype) (freq : list nat) : result nat :=
    if allow then best_bit_width freq (bytes_per_exception p) else min_patchless_bit_width freq.

  (** compress_array of the node with the given choice; the arrays of the node's parts are compressed with the given functions. *)
  (** ConstantCompressor, constant.rs:25-40; constants, chunked and struct arrays are dealt with before, lib.rs:274-285. *)
  Definition do_const (a : array) : result array :=
    match a with
    | AConst _ _ _ | AChunked _ _ | AStruct _ _ _ _ => Ok a
    | _ =>
        match s_const (stats_after KConst a) with
        | Some true => do x <- scalar_at a 0; Ok (AConst (adtype a) x (alen a))
        | _ => Ok a
        end
    end.
  (** ChunkedCompressor, chunked.rs:106-156; the [k]-th new chunk is compressed with [f k]. *)
  Definition do_chunks (f : nat -> array -> result array) (a : array) : result array :=
    match a with
    | AChunked d cs =>
        do cs' <- rechunk d cs;
        do xs <- mapM (fun kc => f (fst kc) (snd kc)) (combine (seq 0 (length cs')) cs');
        try_chunked xs d
    | _ => Ok a
    end.
  (** StructCompressor, struct_.rs:31-60. *)
  Definition do_struct (f : nat -> array -> result array) (a : array) : result array :=
    match a with
    | AStruct ns fls n v =>
        do xs <- mapM (fun kc => f (fst kc) (snd kc)) (combine (seq 0 (length fls)) fls);
        try_struct ns xs n v
    | _ => Ok a
    end.
  (** FoRArray::try_new, fastlanes/src/for/mod.rs:33-54; the reference is not null. *)
  Definition try_for (p : ptype) (e : array) (ref shift : Z) : result array := Ok (AFoR p e ref shift).
  (** FoRCompressor, for.rs:53-88. *)
  Definition do_for (f : array -> result array) (a : array) : result array :=
    match a with
    | APrim p l v =>
        if for_applies p l v then
          do r <- for_compress p l v;
          match r with
          | AFoR q e ref shift => do e' <- f e; try_for q e' ref shift
          | r => f r
          end
        else Ok a
    | _ => Ok a
    end.
  (** ZigZagCompressor, zigzag.rs:43-56. *)
  Definition do_zigzag (f : array -> result array) (a : array) : result array :=
    match a with
    | APrim p l v =>
        if zigzag_applies p l v then
          do r <- zigzag_encode p l v;
          match r with AZigZag e => do e' <- f e; try_zigzag e' | _ => Err end
        else Ok a
    | _ => Ok a
    end.
  (** BitPackedCompressor, bitpacked.rs:74-130, and its can_compress, 55-72. *)
  Definition do_bit (allow : bool) (f : array -> result array) (a : array) : result array :=
    match a with
    | APrim p l v =>
        if is_unsigned p then
          match s_bw (stats_after KBw a) with
          | None => Ok a
          | Some freq =>
              match find_bit_width allow p freq with
              | Ok bw =>
                  if bw =? nbits p then Ok a
                  else
                    let exceptions := count_exceptions bw freq in
                    if negb allow && (0 <? exceptions) then Panic
                    else
                      let packed := bitpack_primitive (map (wrap (to_unsigned p)) l) (Z.of_nat bw) in
                      do patches <- (match (if 0 <? exceptions then gather_patches p l v bw else None) with
                                     | Some q => do q' <- f q; Ok (Some q')
                                     | None => Ok None
                                     end);
                      try_bitpacked p packed (Z.of_nat bw) 0 (length l) v patches
              | _ => Ok a
              end
          end
        else Ok a
    | _ => Ok a
    end.
  (** RunEndCompressor, runend.rs:47-76, with RunEndArray::try_new, runend/src/array.rs:37-45. The average-run-length test (35-42)
      is part of the choice. *)
  Definition do_runend (fe fv : array -> result array) (a : array) : result array :=
    match a with
    | APrim p l v =>
        let '(ends, vals) := ree_encode_primitive p l in
        do e <- fe (APrim U64 ends VNonNull);
        do x <- fv (APrim p vals (if vnullable v then VAllValid else VNonNull));
        do n <- (if alen e =? 0 then Ok 0 else do z <- scalar_at e (alen e - 1); to_usize z);
        try_runend e x v 0 n
    | _ => Ok a
    end.
  (** DictCompressor, dict.rs:28-88; the distinct values of a VarBinView array are decoded to views again,
      dict/src/compress.rs:100-107. *)
  Definition dict_views (a vals : array) : result array :=
    match a with AView _ _ _ _ => expect (canon vals) | _ => Ok vals end.
  Definition do_dict (fc fv : array -> result array) (a : array) : result array :=
    match dict_of a with
    | Some (codes, vals) =>
        if strict a then Ok a
        else do vals <- dict_views a vals; do c <- fc codes; do x <- fv vals; try_dict c x
    | None => Ok a
    end.
  (** SparseCompressor, sparse.rs:27-52. SparseArray::try_new starts at offset 0: that of the array is lost. *)
  Definition do_sparse (fi fv : array -> result array) (a : array) : result array :=
    match a with
    | ASparse idx vals off len fill => do i <- fi idx; do x <- fv vals; try_sparse i x len 0 fill
    | _ => Ok a
    end.

  (** SamplingCompressor::compress, lib.rs:231-262: an empty array is kept. (compress_array, called directly by the chunked
      compressor, chunked.rs:132, never finds an encoding of an empty chunk smaller than the chunk.) *)
  Fixpoint run (q : plan) (a : array) {struct q} : result array :=
    if alen a =? 0 then Ok a
    else
      match q with
      | PKeep => Ok a
      | PConst => do_const a
      | PChunks l => do_chunks (fun k => nth k (map run l) (fun x => Ok x)) a
      | PStruct l => do_struct (fun k => nth k (map run l) (fun x => Ok x)) a
      | PFoR q => do_for (run q) a
      | PZigZag q => do_zigzag (run q) a
      | PBit allow q => do_bit allow (run q) a
      | PRunEnd qe qv => do_runend (run qe) (run qv) a
      | PDict qc qv => do_dict (run qc) (run qv) a
      | PSparse qi qv => do_sparse (run qi) (run qv) a
      end.
End Compressor.
