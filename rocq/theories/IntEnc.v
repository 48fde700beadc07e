(** Integer encoders and decoders: frame of reference, ZigZag, bit-packing. *)
From Verif Require Import Base Spec Arr ArrWf ValidityModel StatsModel.

(** * Frame of reference, encodings/fastlanes/src/for/compress.rs *)

(** BooleanBuffer::set_indices. *)
Definition set_indices (m : list bool) : list nat := filter (fun i => nth i m false) (seq 0 (length m)).

(** compress_primitive, for/compress.rs:62-84, followed by reinterpret_cast to the unsigned type (line 52):
    [wrapping_sub], then [>>] (arithmetic for signed types: floor division). *)
Definition for_compress_value (p : ptype) (min : Z) (shift : nat) (z : Z) : Z :=
  let d := wrap p (z - min) in
  wrap (to_unsigned p) (if 0 <? shift then Z.shiftr d (Z.of_nat shift) else d).

(** for_compress, for/compress.rs:13-60. [match_each_integer_ptype] panics on floats. The [ok_or_else] on Min is the
    error for an empty array, [T::try_from(&min)] the one for an all-null array (its minimum is null). *)
Definition for_compress (p : ptype) (l : list Z) (v : validity) : result array :=
  let shift := trailing_zeros (APrim p l v) in
  match s_min (stats_after KMin (APrim p l v)) with
  | None => Err
  | Some (_, min) =>
      if is_int p then
        if shift =? nbits p then
          match to_logical v (length l) with
          | LAllValid n => Ok (AConst (DPrim p (vnullable v)) (VInt 0) n)
          | LAllInvalid n => Ok (AConst (DPrim p (vnullable v)) VNull n)
          | LBits m =>
              let idx := map Z.of_nat (set_indices m) in
              (* SparseArray::try_new, sparse/mod.rs:47-91: the last index must be below the length *)
              if match idx with [] => true | _ => (last idx 0 <? Z.of_nat (length l))%Z end then
                Ok (ASparse (APrim U64 idx VNonNull) (AConst (DPrim p (vnullable v)) (VInt 0) (length idx)) 0 (length l) VNull)
              else Err
          end
        else
          match min with
          | VInt m => Ok (AFoR p (APrim (to_unsigned p) (map (for_compress_value p m shift) l) v) m (Z.of_nat shift))
          | _ => Err
          end
      else Panic
  end.

(** decompress, for/compress.rs:86-117, on the decoded child. *)
Definition for_decompress (p : ptype) (enc : list Z) (v : validity) (ref : Z) (shift : nat) : array :=
  let enc := map (wrap p) enc in                                          (* reinterpret_cast, line 89 *)
  APrim p
    (if 0 <? shift then map (fun z => wrap p (z + ref)) (map (fun z => wrap p (Z.shiftl z (Z.of_nat shift))) enc)
     else map (fun z => wrap p (z + ref)%Z) enc) v.

(** * ZigZag, encodings/zigzag/src/compress.rs *)

(** ZigZag::encode/decode of the zigzag crate on w-bit integers: (v << 1) ^ (v >> (w-1)) and (v >> 1) ^ -(v & 1). *)
Definition zz_enc (p : ptype) (z : Z) : Z :=
  wrap (to_unsigned p) (Z.lxor (wrap p (Z.shiftl z 1)) (Z.shiftr z (bits p - 1))).
Definition zz_dec (p : ptype) (z : Z) : Z :=
  Z.lxor (wrap p (Z.shiftr z 1)) (wrap p (- Z.land z 1)).
(** zigzag_encode, 10-33: only signed integers. ZigZagArray::try_new succeeds on the unsigned result. *)
Definition zigzag_encode (p : ptype) (l : list Z) (v : validity) : result array :=
  if is_signed p then Ok (AZigZag (APrim (to_unsigned p) (map (zz_enc p) l) v)) else Err.
(** zigzag_decode, 35-57, on the unsigned type [p]. *)
Definition zigzag_decode (p : ptype) (l : list Z) (v : validity) : result array :=
  if is_unsigned p then Ok (APrim (to_signed p) (map (zz_dec (to_signed p)) l) v) else Err.

(** * Bit-packing, encodings/fastlanes/src/bitpacking/compress.rs *)

(** BitPacking::unchecked_pack / unchecked_unpack of the fastlanes crate on one block of 1024 values are external: the
    model keeps the [bw]-bit fields in order; packing keeps the low [bw] bits. *)
Definition pack_block (bw : Z) (l : list Z) : list Z := map (fun z => z mod 2 ^ bw)%Z l.
(** bitpack_primitive, 82-137. For width 0 the code returns an empty buffer, i.e. blocks of zero-width fields. *)
Definition bitpack_primitive (l : list Z) (bw : Z) : list Z :=
  let n := length l in
  let num_chunks := (n + 1023) / 1024 in
  let num_full := n / 1024 in
  if (bw =? 0)%Z then repeat 0%Z (1024 * num_chunks)
  else
    concat (map (fun i => pack_block bw (lslice l (i * 1024) (i * 1024 + 1024))) (seq 0 num_full)) ++
    (if num_chunks =? num_full then []
     else let last := n mod 1024 in
          pack_block bw (lslice l (n - last) n ++ repeat 0%Z (1024 - last))).

(** count_exceptions, 369-374. *)
Definition count_exceptions (bw : nat) (freq : list nat) : nat :=
  if length freq <=? bw then 0 else list_sum (skipn (bw + 1) freq).

(** [leading_zeros] of an unsigned value of the type. *)
Definition leading_zeros (p : ptype) (z : Z) : nat := nbits p - bit_width p z.
(** gather_patches, 139-165: positions and values. *)
Definition patch_positions (p : ptype) (l : list Z) (v : validity) (bw : nat) : list nat :=
  filter (fun i => (leading_zeros p (nth i l 0%Z) <? nbits p - bw) && vvalid v i) (seq 0 (length l)).
Definition gather_patches (p : ptype) (l : list Z) (v : validity) (bw : nat) : option array :=
  let idx := patch_positions p l v bw in
  match idx with
  | [] => None
  | _ => Some (ASparse (APrim U64 (map Z.of_nat idx) VNonNull) (APrim p (map (fun i => nth i l 0%Z) idx) VAllValid)
                 0 (length l) VNull)
  end.

(** bitpack_encode, 16-41, with BitPackedArray::try_new, bitpacking/mod.rs:43-130 (the packed size and the patch
    length always fit, so its remaining check is the unsigned type). The statistics are absent for an empty array. *)
Definition bitpack_encode (p : ptype) (l : list Z) (v : validity) (bw : nat) : result array :=
  match s_bw (stats_after KBw (APrim p l v)) with
  | None => Err
  | Some freq =>
      if nbits p <=? bw then Err
      else if is_float p then Panic
      else
        let packed := bitpack_primitive (map (wrap (to_unsigned p)) l) (Z.of_nat bw) in
        let patches := if 0 <? count_exceptions bw freq then gather_patches p l v bw else None in
        if is_unsigned p then Ok (ABitPacked p packed (Z.of_nat bw) 0 (length l) v patches) else Err
  end.

(** unpack_primitive, 209-273. *)
Definition unpack_primitive (packed : list Z) (bw : Z) (off len : nat) : result (list Z) :=
  if (bw =? 0)%Z then Ok (repeat 0%Z len)
  else
    let num_chunks := (off + len + 1023) / 1024 in
    if negb (length packed =? num_chunks * 1024) then Panic
    else if negb (off =? 0) && (num_chunks =? 0) then Panic
    else
      let first := if off =? 0 then [] else lslice (lslice packed 0 1024) off 1024 in
      let k0 := if off =? 0 then 0 else 1 in
      let out := first ++ concat (map (fun i => lslice packed (i * 1024) (i * 1024 + 1024)) (seq k0 (num_chunks - k0))) in
      let out := firstn len out in
      if length out =? len then Ok out else Panic.

(** PrimitiveArray::patch, primitive/mod.rs:168-185: [zip_eq] panics on different lengths, indexing out of range. *)
Fixpoint list_set {A} (l : list A) (i : nat) (x : A) : list A :=
  match l, i with
  | [], _ => []
  | _ :: r, 0 => x :: r
  | y :: r, S i' => y :: list_set r i' x
  end.
Fixpoint patch_values (l : list Z) (pos : list nat) (vals : list Z) : result (list Z) :=
  match pos, vals with
  | [], [] => Ok l
  | i :: pos', x :: vals' => if i <? length l then patch_values (list_set l i x) pos' vals' else Panic
  | _, _ => Panic
  end.
(** unpack + patch_unpacked, 167-207, with the patch positions (resolved_indices, sparse/mod.rs:131-142) and the
    primitive patch values given. *)
Definition bp_unpack (p : ptype) (packed : list Z) (bw : Z) (off len : nat) (v : validity)
  (patches : option (list nat * list Z)) : result array :=
  do u <- unpack_primitive packed bw off len;
  let u := map (wrap p) u in
  do u' <- (match patches with None => Ok u | Some (pos, vals) => patch_values u pos vals end);
  Ok (APrim p u' v).

(** find_min_patchless_bit_width, 308-327. *)
Definition min_patchless_bit_width (freq : list nat) : result nat :=
  match freq with
  | [] => Err
  | _ => Ok (list_max (filter (fun k => 0 <? nth k freq 0) (seq 0 (length freq))))
  end.
(** best_bit_width, 329-367. *)
Fixpoint best_go (len bpe : nat) (bw num_packed best_cost best_width : nat) (freq : list nat) : nat :=
  match freq with
  | [] => best_width
  | f :: r =>
      let packed_cost := (bw * len + 7) / 8 in
      let num_packed := num_packed + f in
      let cost := (len - num_packed) * bpe + packed_cost in
      if cost <? best_cost then best_go len bpe (S bw) num_packed cost bw r
      else best_go len bpe (S bw) num_packed best_cost best_width r
  end.
Definition best_bit_width (freq : list nat) (bpe : nat) : result nat :=
  if 255 <? length freq then Err
  else let len := list_sum freq in Ok (best_go len bpe 0 0 (len * bpe) 0 freq).
Definition bytes_per_exception (p : ptype) : nat := nbits p / 8 + 4.
