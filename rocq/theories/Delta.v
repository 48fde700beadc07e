(** Delta encoding, encodings/fastlanes/src/delta. *)
From Verif Require Import Base Spec Arr ArrWf ArrSlice ValidityModel StatsModel IntEnc Unary.

(** * The FastLanes kernels (external crate fastlanes 0.1.5: Transpose and Delta), as published:
    1024-element vectors, LANES = 1024 / T::BITS lanes, T::BITS rows per lane. *)
Definition FL_ORDER (k : nat) : nat := nth k [0; 4; 2; 6; 1; 5; 3; 7] 0.
Definition tr_index (i : nat) : nat := (i mod 16) * 64 + FL_ORDER ((i / 16) mod 8) * 8 + i / 128.
Definition lane_index (row lane : nat) : nat := FL_ORDER (row / 8) * 16 + (row mod 8) * 128 + lane.
Definition LANES (p : ptype) : nat := 1024 / nbits p.

Definition transpose (x : list Z) : list Z := tab 1024 (fun i => nth (tr_index i) x 0%Z).
(** output[transpose(i)] = input[i] for i in 0..1024, on an uninitialised (here zero) output. *)
Definition untranspose (t : list Z) : list Z :=
  fold_left (fun out i => list_set out (tr_index i) (nth i t 0%Z)) (seq 0 1024) (repeat 0%Z 1024).

Definition lane_rows (p : ptype) (lane : nat) : list nat := map (fun row => lane_index row lane) (seq 0 (nbits p)).
Fixpoint delta_lane (p : ptype) (x : list Z) (prev : Z) (idx : list nat) (out : list Z) : list Z :=
  match idx with
  | [] => out
  | i :: r => let next := nth i x 0%Z in delta_lane p x next r (list_set out i (wrap p (next - prev)))
  end.
Fixpoint undelta_lane (p : ptype) (x : list Z) (prev : Z) (idx : list nat) (out : list Z) : list Z :=
  match idx with
  | [] => out
  | i :: r => let next := wrap p (nth i x 0%Z + prev) in undelta_lane p x next r (list_set out i next)
  end.
Definition delta_kernel (p : ptype) (x base : list Z) : list Z :=
  fold_left (fun out lane => delta_lane p x (nth lane base 0%Z) (lane_rows p lane) out) (seq 0 (LANES p)) (repeat 0%Z 1024).
Definition undelta_kernel (p : ptype) (x base : list Z) : list Z :=
  fold_left (fun out lane => undelta_lane p x (nth lane base 0%Z) (lane_rows p lane) out) (seq 0 (LANES p)) (repeat 0%Z 1024).

(** * compress_primitive, delta/compress.rs:37-98 *)
(** Scalar remainder, lines 78-89. *)
Fixpoint scalar_delta (p : ptype) (prev : Z) (l : list Z) : list Z :=
  match l with [] => [] | x :: r => wrap p (x - prev) :: scalar_delta p x r end.
(** The loop over the [k] full chunks (lines 51-76) followed by the remainder: (bases, deltas). *)
Fixpoint compress_loop (p : ptype) (k : nat) (l : list Z) : list Z * list Z :=
  match k with
  | 0 => match l with [] => ([], []) | b :: _ => ([b], scalar_delta p b l) end
  | S k' =>
      let t := transpose (firstn 1024 l) in
      let base := firstn (LANES p) t in
      let '(bs, ds) := compress_loop p k' (skipn 1024 l) in
      (base ++ bs, delta_kernel p t base ++ ds)
  end.
Definition compress_primitive (p : ptype) (l : list Z) : list Z * list Z := compress_loop p (length l / 1024) l.

(** * decompress_primitive, delta/compress.rs:115-166 *)
Fixpoint scalar_undelta (p : ptype) (prev : Z) (l : list Z) : list Z :=
  match l with [] => [] | d :: r => let next := wrap p (d + prev) in next :: scalar_undelta p next r end.
(** Slicing the bases out of range panics (line 142), as does the assertion of line 156. *)
Fixpoint decompress_loop (p : ptype) (k : nat) (bases deltas : list Z) : result (list Z) :=
  match k with
  | 0 =>
      match deltas with
      | [] => Ok []
      | _ => match bases with [b] => Ok (scalar_undelta p b deltas) | _ => Panic end
      end
  | S k' =>
      if length bases <? LANES p then Panic
      else
        do r <- decompress_loop p k' (skipn (LANES p) bases) (skipn 1024 deltas);
        Ok (untranspose (undelta_kernel p (firstn 1024 deltas) (firstn (LANES p) bases)) ++ r)
  end.
Definition decompress_primitive (p : ptype) (bases deltas : list Z) : result (list Z) :=
  decompress_loop p (length deltas / 1024) bases deltas.

(** * DeltaArray, delta/mod.rs:20-25. Simplification: the bases and deltas children are plain primitive arrays. *)
Record darray := DArr { d_p : ptype; d_null : bool; d_bases : list Z; d_deltas : list Z; d_v : validity; d_off : nat; d_len : nat }.

(** bases_len, mod.rs:201-205. *)
Definition bases_len (p : ptype) (n : nat) : nat := n / 1024 * LANES p + (if 0 <? n mod 1024 then 1 else 0).
(** DeltaArray::try_new, mod.rs:89-157 (bases and deltas here always have the same dtype; Validity::to_metadata
    (validity.rs:73-94) requires a validity array of length [len]; lanes() panics unless unsigned). *)
Definition delta_try_new (p : ptype) (nl : bool) (bases deltas : list Z) (v : validity) (off len : nat) : result darray :=
  if 1024 <=? off then Err
  else if length deltas <? off + len then Err
  else if negb (vfits v len) then Err
  else if negb (is_unsigned p) then Panic
  else if negb (length bases =? bases_len p (length deltas)) then Err
  else if negb (Bool.eqb (length deltas mod 1024 =? 0) (length bases mod LANES p =? 0)) then Err
  else Ok (DArr p nl bases deltas v off len).

(** delta_compress, compress.rs:14-35: (bases, deltas) of the forward-filled values; the children get the nullability of
    the array. *)
Definition delta_compress (p : ptype) (l : list Z) (v : validity) : result (list Z * list Z) :=
  do filled <- fill_forward (APrim p l v);
  match filled with
  | APrim _ l' _ => if is_unsigned p then Ok (compress_primitive p l') else Panic
  | _ => Err
  end.
(** DeltaCompressor::compress, vortex-sampling-compressor/src/compressors/delta.rs:27-60: delta_compress, then
    try_from_delta_compress_parts (mod.rs:80-87) with the array's own validity. *)
Definition delta_encode (p : ptype) (l : list Z) (v : validity) : result darray :=
  do (bases, deltas) <- delta_compress p l v;
  delta_try_new p (vnullable v) bases deltas v 0 (length deltas).
(** DeltaArray::try_from_primitive_array, mod.rs:70-78: passes Validity::NonNullable. *)
Definition delta_from_primitive (p : ptype) (l : list Z) (v : validity) : result darray :=
  do (bases, deltas) <- delta_compress p l v;
  delta_try_new p (vnullable v) bases deltas VNonNull 0 (length deltas).

(** delta_decompress, compress.rs:100-113: PrimitiveArray::from_vec panics when the validity does not fit the decoded values
    (primitive/mod.rs:45-68), then the physical slice off..off+len. *)
Definition delta_decompress (d : darray) : result array :=
  if negb (is_unsigned (d_p d)) then Panic
  else
    do vals <- decompress_primitive (d_p d) (d_bases d) (d_deltas d);
    if negb (vfits (d_v d) (length vals)) then Panic
    else slice (APrim (d_p d) vals (d_v d)) (d_off d) (d_off d + d_len d).

Definition div_ceil (a b : nat) : nat := (a + (b - 1)) / b.
(** SliceFn, compute.rs:36-75, after the bounds check of compute/slice.rs:21-31. *)
Definition delta_slice (d : darray) (start stop : nat) : result darray :=
  if slice_bad (d_len d) start stop then Err
  else
    let ps := start + d_off d in
    let pe := stop + d_off d in
    let sc := ps / 1024 in
    let ec := div_ceil pe 1024 in
    let bl := bases_len (d_p d) (length (d_deltas d)) in
    let dl := length (d_deltas d) in
    let lanes := LANES (d_p d) in
    do bs <- (if slice_bad (length (d_bases d)) (min (sc * lanes) bl) (min (ec * lanes) bl) then Err
              else Ok (lslice (d_bases d) (min (sc * lanes) bl) (min (ec * lanes) bl)));
    do ds <- (if slice_bad dl (min (sc * 1024) dl) (min (ec * 1024) dl) then Err
              else Ok (lslice (d_deltas d) (min (sc * 1024) dl) (min (ec * 1024) dl)));
    do v <- vslice (d_v d) start stop;
    delta_try_new (d_p d) (d_null d) bs ds v (ps mod 1024) (stop - start).

(** ScalarAtFn, compute.rs:21-34: slice one row, decompress it, read row 0 (unary/scalar_at.rs checks the bound). *)
Definition delta_scalar_at (d : darray) (i : nat) : result value :=
  if d_len d <=? i then Err
  else do s <- delta_slice d i (i + 1); do a <- delta_decompress s; Ok (nth 0 (logical a) VNull).
