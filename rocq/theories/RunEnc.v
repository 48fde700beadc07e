(** Run-end encoders and decoders for primitive values and booleans. *)
From Verif Require Import Base Spec SearchModel Arr ArrRead ArrWf ArrSlice ValidityModel StatsModel.

(** * Run-end, encodings/runend/src/compress.rs *)

(** runend_encode_primitive, 71-94: the loop after the first element, with [last] and the 1-based [end_]. [!=] is the
    native comparison ([peq], which for floats is the IEEE one). *)
Fixpoint ree_loop (p : ptype) (last : Z) (end_ : nat) (l : list Z) : list Z * list Z :=
  match l with
  | [] => ([Z.of_nat end_], [last])
  | e :: r =>
      let rest := ree_loop p e (end_ + 1) r in
      if negb (peq p e last) then (Z.of_nat end_ :: fst rest, last :: snd rest) else rest
  end.
Definition ree_encode_primitive (p : ptype) (l : list Z) : list Z * list Z :=
  match l with [] => ([], []) | x :: r => ree_loop p x 1 r end.

(** RunEndArray::encode, runend/src/array.rs:118-125 with runend_encode, compress.rs:13-69 (the statistics it attaches are
    not modelled), and RunEndArray::try_new, array.rs:37-45. *)
Definition runend_encode (p : ptype) (l : list Z) (v : validity) : result array :=
  let values_validity := if vnullable v then VAllValid else VNonNull in
  let '(ends, vals) := ree_encode_primitive p l in
  let length := match ends with [] => 0 | _ => Z.to_nat (last ends 0%Z) end in
  try_runend (APrim U64 ends VNonNull) (APrim p vals values_validity) v 0 length.

(** The trimmed ends, compress.rs:138-141 (and runend-bool compress.rs:66-69): [E::from_usize] must succeed for the offset
    and the length, the subtraction panics on underflow. *)
Definition trim_ends (pe : ptype) (ends : list Z) (off len : nat) : result (list nat) :=
  if negb (in_rangeb pe (Z.of_nat off)) || negb (in_rangeb pe (Z.of_nat len)) then Panic
  else mapM (fun e => if in_rangeb pe (e - Z.of_nat off)
                      then Ok (Z.to_nat (Z.min (e - Z.of_nat off) (Z.of_nat len))) else Panic) ends.

(** The decoding loop, compress.rs:143-147: [zip_eq] panics when the lengths differ, [end - decoded.len()] on underflow. *)
Fixpoint ree_decode_loop {A} (acc : list A) (ends : list nat) (vals : list A) : result (list A) :=
  match ends, vals with
  | [], [] => Ok acc
  | e :: ends', x :: vals' =>
      if e <? length acc then Panic else ree_decode_loop (acc ++ repeat x (e - length acc)) ends' vals'
  | _, _ => Panic
  end.
(** runend_decode, compress.rs:96-148, on primitive ends and values; PrimitiveArray::from_vec panics on a validity of
    another length. *)
Definition runend_decode (pe : ptype) (ends : list Z) (p : ptype) (vals : list Z) (v : validity) (off len : nat)
  : result array :=
  do es <- trim_ends pe ends off len;
  do out <- ree_decode_loop [] es vals;
  if vfits v (length out) then Ok (APrim p out v) else Panic.

(** * Run-end booleans, encodings/runend-bool/src *)

(** BooleanBuffer::set_slices (arrow): maximal runs of set bits, as (start, end). *)
Fixpoint set_slices_from (pos : nat) (start : option nat) (l : list bool) : list (nat * nat) :=
  match l, start with
  | [], Some s => [(s, pos)]
  | [], None => []
  | true :: r, Some s => set_slices_from (S pos) (Some s) r
  | true :: r, None => set_slices_from (S pos) (Some pos) r
  | false :: r, Some s => (s, pos) :: set_slices_from (S pos) None r
  | false :: r, None => set_slices_from (S pos) None r
  end.
Definition set_slices (l : list bool) : list (nat * nat) := set_slices_from 0 None l.

(** runend_bool_encode_slice, compress.rs:16-43. *)
Definition reb_encode (l : list bool) : list Z * bool :=
  match set_slices l with
  | [] => ([Z.of_nat (length l)], false)
  | (s, e) :: rest =>
      let first_bool := s =? 0 in
      let ends := (if first_bool then [] else [s]) ++ e :: flat_map (fun se => [fst se; snd se]) rest in
      let ends := if last ends 0 =? length l then ends else ends ++ [length l] in
      (map Z.of_nat ends, first_bool)
  end.

(** value_at_index, compress.rs:77-83. *)
Definition value_at_index (idx : nat) (start : bool) : bool := if Nat.even idx then start else negb start.

(** A RunEndBoolArray, array.rs:14-60. *)
Record rebool := REBool { rb_ends : array; rb_start : bool; rb_v : validity; rb_off : nat; rb_len : nat }.

(** with_offset_and_size, array.rs:29-66 (the strict-sortedness statistic is taken to be exact). *)
Definition reb_new (ends : array) (start : bool) (v : validity) (len off : nat) : result rebool :=
  if negb (ssortedb (ints (logical ends))) then Err
  else if negb (uint_nonnull (adtype ends)) then Err
  else if alen ends =? 0 then Err
  else if negb (vfits v len) then Err
  else Ok (REBool ends start v off len).
(** try_new, array.rs:23-26: [ends.len() - 1] underflows on an empty array. *)
Definition reb_try_new (ends : array) (start : bool) (v : validity) : result rebool :=
  if alen ends =? 0 then Panic
  else do x <- scalar_at ends (alen ends - 1); do n <- to_usize x; reb_new ends start v n 0.

(** Encoding a boolean buffer and attaching the validity [v]: runend_bool_encode, compress.rs:11-14, then try_new. *)
Definition reb_encode_array (l : list bool) (v : validity) : result rebool :=
  let '(ends, start) := reb_encode l in reb_try_new (APrim U64 ends VNonNull) start v.

(** runend_bool_decode_slice, compress.rs:45-75. *)
Fixpoint reb_decode_loop (acc : list bool) (idx : nat) (start : bool) (ends : list nat) : result (list bool) :=
  match ends with
  | [] => Ok acc
  | e :: ends' =>
      if e <? length acc then Panic
      else reb_decode_loop (acc ++ repeat (value_at_index idx start) (e - length acc)) (S idx) start ends'
  end.
(** into_canonical, array.rs:133-146, when the ends are primitive; BoolArray::try_new checks the validity length. *)
Definition reb_decode (pe : ptype) (ends : list Z) (start : bool) (v : validity) (off len : nat) : result array :=
  do es <- trim_ends pe ends off len;
  do out <- reb_decode_loop [] 0 start es;
  if vfits v (length out) then Ok (ABool 0 out (length out) v) else Err.

(** find_physical_index, array.rs:68-71. *)
Definition reb_find (b : rebool) (i : nat) : result nat := runend_find (rb_ends b) (reads (rb_ends b)) (rb_off b) i.
(** compute::scalar_at on it: scalar_at.rs:12-27 and runend-bool/src/compute.rs:24-42. *)
Definition reb_scalar_at (b : rebool) (i : nat) : result value :=
  if rb_len b <=? i then Err
  else do ok <- vvalid_r (rb_v b) i;
       if ok then (do k <- reb_find b i; Ok (VBool (value_at_index k (rb_start b)))) else Ok VNull.
(** take, compute.rs:44-69, on decoded indices; the result is built by BoolArray::from, i.e. without validity. *)
Definition reb_take (b : rebool) (idx : list nat) : result array :=
  do ks <- mapM (fun i => if rb_len b <=? i then Err else reb_find b i) idx;
  let bs := map (fun k => value_at_index k (rb_start b)) ks in
  Ok (ABool 0 bs (length bs) VNonNull).
(** slice, compute.rs:71-85, after check_slice_bounds (compute/slice.rs:36-47). *)
Definition reb_slice (b : rebool) (i j : nat) : result rebool :=
  if slice_bad (rb_len b) i j then Err
  else
    do s <- reb_find b i;
    do e <- reb_find b j;
    do ends' <- slice (rb_ends b) s (e + 1);
    do v' <- vslice (rb_v b) s (e + 1);
    reb_new ends' (value_at_index s (rb_start b)) v' (j - i) i.
