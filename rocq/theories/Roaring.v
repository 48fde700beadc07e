(** The roaring encodings (encodings/roaring): model and specification. *)
From Verif Require Import Base Spec Scalars SearchModel ValidityModel Arr ArrRead ArrWf ArrSlice StatsModel IntEnc ArrOps.

(** * croaring::Bitmap

    A third-party library (C). Modelled by its documented contract: a set of u32 values, here the strictly increasing list of its members.
    (De)serialisation of the bitmap into the array's buffer is taken to be lossless. *)
Definition bitmap := list Z.
Definition two32 : Z := (2 ^ 32)%Z.
(** [as u32]. *)
Definition as_u32 (z : Z) : Z := (z mod two32)%Z.
Fixpoint bm_add (x : Z) (m : bitmap) : bitmap :=
  match m with [] => [x] | y :: r => if (x <? y)%Z then x :: m else if (x =? y)%Z then m else y :: bm_add x r end.
(** Bitmap::extend on a new bitmap. *)
Definition bm_of (xs : list Z) : bitmap := fold_left (fun m x => bm_add x m) xs [].
(** select: the member of rank [i]. *)
Definition bm_select (m : bitmap) (i : Z) : option Z := nth_error m (Z.to_nat i).
Definition bm_contains (m : bitmap) (x : Z) : bool := existsb (Z.eqb x) m.
Definition bm_max (m : bitmap) : option Z := match m with [] => None | _ => Some (last m 0%Z) end.
(** m.and(Bitmap::from_range(lo..hi)); an inverted range is empty. *)
Definition bm_and_range (m : bitmap) (lo hi : Z) : bitmap := filter (fun x => (lo <=? x)%Z && (x <? hi)%Z) m.
(** add_offset: members shifted out of u32 are dropped. *)
Definition bm_offset (m : bitmap) (d : Z) : bitmap := filter (fun x => (0 <=? x)%Z && (x <? two32)%Z) (map (fun x => (x + d)%Z) m).
(** The number of 64-bit words of to_bitset: up to the one that holds the maximum, at least one. *)
Definition bm_words (m : bitmap) : nat := Z.to_nat (match bm_max m with Some x => x / 64 | None => 0 end) + 1.

(** * RoaringIntArray, integer/mod.rs *)

Record rint := RInt { ri_type : ptype; ri_bits : bitmap }.
Definition ri_len (a : rint) : nat := length (ri_bits a).
(** try_new, mod.rs:39-70. The statistics it computes are dropped (67). *)
Definition try_rint (m : bitmap) (p : ptype) : result rint :=
  if negb (is_unsigned p) then Err
  else if match bm_max m with Some x => (pmax p <? x)%Z | None => false end then Err
  else Ok (RInt p m).
(** roaring_int_encode, compress.rs:9-35, on the stored values, those of null rows too. *)
Definition rint_encode (a : array) : result rint :=
  match a with
  | APrim p l v =>
      if negb (is_unsigned p) then Err
      else do xs <- mapM (fun z => if (0 <=? z)%Z && (z <? two32)%Z then Ok z else Err) l; try_rint (bm_of xs) p
  | _ => Err
  end.
(** into_canonical, mod.rs:114-122. *)
Definition rint_decode (a : rint) : result array := try_cast (APrim U32 (ri_bits a) VNonNull) (DPrim (ri_type a) false).
(** scalar_at, compute.rs:21-40, behind the bounds check of compute/unary/scalar_at.rs. *)
Definition rint_scalar_at (a : rint) (i : nat) : result value :=
  if ri_len a <=? i then Err
  else match bm_select (ri_bits a) (as_u32 (Z.of_nat i)) with Some x => Ok (VInt (wrap (ri_type a) x)) | None => Err end.
(** slice, compute.rs:42-59, behind the checks of compute/slice.rs. *)
Definition rint_slice (a : rint) (i j : nat) : result rint :=
  if slice_bad (ri_len a) i j then Err
  else
    let m := ri_bits a in
    do lo <- (match bm_select m (as_u32 (Z.of_nat i)) with Some x => Ok x | None => Err end);
    do hi <- (if j =? ri_len a then Ok (match bm_max m with Some x => x | None => 0%Z end)
              else match bm_select m (as_u32 (Z.of_nat (j - 1))) with Some x => Ok x | None => Err end);
    try_rint (bm_and_range m lo (hi + 1)) (ri_type a).
(** No take or filter of its own: through the canonical array (compute/take.rs:26-32, compute/filter.rs:44-52). *)
Definition rint_take (a : rint) (ip : ptype) (idx : list nat) : result array := if is_int ip then do c <- rint_decode a; take c ip idx else Err.
Definition rint_filter (a : rint) (m : mask) : result array := do c <- rint_decode a; filter_array c m.
(** compute_statistics, mod.rs:134-146: those of a u32 array, whatever the type. *)
Definition rint_stats (a : rint) (k : stat) : stats :=
  match k with KTz | KBw | KRuns => prim_stats U32 (ri_bits a) VNonNull | _ => no_stats end.

(** * RoaringBoolArray, boolean/mod.rs *)

Record rbool := RBool { rb_bits : bitmap; rb_len : nat }.
(** try_new, mod.rs:37-67. *)
Definition try_rbool (m : bitmap) (n : nat) : result rbool := if n <? length m then Err else Ok (RBool m n).
(** The statistics set by the constructor, mod.rs:41-54. *)
Definition rbool_init_stats (a : rbool) : stats :=
  let c := length (rb_bits a) in
  Stats None None (Some ((c =? rb_len a) || (c =? 0))) None None (Some (false, VBool (0 <? c))) (Some (false, VBool (c =? rb_len a))) None (Some c) None.
(** roaring_bool_encode, compress.rs:7-14. The validity is ignored. *)
Definition rbool_encode (a : array) : result rbool :=
  match a with
  | ABool off buf len v => try_rbool (bm_of (map (fun i => as_u32 (Z.of_nat i)) (set_indices (lslice buf off (off + len))))) len
  | _ => Err
  end.
(** into_canonical, mod.rs:127-148: whole words, padded with zeros to the bytes of the length. *)
Definition rbool_decode (a : rbool) : result array :=
  let n := Nat.max (64 * bm_words (rb_bits a)) (8 * ((rb_len a + 7) / 8)) in
  Ok (ABool 0 (tab n (fun i => bm_contains (rb_bits a) (Z.of_nat i))) (rb_len a) VNonNull).
(** scalar_at, compute.rs:20-28, behind the bounds check. *)
Definition rbool_scalar_at (a : rbool) (i : nat) : result value :=
  if rb_len a <=? i then Err else Ok (VBool (bm_contains (rb_bits a) (as_u32 (Z.of_nat i)))).
(** slice, compute.rs:30-37. *)
Definition rbool_slice (a : rbool) (i j : nat) : result rbool :=
  if slice_bad (rb_len a) i j then Err
  else try_rbool (bm_offset (bm_and_range (rb_bits a) (as_u32 (Z.of_nat i)) (as_u32 (Z.of_nat j))) (- Z.of_nat i)) (j - i).
Definition rbool_take (a : rbool) (ip : ptype) (idx : list nat) : result array := if is_int ip then do c <- rbool_decode a; take c ip idx else Err.
Definition rbool_filter (a : rbool) (m : mask) : result array := do c <- rbool_decode a; filter_array c m.

(** RoaringBoolStatsAccumulator, stats.rs:46-93. *)
Record racc := RAcc { r_prev : bool; r_sorted : bool; r_runs : nat; r_len : nat }.
Definition racc_next (c : racc) (x : bool) : racc :=
  RAcc (if Bool.eqb x (r_prev c) then r_prev c else x) (if negb x && r_prev c then false else r_sorted c)
    (if Bool.eqb x (r_prev c) then r_runs c else r_runs c + 1) (r_len c + 1).
Definition racc_finish (card : nat) (c : racc) : stats :=
  Stats None None None (Some (r_sorted c)) (Some (r_sorted c && ((r_len c <? 2) || ((r_len c =? 2) && (card =? 1))))) None None (Some (r_runs c)) None None.
(** The first [n] bits of word [w] of the bitset. *)
Definition word_bits (m : bitmap) (w n : nat) : list bool := tab n (fun i => bm_contains m (Z.of_nat (64 * w + i))).
(** compute_statistics, stats.rs:9-44. [bitset_slice[0..whole_chunks]] and [bitset_slice[whole_chunks]] panic when the bitset is shorter. *)
Definition rbool_stats (a : rbool) : result stats :=
  if rb_len a =? 0 then Ok no_stats
  else
    let m := rb_bits a in
    let whole := rb_len a / 64 in
    if bm_words m <=? whole then Panic
    else
      let c0 := RAcc (bm_contains m 0) true 1 0 in
      let c1 := fold_left (fun c w => fold_left racc_next (word_bits m w 64) c) (seq 0 whole) c0 in
      Ok (racc_finish (length m) (fold_left racc_next (word_bits m whole (rb_len a mod 64)) c1)).

(** * Specification *)

(** A bitmap: strictly increasing, within u32. *)
Definition bitmap_ok (m : bitmap) : Prop := ssortedZ m /\ Forall (fun x => (0 <= x < two32)%Z) m.
(** The rows of an integer array: the members in order. *)
Definition rint_rows (a : rint) : list value := map VInt (ri_bits a).
Definition rint_ok (a : rint) : Prop := bitmap_ok (ri_bits a) /\ is_unsigned (ri_type a) = true /\ Forall (in_range (ri_type a)) (ri_bits a).
(** The rows of a boolean array: row [i] tells whether [i] is a member. *)
Definition rbool_rows (a : rbool) : list value := tab (rb_len a) (fun i => VBool (bm_contains (rb_bits a) (Z.of_nat i))).
Definition rbool_ok (a : rbool) : Prop := bitmap_ok (rb_bits a) /\ Forall (fun x => (x < Z.of_nat (rb_len a))%Z) (rb_bits a).
