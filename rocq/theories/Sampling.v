(** The samples the compressor looks at, vortex-sampling-compressor/src/sampling.rs and lib.rs:335-352.

    [usize] values are natural numbers: nothing computed here exceeds the length of the array (see [partition_covers]), except the
    number of samples, which the code computes in [u16]; overflow there is a panic, as in a build with overflow checks (a release build
    wraps; see [sampling_overflow_refuted]). *)
From Verif Require Import Base Spec Arr ArrRead ArrSlice ArrOps.

(** [(a..b).step_by(s)], core::iter: panics if [s] is 0. *)
Definition step_range (a b s : nat) : result (list nat) :=
  if s =? 0 then Panic else Ok (map (fun k => a + k * s) (seq 0 ((b - a + s - 1) / s))).

(** partition_indices, sampling.rs:37-52. *)
Definition partition_indices (len parts : nat) : result (list (nat * nat)) :=
  if parts =? 0 then Panic  (* remainder by zero *)
  else
    let num_long := len mod parts in
    let short_step := len / parts in
    let long_step := short_step + 1 in
    let long_stop := num_long * long_step in
    do long <- step_range 0 long_stop long_step;
    do short <- step_range long_stop len short_step;
    Ok (map (fun off => (off, off + long_step)) long ++ map (fun off => (off, off + short_step)) short).

(** The product of two [u16]s, checked. *)
Definition mul_u16 (x y : nat) : result nat := if (Z.of_nat x * Z.of_nat y <=? pmax U16)%Z then Ok (x * y) else Panic.

(** [rng.gen_range(lo..=hi)]: the k-th draw of the generator is an arbitrary number, reduced to the range. *)
Definition gen_range (draw : nat -> nat) (k lo hi : nat) : nat := lo + draw k mod (hi - lo + 1).

(** One slice, sampling.rs:24-31. *)
Definition pick_slice (draw : nat -> nat) (kps : nat * (nat * nat * nat)) : result (nat * nat) :=
  let '(k, ((start, stop), sz)) := kps in
  if stop - start <? sz then Panic
  else let s := gen_range draw k start (stop - sz) in Ok (s, s + sz).

(** stratified_slices, sampling.rs:4-33. *)
Definition stratified_slices (draw : nat -> nat) (len size count : nat) : result (list (nat * nat)) :=
  do total <- mul_u16 count size;
  if len <=? total then Ok [(0, len)]
  else
    do parts <- partition_indices len count;
    do samples <- partition_indices total count;
    let sizes := map (fun r => snd r - fst r) samples in
    mapM (pick_slice draw) (combine (seq 0 (length parts)) (combine parts sizes)).

(** Taking the sample, lib.rs:341-352 (reached when the array is longer than sample_size * sample_count, in usize, lib.rs:335). *)
Definition take_sample (draw : nat -> nat) (size count : nat) (a : array) : result array :=
  do ss <- stratified_slices draw (alen a) size count;
  do cs <- mapM (fun r => slice a (fst r) (snd r)) ss;
  do c <- try_chunked cs (adtype a);
  canon c.
