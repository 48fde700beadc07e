(** Property C02 (slicing), and slices of slices. *)
From Verif Require Import Base Spec SearchModel SearchProofs Arr ArrRead ArrWf ArrReadProofs ArrSlice ArrSliceProofs ArrSliceMain.

(** C02. Slicing within bounds, for any nesting of encodings. The flags say when it cannot fail: [fs] excludes run-end
    arrays and chunked arrays without chunks anywhere in the tree; [fn] excludes nothing but asks the slice to be
    non-empty. Failure outside those cases is shown by the refuted theorems below. The sliced array has the right length,
    the same data type, exactly the elements i..j, and is again well-formed (so everything proved about well-formed
    arrays applies to it). *)
Theorem slice_commutes_with_decoding :
  forall (f : flags) (a : array) (i j : nat),
  wf f a -> i <= j -> j <= length (logical a) ->
  (fs f = true \/ (fn f = true /\ i < j)) ->
  exists b, slice a i j = Ok b /\ wf f b /\ adtype b = adtype a /\
    alen b = j - i /\ logical b = spec_slice (logical a) i j.
Proof.
  intros f a i j Hw Hij Hj HT. rewrite logical_length in Hj.
  pose proof (slice_correct a f i j Hw Hij Hj) as H. unfold outc in H.
  destruct (slice a i j) as [b| |]; [|contradiction (H HT)|contradiction (H HT)].
  exists b. pose proof (post_alen _ _ _ _ _ Hj H). destruct H as (W & L & D & _). auto.
Qed.
Print Assumptions slice_commutes_with_decoding.

(** Whatever the flags, a slice that succeeds is right (never wrong data). *)
Theorem slice_never_wrong :
  forall (f : flags) (a b : array) (i j : nat),
  wf f a -> slice a i j = Ok b ->
  i <= j /\ j <= length (logical a) /\ wf f b /\ adtype b = adtype a /\ logical b = spec_slice (logical a) i j.
Proof.
  intros f a b i j Hw E. rewrite logical_length.
  destruct (le_lt_dec i j); [|rewrite slice_out_of_bounds in E by lia; discriminate].
  destruct (le_lt_dec j (alen a)); [|rewrite slice_out_of_bounds in E by lia; discriminate].
  pose proof (slice_correct a f i j Hw ltac:(auto) ltac:(auto)) as H. rewrite E in H. destruct H as (W & L & D & _). auto.
Qed.
Print Assumptions slice_never_wrong.

(** Bad bounds are an error for every array, well-formed or not. *)
Theorem slice_bad_bounds_is_an_error :
  forall (a : array) (i j : nat), alen a < j \/ j < i -> slice a i j = Err.
Proof. exact slice_out_of_bounds. Qed.
Print Assumptions slice_bad_bounds_is_an_error.

(** Reading from a slice is reading from the array at the shifted position. *)
Theorem scalar_at_of_slice :
  forall (f : flags) (a b : array) (i j k : nat),
  wf f a -> slice a i j = Ok b -> k < j - i -> scalar_at b k = scalar_at a (i + k).
Proof.
  intros f a b i j k Hw E Hk. destruct (slice_never_wrong f a b i j Hw E) as (Hij & Hj & Wb & _ & L).
  rewrite logical_length in Hj.
  pose proof (f_equal (@length value) L) as LL. unfold spec_slice in LL. fold (lslice (logical a) i j) in LL.
  rewrite logical_length, lslice_length in LL by (rewrite logical_length; lia).
  unfold scalar_at. rewrite !rd_scalar_at_; try lia; [|eapply reads_ok; eauto|eapply reads_ok; eauto].
  rewrite L. unfold spec_slice. fold (lslice (logical a) i j). rewrite nth_lslice by lia. reflexivity.
Qed.
Print Assumptions scalar_at_of_slice.

(** A slice of a slice is the slice. *)
Theorem slice_of_slice :
  forall (f : flags) (a b c : array) (i j k l : nat),
  wf f a -> slice a i j = Ok b -> slice b k l = Ok c -> logical c = spec_slice (logical a) (i + k) (i + l).
Proof.
  intros f a b c i j k l Hw E1 E2. destruct (slice_never_wrong f a b i j Hw E1) as (Hij & Hj & Wb & _ & L).
  destruct (slice_never_wrong f b c k l Wb E2) as (Hkl & Hl & _ & _ & L2).
  rewrite L2, L. rewrite L in Hl. unfold spec_slice in *. fold (lslice (logical a) i j) in *.
  rewrite lslice_length in Hl by auto. apply lslice_lslice. lia.
Qed.
Print Assumptions slice_of_slice.

(** Exclusions, each a failing case of the code. A run-end array cannot be sliced at its very end, and one without runs
    (an empty array) panics. *)
Definition re_two : array := ARunEnd (APrim U32 [2%Z] VNonNull) (APrim I32 [7%Z] VNonNull) VNonNull 0 2.
Definition re_empty : array := ARunEnd (APrim U32 [] VNonNull) (APrim I32 [] VNonNull) VNonNull 0 0.
Theorem runend_slice_refuted :
  wf f0 re_two /\ slice re_two 2 2 = Err /\ wf f0 re_empty /\ slice re_empty 0 0 = Panic.
Proof.
  repeat split; try reflexivity; try (repeat constructor; cbn; lia); try (cbn; lia); try discriminate;
    try (eexists; split; reflexivity); try (repeat constructor; discriminate); try (intros y []); try (cbn; intuition discriminate).
Qed.
Print Assumptions runend_slice_refuted.

(** A chunked array without chunks cannot be sliced at all. *)
Theorem empty_chunked_slice_refuted :
  wf f0 (AChunked (DPrim I32 false) []) /\ slice (AChunked (DPrim I32 false) []) 0 0 = Err.
Proof. split; [cbn; intuition discriminate|reflexivity]. Qed.
Print Assumptions empty_chunked_slice_refuted.

(** Non-vacuity: a nullable chunked column mixing a sliced bit-packed chunk with patches, a dictionary over a
    frame-of-reference array, and a sparse chunk, sliced across all of them. *)
Definition fS : flags := Flags true true false false false false false false false false.
Definition bp_chunk : array :=
  ABitPacked U32 (repeat 3%Z 1024) 2 1 4 (VBits [true; true; false; true])
    (Some (ASparse (APrim U64 [7%Z] VNonNull) (APrim U32 [100%Z] VAllValid) 6 4 VNull)).
Definition dict_chunk : array :=
  ADict (APrim U8 [1%Z; 0%Z; 1%Z] VNonNull) (AFoR U32 (APrim U32 [0%Z; 5%Z] VAllValid) 10 0).
Definition sparse_chunk : array := ASparse (APrim U64 [3%Z] VNonNull) (APrim U32 [9%Z] VAllValid) 2 3 VNull.
Definition ex_chunked : array := AChunked (DPrim U32 true) [bp_chunk; dict_chunk; sparse_chunk].
Example ex_chunked_wf : wf fS ex_chunked.
Proof.
  assert (P : Forall (fun z => (0 <= z < 2 ^ 2)%Z) (repeat 3%Z 1024)) by (apply Forall_forall; intros z Hz; apply repeat_spec in Hz; lia).
  cbn [ex_chunked wf]. repeat split; try exact P; try reflexivity; try discriminate; try (eexists; split; reflexivity);
    try (repeat constructor; cbn; (lia || discriminate)); try (cbn; lia); try (intros; discriminate);
    try (cbn; intuition discriminate); try (cbn; intros; contradiction); try (eexists; reflexivity).
Qed.
Example ex_chunked_slice :
  option_map logical (match slice ex_chunked 1 9 with Ok b => Some b | _ => None end) =
  Some [VInt 100; VNull; VInt 3; VInt 15; VInt 10; VInt 15; VNull; VInt 9].
Proof. vm_compute. reflexivity. Qed.
