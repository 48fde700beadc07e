(** Non-vacuity of C03-C06 and the failing cases of the code that their classes exclude. *)
From Verif Require Import Base Spec SearchModel SearchProofs Arr ArrRead ArrWf ArrReadProofs ArrSearchProofs ArrSlice ArrSliceProofs ArrSliceMain
  ValidityModel PropValidity IntEnc PropIntEnc RunEnc PropRunEnc PropUnary PropDict ArrOps OpsBase OpsFlat OpsTake OpsChunked OpsFilter OpsMain PropRead PropSlice PropOps.

(** * Concrete arrays meeting the hypotheses *)
Definition rows (r : result array) : option (list value) := match r with Ok b => Some (logical b) | _ => None end.
Ltac wf_tac := cbn [wf]; repeat split; try reflexivity; try discriminate; try (eexists; split; reflexivity);
    try (repeat constructor; cbn; (lia || discriminate)); try (cbn; lia); try (intros; discriminate);
    try (cbn; intuition discriminate); try (cbn; intros; contradiction); try (eexists; reflexivity).

(** Everything allowed (results are right whenever there is one): a nullable column in four chunks, a sliced bit-packed
    chunk with patches, a dictionary over a frame-of-reference array, a sparse chunk, a sliced run-end chunk. *)
Definition f_any : flags := Flags false true true true true true false false false false.
Definition dict2 : array :=
  ADict (APrim U8 [1%Z; 0%Z; 1%Z] VNonNull) (AFoR U32 (APrim U32 [0%Z; 5%Z] (VBits [false; true])) 10 0).
Definition re2 : array := ARunEnd (APrim U32 [2%Z; 5%Z] VNonNull) (APrim U32 [7%Z; 8%Z] VAllValid) (VBits [true; false; true]) 1 3.
Definition ex_mixed : array := AChunked (DPrim U32 true) [bp_chunk; dict2; sparse_chunk; re2].
Example ex_mixed_wf : wf f_any ex_mixed.
Proof.
  assert (P : Forall (fun z => (0 <= z < 2 ^ 2)%Z) (repeat 3%Z 1024)) by (apply Forall_forall; intros z Hz; apply repeat_spec in Hz; lia).
  cbn [ex_mixed wf]. wf_tac; try exact P.
  all: try (left; split; [reflexivity|repeat constructor; discriminate]).
  all: destruct i as [|[|[|i]]]; cbn in *; try discriminate; try reflexivity; try lia.
Qed.
Example ex_mixed_rows : logical ex_mixed =
  [VInt 3; VInt 100; VNull; VInt 3; VInt 15; VNull; VInt 15; VNull; VInt 9; VNull; VInt 7; VNull; VInt 8].
Proof. vm_compute. reflexivity. Qed.
Example ex_mixed_pipeline :
  rows (run [SSlice 1 12; STake U64 [9; 0; 4; 4; 7]; SFilter [true; true; false; true; true]] ex_mixed) =
  Some [VInt 7; VInt 100; VNull; VInt 9].
Proof. vm_compute. reflexivity. Qed.

(** Take, filter and decoding cannot fail: a struct of a bit-packed column with patches, a sparse column and a run-end one. *)
Definition f_total : flags := Flags false true true true true true true true true false.
Definition ex_struct : array :=
  AStruct [1; 2; 3] [bp_chunk; ASparse (APrim U64 [3%Z] VNonNull) (APrim I16 [(-9)%Z] VAllValid) 2 4 VNull;
                     ARunEnd (APrim U8 [2%Z; 5%Z] VNonNull) (APrim F32 [7%Z; 8%Z] VNonNull) VNonNull 1 4] 4 (VBits [true; true; false; true]).
Example ex_struct_wf : wf f_total ex_struct.
Proof.
  assert (P : Forall (fun z => (0 <= z < 2 ^ 2)%Z) (repeat 3%Z 1024)) by (apply Forall_forall; intros z Hz; apply repeat_spec in Hz; lia).
  cbn [ex_struct wf]. wf_tac; try exact P.
  all: try (left; split; [reflexivity|repeat constructor; discriminate]); try (right; reflexivity); try (left; reflexivity).
Qed.
Example ex_struct_pipeline :
  rows (run [SSlice 0 3; STake I8 [2; 1; 0; 0]; SFilter [true; true; false; true]] ex_struct) =
  Some [VNull; VStruct [VInt 100; VInt (-9); VInt 8]; VStruct [VInt 3; VNull; VInt 7]].
Proof. vm_compute. reflexivity. Qed.

(** ... and for chunked arrays, with non-empty u64 indices. *)
Definition f_chunks : flags := Flags true true true true true true false true true false.
Definition ex_chunks : array := AChunked (DPrim U32 true) [APrim U32 [1%Z; 2%Z] VAllValid; dict2; APrim U32 [] VAllInvalid].
Example ex_chunks_wf : wf f_chunks ex_chunks.
Proof.
  cbn [ex_chunks wf]. wf_tac.
  all: try (right; reflexivity); try (left; reflexivity).
  all: destruct i as [|[|[|i]]]; cbn in *; try discriminate; try reflexivity; try lia.
Qed.
Example ex_chunks_take : rows (take ex_chunks U64 [4; 0; 3; 1]) = Some [VInt 15; VInt 1; VNull; VInt 2].
Proof. vm_compute. reflexivity. Qed.

(** Strings: dictionary and plain. *)
Definition f_str : flags := Flags true true true true true true true true true true.
Definition strs : array := AView true [VInl [104%Z; 105%Z]; VRef 13 [97%Z; 97%Z; 97%Z; 97%Z] 0 1] [repeat 97%Z 14] VNonNull.
Example ex_str_wf : wf f_str (ADict (APrim U16 [1%Z; 0%Z; 1%Z] VNonNull) strs).
Proof.
  cbn [strs wf]. wf_tac.
  all: try (constructor; [cbn; lia|constructor; [cbn; repeat split; lia|constructor]]).
  all: intros _ s H; cbn in H; destruct H as [E|[E|[]]]; injection E as <-; reflexivity.
Qed.
Example ex_str_take : rows (take (ADict (APrim U16 [1%Z; 0%Z; 1%Z] VNonNull) strs) U8 [2; 1]) = Some [VBytes (repeat 97%Z 13); VBytes [104%Z; 105%Z]].
Proof. vm_compute. reflexivity. Qed.

(** * Failing cases *)

(** [fc], decoding is wrong: *)
(** a sparse boolean array with a non-null fill value decodes the fill positions to null; *)
Definition sparse_bool : array := ASparse (APrim U64 [1%Z] VNonNull) (ABool 0 [true] 1 VNonNull) 0 3 (VBool false).
Theorem sparse_bool_canonical_refuted :
  wf f0 sparse_bool /\ logical sparse_bool = [VBool false; VBool true; VBool false] /\
  rows (canon sparse_bool) = Some [VNull; VBool true; VNull].
Proof. split; [cbn [sparse_bool]; wf_tac|]. split; vm_compute; reflexivity. Qed.
Print Assumptions sparse_bool_canonical_refuted.
(** a null patch value decodes to the bytes under the null, and a sparse array with non-null fill loses its nulls and type; *)
Definition sparse_nullpatch : array := ASparse (APrim U64 [1%Z] VNonNull) (APrim I32 [7%Z] VAllInvalid) 0 2 VNull.
Theorem sparse_null_patch_canonical_refuted :
  wf f0 sparse_nullpatch /\ logical sparse_nullpatch = [VNull; VNull] /\ rows (canon sparse_nullpatch) = Some [VNull; VInt 7].
Proof. split; [cbn [sparse_nullpatch]; wf_tac|]. split; vm_compute; reflexivity. Qed.
Print Assumptions sparse_null_patch_canonical_refuted.
Definition sparse_fill : array := ASparse (APrim U64 [1%Z] VNonNull) (APrim I32 [7%Z] VAllInvalid) 0 2 (VInt 4).
Theorem sparse_fill_canonical_refuted :
  wf f0 sparse_fill /\ logical sparse_fill = [VInt 4; VNull] /\ rows (canon sparse_fill) = Some [VInt 4; VInt 7] /\
  rmap lbuf (logical_validity sparse_fill) = Ok [false; false].
Proof. split; [cbn [sparse_fill]; wf_tac|]. split; [|split]; vm_compute; reflexivity. Qed.
Print Assumptions sparse_fill_canonical_refuted.
(** a binary array that is not UTF-8 loses its values (and always becomes a string array). *)
Definition bin : array := AVarBin false (APrim I32 [0%Z; 1%Z; 2%Z] VNonNull) [255%Z; 65%Z] VAllValid.
Theorem binary_canonical_refuted :
  wf f0 bin /\ logical bin = [VBytes [255%Z]; VBytes [65%Z]] /\ adtype bin = DBinary true /\
  exists c, canon bin = Ok c /\ logical c = [VNull; VBytes [65%Z]] /\ adtype c = DUtf8 true.
Proof. split; [cbn [bin]; wf_tac|]. split; [reflexivity|]. split; [reflexivity|]. eexists. split; [vm_compute; reflexivity|]. split; reflexivity. Qed.
Print Assumptions binary_canonical_refuted.

(** [fC], decoding fails: constants of null, struct or extension type; chunks that are null constants of a struct type. *)
Theorem constant_canonical_refuted :
  wf f0 (AConst DNull VNull 2) /\ canon (AConst DNull VNull 2) = Err /\
  wf f0 (AConst (DStruct [1] [DBool false] false) (VStruct [VBool true]) 2) /\
  canon (AConst (DStruct [1] [DBool false] false) (VStruct [VBool true]) 2) = Err /\
  wf f0 (AChunked (DStruct [1] [DBool false] true) [AConst (DStruct [1] [DBool false] true) VNull 2]) /\
  canon (AChunked (DStruct [1] [DBool false] true) [AConst (DStruct [1] [DBool false] true) VNull 2]) = Err.
Proof. repeat split; try discriminate; try reflexivity. Qed.
Print Assumptions constant_canonical_refuted.

(** [ft], take is wrong: a bit-packed array with patches of at least 512 rows, when at least 64 rows per block are taken: the
    patch lands on the last row of the output instead of the first. *)
Definition bp_patched : array :=
  ABitPacked U32 (repeat 0%Z 1024) 1 0 512 VAllValid
    (Some (ASparse (APrim U64 [0%Z] VNonNull) (APrim U32 [100%Z] VAllValid) 0 512 VNull)).
Theorem bitpacked_take_refuted :
  wf f_dec bp_patched /\ Forall (fun i => i < length (logical bp_patched)) (seq 0 64) /\
  pick (logical bp_patched) (seq 0 64) = VInt 100 :: repeat (VInt 0) 63 /\
  rows (take bp_patched U64 (seq 0 64)) = Some (repeat (VInt 0) 63 ++ [VInt 100]).
Proof.
  assert (P : Forall (fun z => (0 <= z < 2 ^ 1)%Z) (repeat 0%Z 1024)) by (apply Forall_forall; intros z Hz; apply repeat_spec in Hz; lia).
  split; [cbn [bp_patched]; wf_tac; try exact P; try (left; split; [reflexivity|repeat constructor; discriminate])|].
  split; [rewrite logical_length; apply Forall_forall; intros i Hi; apply in_seq in Hi; cbn; lia|].
  split; vm_compute; reflexivity.
Qed.
Print Assumptions bitpacked_take_refuted.

(** [fT], take fails: on a chunked array with no indices (panic), or when a chunk boundary does not fit the index type (error);
    on a variable-length binary array when the taken bytes exceed the offset type (panic); on nullable string chunks, because
    take drops the nullability of a chunk in which no null was selected (error). *)
Definition chunks2 : array := AChunked (DPrim I32 false) [APrim I32 (repeat 1%Z 200) VNonNull; APrim I32 [2%Z] VNonNull].
Theorem chunked_take_refuted :
  wf f_dec chunks2 /\ take chunks2 U64 [] = Panic /\ take chunks2 I8 [0; 1] = Err.
Proof.
  assert (P : Forall (in_range I32) (repeat 1%Z 200)) by (apply Forall_forall; intros z Hz; apply repeat_spec in Hz; subst z; split; cbv; discriminate).
  split; [cbn [chunks2]; wf_tac; try exact P; left; reflexivity|]. split; vm_compute; reflexivity.
Qed.
Print Assumptions chunked_take_refuted.
Definition vb_u8 : array := AVarBin true (APrim U8 [0%Z; 200%Z] VNonNull) (repeat 97%Z 200) VNonNull.
Theorem varbin_take_refuted : wf f_dec vb_u8 /\ take vb_u8 U64 [0; 0] = Panic.
Proof.
  split; [|vm_compute; reflexivity]. cbn [vb_u8]. wf_tac.
  intros _ s H. destruct H as [E|[]]; injection E as <-; vm_compute; reflexivity.
Qed.
Print Assumptions varbin_take_refuted.
Definition nstrs : array := AChunked (DUtf8 true) [AView true [VInl [97%Z]; VInl []] [] (VBits [true; false])].
Theorem string_take_refuted :
  wf f_dec nstrs /\ take nstrs U64 [0] = Err /\
  exists b, take (AView true [VInl [97%Z]; VInl []] [] (VBits [true; false])) U64 [0] = Ok b /\ adtype b = DUtf8 false.
Proof.
  split; [cbn [nstrs]; wf_tac; try (left; reflexivity)|].
  - intros _ s H. destruct H as [E|[E|[]]]; [injection E as <-; reflexivity|discriminate].
  - split; [vm_compute; reflexivity|]. eexists. split; vm_compute; reflexivity.
Qed.
Print Assumptions string_take_refuted.

(** Out-of-range indices are not always reported: strictly increasing indices, as many as the chunked array is long, return
    the array itself. *)
Theorem chunked_take_out_of_range_refuted :
  rows (take (AChunked (DPrim I32 false) [APrim I32 [1%Z; 2%Z] VNonNull]) U64 [5; 9]) = Some [VInt 1; VInt 2].
Proof. vm_compute. reflexivity. Qed.
Print Assumptions chunked_take_out_of_range_refuted.

(** [fF], filter fails on extension arrays. *)
Theorem extension_filter_refuted : wf f_dec (AExt (EOther 7) (APrim I32 [1%Z] VNonNull)) /\ filter_array (AExt (EOther 7) (APrim I32 [1%Z] VNonNull)) (mask_of [true]) = Err.
Proof. split; [wf_tac|reflexivity]. Qed.
Print Assumptions extension_filter_refuted.

(** A mask that does not start at bit 0 of its buffer (a slice of a boolean array) selects the wrong rows of a chunked array:
    the mask reads false, true but the first row is returned. *)
Theorem sliced_mask_filter_refuted :
  mbits (Mask 1 [true; false; true] 2) = [false; true] /\
  rows (filter_array (AChunked (DPrim I32 false) [APrim I32 [1%Z; 2%Z] VNonNull]) (Mask 1 [true; false; true] 2)) = Some [VInt 1].
Proof. split; vm_compute; reflexivity. Qed.
Print Assumptions sliced_mask_filter_refuted.

(** Taking from a run-end array whose ends are bit-packed with patches is wrong: the batch search over bit-packed ends
    (search_sorted_u64_many, bitpacking/compute/search_sorted.rs:60-79) never looks at the patches. Row 9 is 14, take
    returns 13. Arrays of this shape are what the compressor builds when one run end does not fit the bit width, so
    C12 asks for run ends without patches ([ss64_ok]). *)
Definition patched_ends : array :=
  ABitPacked U16 ([1; 3; 1; 2] ++ repeat 0 1020)%Z 2 0 4 VNonNull
    (Some (ASparse (APrim U64 [2; 3]%Z VNonNull) (APrim U16 [9; 10]%Z VAllValid) 0 4 VNull)).
Definition runend_patched : array := ARunEnd patched_ends (APrim I32 [11; 12; 13; 14]%Z VNonNull) VNonNull 0 10.
Lemma patched_ends_wf f : fT f = false -> fN f = false -> fF f = false -> wf f patched_ends.
Proof.
  intros F1 F2 F3. cbn [patched_ends wf]. rewrite F1, F2, F3.
  assert (Forall (fun z => (0 <= z < 2 ^ 2)%Z) ([1; 3; 1; 2] ++ repeat 0 1020)%Z) as F.
  { apply Forall_app. split; [repeat constructor; lia|]. apply Forall_forall. intros x Hx. apply repeat_spec in Hx. lia. }
  split; [reflexivity|]. split; [cbn; lia|]. split; [lia|]. split; [reflexivity|]. split; [exact F|]. split; [exact I|]. split; [|intros [X|[X|X]]; discriminate X].
  split.
  { split; [split; [repeat constructor; vm_compute; congruence|exact I]|]. split; [split; [repeat constructor; vm_compute; congruence|exact I]|].
    split; [reflexivity|]. split; [reflexivity|]. split; [split; [exact I|intros _ z; discriminate]|].
    split; [cbn; intuition lia|]. split; [repeat constructor; cbn; lia|]. split; [vm_compute; congruence|]. split; [reflexivity|]. split; [reflexivity|].
    assert (non_null (logical (APrim U16 [9; 10]%Z VAllValid))) as NN by (repeat constructor; discriminate).
    split; [intros _; split; [reflexivity|left; split; [reflexivity|exact NN]]|].
    split; [intros _ _; split; [reflexivity|exact NN]|]. cbn [sliceable fT fN fF]. intros [X|[X|X]]; discriminate X. }
  split; [reflexivity|]. split; [reflexivity|]. split; [intros _; lia|]. split; [reflexivity|]. split; [discriminate|].
  split; [repeat constructor; discriminate|]. exists true. reflexivity.
Qed.
Theorem runend_take_patched_ends_refuted :
  wf f0 runend_patched /\
  map (scalar_at runend_patched) [8; 9] = [Ok (VInt 13); Ok (VInt 14)] /\
  (do b <- take runend_patched U64 [8; 9]; Ok (logical b)) = Ok [VInt 13; VInt 13].
Proof.
  split; [|split; reflexivity]. unfold runend_patched. cbn [wf].
  split; [apply patched_ends_wf; reflexivity|]. split; [split; [repeat constructor; vm_compute; congruence|exact I]|].
  split; [exists U16; split; reflexivity|]. split; [reflexivity|].
  split; [split; [split; repeat constructor; cbn; lia|exact I]|].
  assert (ints (logical patched_ends) = [1; 3; 9; 10]%Z) as -> by reflexivity.
  split; [cbn; intuition lia|]. split; [repeat constructor; discriminate|]. split; [reflexivity|]. split; [exact I|]. split; [reflexivity|].
  split; [cbn [last]; lia|]. split; [reflexivity|]. split; [discriminate|]. split; [discriminate|]. split; [discriminate|]. intros [X|[X|X]]; discriminate X.
Qed.
Print Assumptions runend_take_patched_ends_refuted.
