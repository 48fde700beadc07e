(** Properties C01 (random access) and C08 (search_sorted on encoded arrays).
    Property theorems only, each closed by [exact] or a one-line combination. *)
From Verif Require Import Base Spec SearchModel SearchProofs Arr ArrRead ArrWf ArrReadProofs ArrSearchProofs.

(** C01. For every well-formed array - any nesting of the modelled encodings, any lengths - scalar_at at an in-range index
    returns exactly the array's element there (null included), is_valid says whether it is null, and scalar_at at any index
    beyond the end is an error, never a panic or a wrong value. *)
Theorem scalar_at_is_the_element :
  forall (f : flags) (a : array), wf f a ->
  (forall i, i < length (logical a) -> scalar_at a i = Ok (nth i (logical a) VNull)) /\
  (forall i, i < length (logical a) -> is_valid a i = Ok (negb (is_null (nth i (logical a) VNull)))) /\
  (forall i, length (logical a) <= i -> scalar_at a i = Err).
Proof.
  intros f a Hw. rewrite logical_length. destruct (reads_ok a f Hw) as [Hr _]. split; [|split].
  - intros i Hi. apply rd_scalar_at_; auto.
  - apply Hr.
  - intros i Hi. unfold scalar_at, scalar_at_. destruct (Nat.leb_spec (alen a) i); [reflexivity|lia].
Qed.
Print Assumptions scalar_at_is_the_element.

(** The elements have the array's data type. *)
Theorem elements_are_typed :
  forall (f : flags) (a : array), wf f a -> Forall (vtyped (adtype a)) (logical a).
Proof. exact (fun f a => vtyped_logical a f). Qed.
Print Assumptions elements_are_typed.

(** Unchecked access at valid positions of arrays without nested fields. *)
Theorem scalar_at_unchecked_is_the_element :
  forall (f : flags) (a : array) i, wf f a -> i < length (logical a) -> nth i (logical a) VNull <> VNull ->
  flat (adtype a) = true -> scalar_at_unchecked a i = Ok (nth i (logical a) VNull).
Proof. intros f a i Hw Hi. rewrite logical_length in Hi. apply (reads_ok a f Hw); auto. Qed.
Print Assumptions scalar_at_unchecked_is_the_element.

(** The restriction on nested data is needed: a dictionary of structs reads its values unchecked, so a null field of the
    value is read as whatever bytes lie under the null. The value at index 0 is {1: null} but scalar_at returns {1: 7}. *)
Definition dict_of_structs : array :=
  ADict (APrim U8 [0%Z] VNonNull) (AStruct [1] [APrim I32 [7%Z] (VBits [false])] 1 VNonNull).
Theorem scalar_at_dict_of_structs_refuted :
  nth 0 (logical dict_of_structs) VNull = VStruct [VNull] /\
  scalar_at dict_of_structs 0 = Ok (VStruct [VInt 7]).
Proof. split; reflexivity. Qed.
Print Assumptions scalar_at_dict_of_structs_refuted.

(** C08. [ss_ok] lists the arrays whose search_sorted is exact: everything without its own search; primitive arrays;
    frame-of-reference whose values do not wrap (any shift if unsigned); bit-packed without patches, or with the patches the
    encoder produces over any such values; constants. An empty constant wrongly reports its own value ([cval]) as present.
    On a sorted integer array (nulls last) of one of these encodings, whatever is nested inside, search_sorted gives
    the insertion point computed on the decoded values. *)
Theorem encoded_search_sorted :
  forall (f : flags) (a : array) p n (v : Z) (s : side),
  wf f a -> ss_ok a -> alen a <> 0 \/ cval a <> Some v -> adtype a = DPrim p n -> is_int p = true -> in_range p v ->
  sorted_nl (map zopt (logical a)) ->
  search_sorted a v s = Ok (spec_search (map (fun x => cmp_null_last x v) (map zopt (logical a))) s).
Proof.
  intros f a p n v s Hw Hss Hc Hd Hp Hv Hs. destruct (reads_ok a f Hw) as [_ Hse]. exact (se_full a p n Hse Hss Hd Hp Hs v s Hv Hc).
Qed.
Print Assumptions encoded_search_sorted.

(** The insertion point itself is right even for an empty constant. *)
Theorem encoded_search_position :
  forall (f : flags) (a : array) p n (v : Z) (s : side),
  wf f a -> ss_ok a -> adtype a = DPrim p n -> is_int p = true -> in_range p v ->
  sorted_nl (map zopt (logical a)) ->
  exists r, search_sorted a v s = Ok r /\
    to_index r = to_index (spec_search (map (fun x => cmp_null_last x v) (map zopt (logical a))) s).
Proof.
  intros f a p n v s Hw Hss Hd Hp Hv Hs. destruct (reads_ok a f Hw) as [_ Hse].
  destruct (Hse Hss p n Hd Hp Hs v s Hv) as (r & E & I & _). eauto.
Qed.
Print Assumptions encoded_search_position.

(** ... hence it agrees with search_sorted on the decoded primitive array. *)
Theorem encoded_search_agrees_with_decoded :
  forall (f : flags) (a : array) p (v : Z) (s : side),
  wf f a -> ss_ok a -> alen a <> 0 \/ cval a <> Some v -> adtype a = DPrim p false -> is_int p = true -> in_range p v ->
  sortedZ (ints (logical a)) ->
  search_sorted a v s = search_sorted_list (ints (logical a)) v s.
Proof.
  intros f a p v s Hw Hx Hc Hd Hp Hv Hs.
  assert (map zopt (logical a) = map Some (ints (logical a))) as E.
  { apply nonnull_zopt with (p := p). rewrite <- Hd. eapply vtyped_logical; eauto. }
  rewrite (encoded_search_sorted f a p false v s) by
    (auto; rewrite E; exists (ints (logical a)), 0; cbn; rewrite app_nil_r; auto).
  rewrite search_sorted_list_correct by exact Hs. rewrite E, map_map. reflexivity.
Qed.
Print Assumptions encoded_search_agrees_with_decoded.

(** Outside that class the unchanged code does give wrong answers. *)

(** Frame of reference with wrap-around: the array is the sorted [-128, 126] (i8) and 127 belongs at the end (2), but the
    encoded search answers 0. *)
Definition for_wrapping : array := AFoR I8 (APrim U8 [0; 127]%Z VNonNull) (-128) 1.
Theorem for_search_sorted_refuted :
  wf f0 for_wrapping /\ logical for_wrapping = [VInt (-128); VInt 126] /\
  search_sorted for_wrapping 127 Left = Ok (NotFound 0) /\
  search_sorted_list [-128; 126]%Z 127 Left = Ok (NotFound 2).
Proof.
  split; [|repeat split; reflexivity]. cbn. repeat split; try lia; try (exists false; reflexivity);
    repeat constructor; vm_compute; congruence.
Qed.
Print Assumptions for_search_sorted_refuted.

(** Sparse: the fill value is never searched. [0, 0, 5] contains 0 at position 0, the search says it is missing. *)
Definition sparse_tail : array := ASparse (APrim U64 [2%Z] VNonNull) (APrim I32 [5%Z] VNonNull) 0 3 (VInt 0).
Theorem sparse_search_sorted_refuted :
  wf f0 sparse_tail /\ logical sparse_tail = [VInt 0; VInt 0; VInt 5] /\
  search_sorted sparse_tail 0 Left = Ok (NotFound 2) /\
  search_sorted_list [0; 0; 5]%Z 0 Left = Ok (Found 0).
Proof.
  split; [|repeat split; reflexivity]. cbn. repeat split; try lia; try congruence; try contradiction;
    repeat constructor; try (vm_compute; congruence); intros; (contradiction || intuition discriminate).
Qed.
Print Assumptions sparse_search_sorted_refuted.

(** Empty constant: reports a match at position 0 of an empty array. *)
Theorem empty_constant_search_sorted_refuted :
  search_sorted (AConst (DPrim I32 false) (VInt 3) 0) 3 Left = Ok (Found 0) /\
  search_sorted_list [] 3 Left = Ok (NotFound 0).
Proof. split; reflexivity. Qed.
Print Assumptions empty_constant_search_sorted_refuted.

(** Bit-packed batch search truncates the searched value: in the u8 array [1, 2] the value 257 belongs at the end. *)
Definition bp_u8 : array := ABitPacked U8 (1 :: 2 :: repeat 0 1022)%Z 2 0 2 VNonNull None.
Theorem bitpacked_search_u64_many_refuted :
  logical bp_u8 = [VInt 1; VInt 2] /\
  search_sorted_u64_many bp_u8 257 Left = Ok (Found 0) /\
  search_sorted_u64 bp_u8 257 Left = Ok (NotFound 2).
Proof. repeat split; reflexivity. Qed.
Print Assumptions bitpacked_search_u64_many_refuted.

(** * Concrete arrays meeting the hypotheses *)

(** Nullable strings: a chunk that is a dictionary with frame-of-reference codes over offset-encoded strings,
    and a chunk of views. *)
Definition ex_strings : array :=
  AChunked (DUtf8 true)
    [ ADict (AFoR U8 (APrim U8 [0; 1; 2; 0]%Z VNonNull) 0 0)
            (AVarBin true (APrim I32 [0; 2; 2; 5]%Z VNonNull) [104; 105; 121; 111; 117]%Z (VBits [true; false; true]));
      AView true [VInl [97]%Z; VRef 13 [98; 98; 98; 98]%Z 0 1] [repeat 98%Z 20] (VBits [true; true]) ].
Example ex_strings_wf : wf f0 ex_strings.
Proof.
  cbn. unfold f0. cbn. repeat split; try lia; try congruence; try discriminate;
    try (exists I32; split; reflexivity); try (exists U8; split; reflexivity); try (exists false; reflexivity);
    repeat constructor; try (vm_compute; congruence); try (intros; intuition (subst; try discriminate; try lia)).
  all: match goal with H : VBytes _ = VBytes _ |- _ => injection H as <-; reflexivity end.
Qed.
Example ex_strings_reads :
  map (scalar_at ex_strings) [0; 1; 2; 5; 6] =
  [Ok (VBytes [104; 105]%Z); Ok VNull; Ok (VBytes [121; 111; 117]%Z); Ok (VBytes (repeat 98%Z 13)); Err].
Proof. reflexivity. Qed.

(** Sorted, nullable, bit-packed with patches. *)
Definition ex_patched : array :=
  ABitPacked U16 ([1; 3; 1; 2] ++ repeat 0 1020)%Z 2 0 5 (VBits [true; true; true; true; false])
    (Some (ASparse (APrim U64 [2; 3]%Z VNonNull) (APrim U16 [9; 10]%Z VAllValid) 0 5 VNull)).
Example ex_patched_ok : wf f0 ex_patched /\ ss_ok ex_patched /\ alen ex_patched <> 0 /\ sorted_nl (map zopt (logical ex_patched)).
Proof.
  split; [|split; [|split; [discriminate|]]].
  - cbn [ex_patched wf]. unfold f0. cbn [fs fn fc fC fv ft fT fN fF fk sliceable orb].
    assert (Forall (fun z => (0 <= z < 2 ^ 2)%Z) ([1; 3; 1; 2] ++ repeat 0 1020)%Z) as F.
    { apply Forall_app. split; [repeat constructor; lia|]. apply Forall_forall. intros x Hx. apply repeat_spec in Hx. lia. }
    repeat split; try reflexivity; try lia; try exact F; try discriminate; try (exists true; reflexivity);
      try (cbn; lia); repeat constructor; try discriminate; try (cbn; lia); try (vm_compute; congruence).
    all: try (intros; cbn in *; intuition (subst; try discriminate; try lia)).
  - split; [|exact I]. split; repeat constructor; lia.
  - exists [1; 3; 9; 10]%Z, 1. split; [reflexivity|]. cbn. intuition lia.
Qed.
Example ex_patched_search : search_sorted ex_patched 10 Right = Ok (Found 4) /\ search_sorted ex_patched 4 Left = Ok (NotFound 2).
Proof. split; reflexivity. Qed.
