(** C17 (sparse arrays), C18 (chunked arrays), C28 (byte-per-bool arrays). *)
From Verif Require Import Base Spec SearchModel SearchProofs Arr ArrRead ArrWf ArrReadProofs ArrSearchProofs ArrSlice ArrSliceProofs ArrSliceMain
  ValidityModel PropValidity IntEnc PropIntEnc RunEnc PropRunEnc PropUnary PropDict ArrOps OpsBase OpsFlat OpsCanon OpsCanon2 OpsCanon3 OpsTake OpsVarBin OpsFilter OpsChunked PropRead PropSlice PropOps.

(** * C17: sparse arrays are the fill value with patches *)

(** [l] is a list of [n] rows equal to [fill] except that row [positions[k] - off] is [patches[k]]. *)
Definition is_patched (fill : value) (off n : nat) (positions : list Z) (patches : list value) (l : list value) : Prop :=
  length l = n /\
  forall i, i < n ->
    (forall k, k < length positions -> nth k positions 0%Z = Z.of_nat (off + i) -> nth i l VNull = nth k patches VNull) /\
    ((forall k, k < length positions -> nth k positions 0%Z <> Z.of_nat (off + i)) -> nth i l VNull = fill).

Lemma is_patched_logical f idx vals off n fill : wf f (ASparse idx vals off n fill) ->
  is_patched fill off n (ints (logical idx)) (logical vals) (logical (ASparse idx vals off n fill)).
Proof.
  intros W. split; [apply logical_length|]. intros i Hi.
  change (logical (ASparse idx vals off n fill)) with
    (tab n (fun i => match pos_of (Z.of_nat (off + i)) (ints (logical idx)) with Some k => nth k (logical vals) VNull | None => fill end)).
  rewrite nth_tab by exact Hi. cbn [wf] in W. destruct W as (_ & _ & _ & _ & _ & SS & _). split.
  - intros k Hk E. rewrite <- E, pos_of_nth by auto. reflexivity.
  - intros H. destruct (pos_of _ _) as [k|] eqn:E; [|reflexivity]. apply pos_of_some in E. destruct E as [E1 E2]. exfalso. exact (H k E1 E2).
Qed.
Lemma is_patched_unique fill off n pos pat l l' : is_patched fill off n pos pat l -> is_patched fill off n pos pat l' -> l = l'.
Proof.
  intros [L1 H1] [L2 H2]. apply (nth_ext_len _ _ VNull); [congruence|]. rewrite L1. intros i Hi. destruct (H1 i Hi) as [A1 B1]. destruct (H2 i Hi) as [A2 B2].
  destruct (in_dec Z.eq_dec (Z.of_nat (off + i)) pos) as [HIn|HN].
  - apply (In_nth _ _ 0%Z) in HIn. destruct HIn as (k & Hk & E). rewrite (A1 k Hk E), (A2 k Hk E). reflexivity.
  - rewrite B1, B2; auto; intros k Hk E; apply HN; rewrite <- E; apply nth_In; exact Hk.
Qed.

(** Reading a well-formed sparse array row by row gives the fill value with the patches; so does decoding it, unless it is a
    boolean array or has null patches or a non-null fill of a nullable type (see the refuted theorems of PropOpsX.v: [fc]
    excludes those), and the reported validity is the nullness of those rows. *)
Theorem sparse_is_fill_plus_patches :
  forall (f : flags) (idx vals : array) (off n : nat) (fill : value), wf f (ASparse idx vals off n fill) ->
  exists rows, is_patched fill off n (ints (logical idx)) (logical vals) rows /\
    (forall i, i < n -> scalar_at (ASparse idx vals off n fill) i = Ok (nth i rows VNull)) /\
    (fc f = true -> forall c, canon (ASparse idx vals off n fill) = Ok c -> logical c = rows /\ adtype c = adtype vals) /\
    (fc f = true -> fv f = true -> nullable (adtype vals) = true -> forall v, logical_validity (ASparse idx vals off n fill) = Ok v -> lbuf v = map (fun x => negb (is_null x)) rows) /\
    (fc f = true -> fC f = true -> exists c v, canon (ASparse idx vals off n fill) = Ok c /\ (fv f = true -> nullable (adtype vals) = true -> logical_validity (ASparse idx vals off n fill) = Ok v)).
Proof.
  intros f idx vals off n fill W. exists (logical (ASparse idx vals off n fill)). split; [apply (is_patched_logical f); exact W|].
  split; [intros i Hi; apply (scalar_at_is_the_element f _ W); rewrite logical_length; exact Hi|]. split; [|split].
  - intros C c E. destruct (canonical_is_lossless f _ W C) as [H _]. destruct (H c E) as (_ & L & _ & _ & K & _).
    split; [exact L|]. apply K. cbn [adtype wf] in *. destruct W as (_ & _ & _ & _ & _ & _ & _ & _ & _ & _ & W11 & _). destruct (W11 C) as [Q _]. destruct (adtype vals); try discriminate Q; reflexivity.
  - intros C V N v E. apply (logical_validity_is_nullness f _ W C V N). exact E.
  - intros C FC. destruct (canonical_is_lossless f _ W C) as [_ H]. destruct (H FC) as (c & E).
    destruct (fv f) eqn:V; [|exists c, (LAllValid 0); split; [exact E|discriminate]]. destruct (nullable (adtype vals)) eqn:N; [|exists c, (LAllValid 0); split; [exact E|discriminate]].
    destruct (proj2 (logical_validity_is_nullness f (ASparse idx vals off n fill) W C V N) FC) as (v & Ev). exists c, v. auto.
Qed.
Print Assumptions sparse_is_fill_plus_patches.

(** Slicing (also repeatedly) keeps the patches of the rows that remain. *)
Theorem sparse_slice_keeps_patches :
  forall (f : flags) (idx vals : array) (off n : nat) (fill : value) (i j : nat) (b : array), wf f (ASparse idx vals off n fill) -> i <= j -> j <= n ->
  slice (ASparse idx vals off n fill) i j = Ok b -> is_patched fill (off + i) (j - i) (ints (logical idx)) (logical vals) (logical b).
Proof.
  intros f idx vals off n fill i j b W Hij Hj E. pose proof (is_patched_logical f idx vals off n fill W) as [L P].
  assert (alen (ASparse idx vals off n fill) = n) as AL by reflexivity.
  pose proof (slice_correct _ f i j W Hij ltac:(rewrite AL; exact Hj)) as S. unfold outc in S. rewrite E in S. destruct S as (_ & Lb & _).
  assert (logical b = lslice (logical (ASparse idx vals off n fill)) i j) as EL by exact Lb. rewrite EL.
  split; [rewrite lslice_length by (rewrite L; exact Hj); reflexivity|]. intros k Hk. rewrite nth_lslice by lia. rewrite <- Nat.add_assoc. apply P. lia.
Qed.
Print Assumptions sparse_slice_keeps_patches.

(** * C18: chunked arrays are the concatenation of their chunks *)

(** Position [o] of chunk [k]. *)
Definition chunk_pos (cs : list array) (k o : nat) : nat := list_sum (map alen (firstn k cs)) + o.

Lemma nth_concat_chunks (cs : list array) k o : k < length cs -> o < alen (nth k cs (ANull 0)) ->
  nth (chunk_pos cs k o) (concat (map logical cs)) VNull = nth o (logical (nth k cs (ANull 0))) VNull /\
  chunk_pos cs k o < length (concat (map logical cs)).
Proof.
  unfold chunk_pos. revert k; induction cs as [|c cs IH]; intros k Hk Ho; [cbn in Hk; lia|]. destruct k as [|k].
  - cbn [firstn map list_sum fold_right nth concat] in *. rewrite app_length, logical_length. split; [|cbn; lia]. cbn. rewrite app_nth1 by (rewrite logical_length; exact Ho). reflexivity.
  - cbn [firstn map nth concat length] in *. change (list_sum (alen c :: map alen (firstn k cs))) with (alen c + list_sum (map alen (firstn k cs))).
    rewrite app_length, logical_length. destruct (IH k ltac:(lia) Ho) as [E1 E2]. split; [|lia].
    rewrite app_nth2 by (rewrite logical_length; lia). rewrite logical_length. replace (alen c + _ + o - alen c) with (list_sum (map alen (firstn k cs)) + o) by lia. exact E1.
Qed.

(** Every operation sees the concatenation of the rows of the chunks (also with empty chunks). *)
Theorem chunked_is_concatenation :
  forall (f : flags) (d : dtype) (cs : list array), wf f (AChunked d cs) ->
  let rows := concat (map logical cs) in
  (* element access: by global position, hence by chunk and position in the chunk *)
  (forall i, i < length rows -> scalar_at (AChunked d cs) i = Ok (nth i rows VNull)) /\
  (forall i, length rows <= i -> scalar_at (AChunked d cs) i = Err) /\
  (forall k o, k < length cs -> o < alen (nth k cs (ANull 0)) -> scalar_at (AChunked d cs) (chunk_pos cs k o) = scalar_at (nth k cs (ANull 0)) o) /\
  (* slice *)
  (forall i j, i <= j -> j <= length rows -> fs f = true \/ (fn f = true /\ i < j) ->
     exists b, slice (AChunked d cs) i j = Ok b /\ logical b = spec_slice rows i j /\ adtype b = d) /\
  (* decoding *)
  (fc f = true -> forall c, canon (AChunked d cs) = Ok c -> logical c = rows) /\
  (* take *)
  (fc f = true -> ft f = true -> forall ip idx b, is_int ip = true -> (Z.of_nat (length idx) <= pmax U64)%Z -> Forall (fun i => i < length rows) idx ->
     take (AChunked d cs) ip idx = Ok b -> spec_take rows idx = Some (logical b)) /\
  (* filter *)
  (fc f = true -> ft f = true -> forall m b, (Z.of_nat (length m) <= pmax U64)%Z -> length m = length rows ->
     filter_array (AChunked d cs) (mask_of m) = Ok b -> logical b = spec_filter rows m).
Proof.
  intros f d cs W rows. change rows with (logical (AChunked d cs)).
  destruct (scalar_at_is_the_element f _ W) as (S1 & _ & S3). split; [exact S1|]. split; [exact S3|]. split; [|split; [|split; [|split]]].
  - intros k o Hk Ho. destruct (nth_concat_chunks cs k o Hk Ho) as [E1 E2]. rewrite S1 by exact E2. change (logical (AChunked d cs)) with (concat (map logical cs)). rewrite E1.
    assert (wf f (nth k cs (ANull 0))) as Wk.
    { cbn [wf] in W. destruct W as [W _]. rewrite wf_chunks_iff in W. pose proof (Forall_nth_lt _ _ (ANull 0) k W Hk) as Q. apply Q. }
    symmetry. apply (scalar_at_is_the_element f _ Wk). rewrite logical_length. exact Ho.
  - intros i j Hij Hj HT. destruct (slice_commutes_with_decoding f _ i j W Hij Hj HT) as (b & E & _ & A & _ & L). exists b. auto.
  - intros C c E. apply (canonical_is_lossless f _ W C). exact E.
  - intros C T ip idx b Hip Hl HI E. apply (take_commutes_with_decoding f _ ip idx W C T Hip Hl HI). exact E.
  - intros C T m b Hl Hm E. apply (filter_commutes_with_decoding f _ m W C T Hl Hm). exact E.
Qed.
Print Assumptions chunked_is_concatenation.

(** Chunk boundaries do not matter: two chunkings of the same rows answer every pipeline of slices, takes and filters with the
    same rows. *)
Theorem chunk_boundaries_do_not_matter :
  forall (f g : flags) (d : dtype) (cs cs' : list array) (ss : list step) (l : list value) (b b' : array),
  wf f (AChunked d cs) -> wf g (AChunked d cs') -> fc f = true -> ft f = true -> fc g = true -> ft g = true ->
  concat (map logical cs) = concat (map logical cs') -> Forall step_fits ss -> list_run ss (concat (map logical cs)) = Some l ->
  run ss (AChunked d cs) = Ok b -> run ss (AChunked d cs') = Ok b' -> logical b = logical b'.
Proof.
  intros f g d cs cs' ss l b b' W W' C1 T1 C2 T2 E F L R R'.
  rewrite (proj1 (pipeline_commutes_with_decoding ss f _ b l W C1 T1 F L R)).
  symmetry. assert (list_run ss (logical (AChunked d cs')) = Some l) as L' by (change (logical (AChunked d cs')) with (concat (map logical cs')); rewrite <- E; exact L).
  exact (proj1 (pipeline_commutes_with_decoding ss g _ b' l W' C2 T2 F L' R')).
Qed.
Print Assumptions chunk_boundaries_do_not_matter.

(** * C28: byte-per-bool arrays *)

(** ByteBoolArray::from(Vec<Option<bool>>), bytebool/src/array.rs:109-122. *)
Definition bytebool_from (l : list (option bool)) : array :=
  AByteBool (map (fun o => byte_of (match o with Some b => b | None => false end)) l) (vfrom (map (fun o => match o with Some _ => true | None => false end) l)).
(** ByteBoolArray::try_from_vec, 56-70. *)
Definition bytebool_try_from_vec (l : list bool) (v : validity) : result array := try_bytebool (map byte_of l) v.
Definition brow (o : option bool) : value := match o with Some b => VBool b | None => VNull end.
(** Byte arrays as the constructors make them: every byte is 0 or 1. *)
Definition f_bb : flags := Flags true true true true true true true true true false.
Definition bytebool_arr (a : array) : Prop := wf f_bb a /\ match a with AByteBool _ _ => True | _ => False end.

Theorem bytebool_from_keeps_rows :
  forall (l : list (option bool)), bytebool_arr (bytebool_from l) /\ logical (bytebool_from l) = map brow l /\ adtype (bytebool_from l) = DBool true.
Proof.
  intros l. unfold bytebool_from. set (bs := map _ l). set (vs := map _ l).
  assert (length bs = length l /\ length vs = length l) as [L1 L2] by (split; apply map_length). split; [|split].
  - split; [|exact I]. cbn [wf]. split; [|split; [|discriminate]].
    + apply Forall_map. apply Forall_forall. intros [[|]|] _; cbn; auto.
    + rewrite L1, <- L2. apply vfrom_wf.
  - cbn [logical]. rewrite L1, (map_ext_nth_tab brow l None). apply tab_ext. intros i Hi. rewrite vvalid_vfrom by lia. unfold vs, bs.
    rewrite (map_nth_lt (fun o : option bool => match o with Some _ => true | None => false end) l None) by exact Hi.
    rewrite (map_nth_lt (fun o => byte_of (match o with Some b => b | None => false end)) l None) by exact Hi.
    destruct (nth i l None) as [[|]|]; reflexivity.
  - cbn [adtype]. rewrite vnullable_vfrom. reflexivity.
Qed.
Print Assumptions bytebool_from_keeps_rows.

Theorem bytebool_try_from_vec_keeps_rows :
  forall (l : list bool) (v : validity), vwf v (length l) ->
  exists a, bytebool_try_from_vec l v = Ok a /\ bytebool_arr a /\ adtype a = DBool (vnullable v) /\
    logical a = tab (length l) (fun i => if vvalid v i then VBool (nth i l false) else VNull).
Proof.
  intros l v H. unfold bytebool_try_from_vec, try_bytebool. rewrite map_length, (proj2 (vfits_vwf v (length l)) H). eexists. split; [reflexivity|]. split; [|split; [reflexivity|]].
  - split; [|exact I]. cbn [wf]. rewrite map_length. split; [|split; [exact H|discriminate]]. apply Forall_map. apply Forall_forall. intros [|] _; cbn; auto.
  - cbn [logical]. rewrite map_length. apply tab_ext. intros i Hi. rewrite (map_nth_lt byte_of l false) by exact Hi. destruct (vvalid v i); [|reflexivity]. destruct (nth i l false); reflexivity.
Qed.
Print Assumptions bytebool_try_from_vec_keeps_rows.

(** Reading, slicing, taking, filtering and decoding agree, nulls included. (take turns a non-nullable array into a nullable one
    without nulls: [bytebool_take_nullability_refuted].) *)
Theorem bytebool_ops_keep_rows :
  forall (a : array), bytebool_arr a -> (Z.of_nat (length (logical a)) <= pmax U64)%Z ->
  (forall i, i < length (logical a) -> scalar_at a i = Ok (nth i (logical a) VNull)) /\
  (forall i j, i <= j -> j <= length (logical a) ->
     exists b, slice a i j = Ok b /\ logical b = spec_slice (logical a) i j /\ adtype b = adtype a /\ bytebool_arr b) /\
  (forall ip idx l, is_int ip = true -> (Z.of_nat (length idx) <= pmax U64)%Z -> spec_take (logical a) idx = Some l ->
     exists b, take a ip idx = Ok b /\ logical b = l /\ same_kind (adtype b) (adtype a) /\ bytebool_arr b) /\
  (forall m, length m = length (logical a) ->
     exists b, filter_array a (mask_of m) = Ok b /\ logical b = spec_filter (logical a) m /\ same_kind (adtype b) (adtype a)) /\
  (exists c, canon a = Ok c /\ logical c = logical a /\ adtype c = adtype a).
Proof.
  intros a [W V] Hlen. destruct a as [| | | | | | | | | | | | | | |l v]; try contradiction. split; [|split; [|split; [|split]]].
  - intros i Hi. apply (scalar_at_is_the_element f_bb _ W). exact Hi.
  - intros i j Hij Hj. destruct (slice_commutes_with_decoding f_bb _ i j W Hij Hj (or_introl eq_refl)) as (b & E & Wb & Ab & _ & Lb).
    exists b. split; [exact E|]. split; [exact Lb|]. split; [exact Ab|]. split; [exact Wb|].
    cbn [slice] in E. destruct (slice_bad _ _ _); [discriminate|]. destruct (vslice v i j); try discriminate. cbn [bind] in E. unfold try_bytebool in E.
    destruct (vfits _ _); [|discriminate]. injection E as <-. exact I.
  - intros ip idx r Hip Hidx HS. pose proof (spec_take_some_inv _ _ _ HS) as HI.
    destruct (take_commutes_with_decoding f_bb _ ip idx W eq_refl eq_refl Hip Hidx HI) as [T1 T2].
    destruct (T2 (or_introl eq_refl)) as (b & E). destruct (T1 b E) as (S1 & _ & S3 & _ & S5). exists b. split; [exact E|]. split; [congruence|]. split; [exact S3|].
    assert (match b with AByteBool _ _ => True | _ => False end) as SH.
    { unfold take in E. rewrite Hip in E. cbn [depth ops ops_step o_take] in E. unfold bytebool_take in E.
      destruct v; repeat match type of E with (do _ <- ?x; _) = _ => destruct x; try discriminate E; cbn [bind] in E end; injection E as <-; exact I. }
    destruct b as [| | | | | | | | | | | | | | |l' v']; try contradiction. split; [|exact I]. cbn [wf] in S5 |- *. destruct S5 as (X1 & X2 & _). repeat split; auto. discriminate.
  - intros m Hm. destruct (filter_commutes_with_decoding f_bb _ m W eq_refl eq_refl ltac:(rewrite Hm; exact Hlen) Hm) as [T1 T2].
    destruct (T2 eq_refl) as (b & E). destruct (T1 b E) as (S1 & S3 & _). eauto.
  - destruct (canonical_is_lossless f_bb _ W eq_refl) as [C1 C2]. destruct (C2 eq_refl) as (c & E). destruct (C1 c E) as (_ & L & _ & _ & K & _).
    exists c. split; [exact E|]. split; [exact L|]. apply K. reflexivity.
Qed.
Print Assumptions bytebool_ops_keep_rows.

Example ex_bytebool :
  exists b, take (bytebool_from [Some true; None; Some false]) U64 [2; 0; 1; 0] = Ok b /\ logical b = [VBool false; VBool true; VNull; VBool true].
Proof.
  destruct (bytebool_from_keeps_rows [Some true; None; Some false]) as (W & L & _).
  destruct (bytebool_ops_keep_rows _ W ltac:(rewrite L; vm_compute; discriminate)) as (_ & _ & T & _).
  destruct (T U64 [2; 0; 1; 0] [VBool false; VBool true; VNull; VBool true] eq_refl ltac:(vm_compute; discriminate) ltac:(rewrite L; reflexivity)) as (b & E & Lb & _). eauto.
Qed.

(** try_new accepts any bytes; scalar_at compares with 1 while decoding reads any other byte as a Rust bool (any non-zero byte as
    true, formally undefined), so a byte 2 is false through scalar_at and true after decoding. *)
Theorem bytebool_other_bytes_refuted :
  try_bytebool [2%Z] VNonNull = Ok (AByteBool [2%Z] VNonNull) /\ scalar_at (AByteBool [2%Z] VNonNull) 0 = Ok (VBool false) /\
  exists c, canon (AByteBool [2%Z] VNonNull) = Ok c /\ scalar_at c 0 = Ok (VBool true).
Proof. split; [reflexivity|]. split; [reflexivity|]. eexists. split; reflexivity. Qed.
Print Assumptions bytebool_other_bytes_refuted.

Theorem bytebool_take_nullability_refuted :
  adtype (AByteBool [1%Z] VNonNull) = DBool false /\ exists b, take (AByteBool [1%Z] VNonNull) U64 [0] = Ok b /\ adtype b = DBool true.
Proof. split; [reflexivity|]. eexists. split; reflexivity. Qed.
Print Assumptions bytebool_take_nullability_refuted.

(** Non-vacuity for C17 and C18: PropOpsX.v has well-formed examples; here a chunked array with an empty chunk and a sparse chunk. *)
Definition ex_sparse : array := ASparse (APrim U64 [4%Z; 6%Z] VNonNull) (APrim I32 [7%Z; 8%Z] VNonNull) 3 5 (VInt 0).
Definition ex_chunk3 : array := AChunked (DPrim I32 false) [APrim I32 [1%Z] VNonNull; APrim I32 [] VNonNull; ex_sparse].
Example ex_chunk3_wf : wf (Flags true true true true true true false false false false) ex_chunk3.
Proof.
  cbn [wf ex_chunk3]. repeat split; try reflexivity; try discriminate; auto; try (repeat constructor; cbn; lia);
    try (cbn; intros; intuition (try discriminate; try lia); fail).
Qed.
Example ex_chunk3_rows : logical ex_chunk3 = [VInt 1; VInt 0; VInt 7; VInt 0; VInt 8; VInt 0] /\ scalar_at ex_chunk3 (chunk_pos [APrim I32 [1%Z] VNonNull; APrim I32 [] VNonNull; ex_sparse] 2 1) = Ok (VInt 7).
Proof. split; reflexivity. Qed.
