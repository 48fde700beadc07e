(** C27: the roaring encodings. *)
From Verif Require Import Base Spec Scalars PropScalar CmpSpec SearchModel SearchProofs Arr ArrRead ArrWf ArrReadProofs ArrSlice ArrSliceProofs
  ValidityModel StatsModel StatsProofs StatsProofs2 StatsProofs3 PropStats IntEnc PropIntEnc ArrOps OpsBase OpsFlat OpsTake2 PropOps DateTime Roaring.
Local Arguments two32 : simpl never.

(** * Bitmaps *)

Lemma bm_add_in x m y : In y (bm_add x m) <-> y = x \/ In y m.
Proof.
  induction m as [|z m IH]; cbn [bm_add In]; [intuition|]. destruct (Z.ltb_spec x z); [cbn [In]; intuition|]. destruct (Z.eqb_spec x z); [subst; cbn [In]; intuition|]. cbn [In]. rewrite IH. intuition.
Qed.
Lemma ss_cons x m : ssortedZ (x :: m) <-> (forall y, In y m -> (x < y)%Z) /\ ssortedZ m.
Proof. cbn [ssortedZ]. rewrite ?Forall_forall. reflexivity. Qed.
Lemma bm_add_sorted x m : ssortedZ m -> ssortedZ (bm_add x m).
Proof.
  induction m as [|z m IH]; intros H; [apply ss_cons; split; [intros ? []|exact I]|]. pose proof H as H0. apply ss_cons in H. destruct H as [H1 H2]. cbn [bm_add].
  destruct (Z.ltb_spec x z) as [L|L]; [apply ss_cons; split; [|exact H0]; intros y [<-|Hy]; [exact L|specialize (H1 y Hy); lia]|].
  destruct (Z.eqb_spec x z) as [E|E]; [exact H0|]. apply ss_cons. split; [|apply IH; exact H2]. intros y Hy. apply bm_add_in in Hy. destruct Hy as [->|Hy]; [lia|auto].
Qed.
Lemma bm_of_in xs y : In y (bm_of xs) <-> In y xs.
Proof.
  unfold bm_of. assert (forall m, In y (fold_left (fun m x => bm_add x m) xs m) <-> In y xs \/ In y m) as G; [|rewrite G; cbn [In]; intuition].
  induction xs as [|x xs IH]; intros m; cbn [fold_left In]; [intuition|]. rewrite IH, bm_add_in. intuition.
Qed.
Lemma bm_of_sorted xs : ssortedZ (bm_of xs).
Proof.
  unfold bm_of. assert (forall m, ssortedZ m -> ssortedZ (fold_left (fun m x => bm_add x m) xs m)) as G; [|apply G; exact I].
  induction xs as [|x xs IH]; intros m H; cbn [fold_left]; [exact H|]. apply IH, bm_add_sorted, H.
Qed.
(** Two sorted lists with the same members are the same list. *)
Lemma ss_unique l : forall m, ssortedZ l -> ssortedZ m -> (forall x, In x l <-> In x m) -> l = m.
Proof.
  induction l as [|x l IH]; intros [|y m] Hl Hm H; [reflexivity|destruct (proj2 (H y) (or_introl eq_refl))|destruct (proj1 (H x) (or_introl eq_refl))|].
  apply ss_cons in Hl, Hm. destruct Hl as [L1 L2], Hm as [M1 M2].
  assert (x = y) as ->. { destruct (proj1 (H x) (or_introl eq_refl)) as [E|E]; [symmetry; exact E|]. destruct (proj2 (H y) (or_introl eq_refl)) as [F|F]; [exact F|]. specialize (M1 x E). specialize (L1 y F). lia. }
  f_equal. apply IH; auto. intros z. specialize (H z). cbn [In] in H. split; intros Hz.
  - destruct (proj1 H (or_intror Hz)) as [<-|X]; [specialize (L1 y Hz); lia|exact X].
  - destruct (proj2 H (or_intror Hz)) as [<-|X]; [specialize (M1 y Hz); lia|exact X].
Qed.
Lemma bm_of_id xs : ssortedZ xs -> bm_of xs = xs.
Proof. intros H. apply ss_unique; [apply bm_of_sorted|exact H|]. intros x. apply bm_of_in. Qed.
Lemma contains_iff m x : bm_contains m x = true <-> In x m.
Proof. unfold bm_contains. rewrite existsb_exists. split; [intros (y & Hy & E); apply Z.eqb_eq in E; subst; exact Hy|intros H; exists x; rewrite Z.eqb_refl; auto]. Qed.
Lemma bm_max_in m x : bm_max m = Some x -> In x m.
Proof.
  destruct m as [|y m]; [discriminate|]. cbn [bm_max]. intros [= <-]. revert y. induction m as [|z m IH]; intros y; [left; reflexivity|]. right. apply (IH z).
Qed.
Lemma ss_last_nth m : m <> [] -> last m 0%Z = nth (length m - 1) m 0%Z.
Proof.
  induction m as [|x [|y m] IH]; intros H; [congruence|reflexivity|]. change (last (x :: y :: m) 0%Z) with (last (y :: m) 0%Z). rewrite IH by discriminate. cbn [length]. replace (S (S (length m)) - 1) with (S (S (length m) - 1)) by lia. reflexivity.
Qed.
Lemma bm_max_last m : m <> [] -> bm_max m = Some (last m 0%Z).
Proof. destruct m; [congruence|reflexivity]. Qed.
Lemma bm_max_ge m x y : ssortedZ m -> bm_max m = Some x -> In y m -> (y <= x)%Z.
Proof.
  intros H E Hy. assert (m <> []) as NE by (intros ->; destruct Hy). rewrite bm_max_last in E by exact NE. assert (x = last m 0%Z) as -> by congruence.
  rewrite ss_last_nth by exact NE. destruct (In_nth _ _ 0%Z Hy) as (k & Hk & <-). destruct (Nat.eq_dec k (length m - 1)) as [->|N]; [lia|]. pose proof (ssortedZ_nth m k (length m - 1) H ltac:(lia) ltac:(lia)). lia.
Qed.
Lemma filter_sorted (f : Z -> bool) m : ssortedZ m -> ssortedZ (filter f m).
Proof.
  induction m as [|x m IH]; intros H; [exact I|]. apply ss_cons in H. destruct H as [H1 H2]. cbn [filter]. destruct (f x); [|auto]. apply ss_cons. split; [|auto]. intros y Hy. apply filter_In in Hy. apply H1, Hy.
Qed.
Lemma small_index m i : bitmap_ok m -> i < length m -> as_u32 (Z.of_nat i) = Z.of_nat i.
Proof.
  intros [H1 H2] Hi. unfold as_u32. apply Z.mod_small. split; [lia|].
  assert (forall m k lo, ssortedZ m -> Forall (fun x => (lo <= x)%Z) m -> k < length m -> (lo + Z.of_nat k <= nth k m 0)%Z) as G.
  { clear. induction m as [|x m IH]; intros k lo H F Hk; [cbn in Hk; lia|]. inversion F; subst. apply ss_cons in H. destruct H as [Ha Hb]. destruct k as [|k]; [cbn [nth]; lia|]. cbn [nth length] in *. specialize (IH k (lo + 1)%Z Hb).
    assert (Forall (fun y => (lo + 1 <= y)%Z) m) as F' by (apply Forall_forall; intros y Hy; specialize (Ha y Hy); lia). specialize (IH F' ltac:(lia)). lia. }
  specialize (G m i 0%Z H1). assert (Forall (fun x => (0 <= x)%Z) m) as F by (eapply Forall_impl; [|exact H2]; cbv beta; intros; lia). specialize (G F Hi). pose proof (Forall_nth_lt _ _ 0%Z i H2 Hi) as Q. cbv beta in Q. lia.
Qed.
Lemma select_nth m i : bitmap_ok m -> i < length m -> bm_select m (as_u32 (Z.of_nat i)) = Some (nth i m 0%Z).
Proof. intros H Hi. rewrite (small_index m) by assumption. unfold bm_select. rewrite Nat2Z.id. apply nth_error_nth'. exact Hi. Qed.
(** The members between the [i]-th and the [j-1]-th are the slice. *)
Lemma and_range_slice m i j : ssortedZ m -> i < j -> j <= length m -> bm_and_range m (nth i m 0%Z) (nth (j - 1) m 0%Z + 1) = spec_slice m i j.
Proof.
  intros H Hij Hj. apply ss_unique; [apply filter_sorted; exact H| |].
  - unfold spec_slice. clear Hij Hj. assert (forall k m, ssortedZ m -> ssortedZ (skipn k m)) as S1 by (clear; induction k; intros [|x m] H; try exact H; apply ss_cons in H; apply IHk, H).
    assert (forall k m, ssortedZ m -> ssortedZ (firstn k m)) as S2. { clear. induction k; intros [|x m] H; try exact I. cbn [firstn]. apply ss_cons in H. apply ss_cons. split; [|apply IHk, H]. intros y Hy. apply H. rewrite <- (firstn_skipn k m). apply in_or_app. left; exact Hy. }
    auto.
  - intros x. unfold bm_and_range. rewrite filter_In, andb_true_iff, Z.leb_le, Z.ltb_lt. unfold spec_slice. split.
    + intros (Hx & H1 & H2). destruct (In_nth _ _ 0%Z Hx) as (k & Hk & <-).
      assert (i <= k). { destruct (Nat.le_gt_cases i k) as [|C]; [assumption|]. pose proof (ssortedZ_nth m k i H C ltac:(lia)). lia. }
      assert (k <= j - 1). { destruct (Nat.le_gt_cases k (j - 1)) as [|C]; [assumption|]. pose proof (ssortedZ_nth m (j - 1) k H C Hk). lia. }
      replace (nth k m 0%Z) with (nth (k - i) (firstn (j - i) (skipn i m)) 0%Z); [apply nth_In; rewrite firstn_length, skipn_length; lia|]. rewrite nth_firstn by lia. rewrite nth_skipn. f_equal. lia.
    + intros Hx. destruct (In_nth _ _ 0%Z Hx) as (k & Hk & <-). rewrite firstn_length, skipn_length in Hk. rewrite nth_firstn by lia. rewrite nth_skipn. split; [apply nth_In; lia|]. split.
      * destruct (Nat.eq_dec k 0) as [->|]; [rewrite Nat.add_0_r; lia|]. pose proof (ssortedZ_nth m i (i + k) H ltac:(lia) ltac:(lia)). lia.
      * destruct (Nat.eq_dec (i + k) (j - 1)) as [->|]; [lia|]. pose proof (ssortedZ_nth m (i + k) (j - 1) H ltac:(lia) ltac:(lia)). lia.
Qed.

(** * Integers *)

Lemma try_rint_ok m p : bitmap_ok m -> is_unsigned p = true -> Forall (in_range p) m -> try_rint m p = Ok (RInt p m) /\ rint_ok (RInt p m).
Proof.
  intros B U F. split; [|split; [exact B|split; [exact U|exact F]]]. unfold try_rint. rewrite U. cbn [negb]. destruct (bm_max m) as [x|] eqn:E; [|reflexivity]. apply bm_max_in in E. rewrite Forall_forall in F. specialize (F x E). unfold in_range in F.
  rewrite (proj2 (Z.ltb_ge _ _)) by lia. reflexivity.
Qed.
Lemma u32_all l : Forall (fun z => (0 <= z < two32)%Z) l -> mapM (fun z => if (0 <=? z)%Z && (z <? two32)%Z then Ok z else Err) l = Ok l.
Proof.
  intros F. rewrite (mapM_ok_map _ (fun z => z)); [rewrite map_id; reflexivity|]. intros x Hx. rewrite Forall_forall in F. specialize (F x Hx). rewrite (proj2 (Z.leb_le _ _)), (proj2 (Z.ltb_lt _ _)) by lia. reflexivity.
Qed.

(** Encoding any unsigned array of u32-sized values gives an array that holds each stored value once, in increasing order. *)
Theorem rint_encode_is_the_sorted_set :
  forall (p : ptype) (l : list Z) (v : validity), is_unsigned p = true -> Forall (in_range p) l -> Forall (fun z => (z < two32)%Z) l ->
  exists a, rint_encode (APrim p l v) = Ok a /\ rint_ok a /\ ri_type a = p /\ (forall z, In z (ri_bits a) <-> In z l).
Proof.
  intros p l v U F F32'. assert (Forall (fun z => (0 <= z < two32)%Z) l) as FF.
  { apply Forall_forall. intros z Hz. rewrite Forall_forall in F, F32'. specialize (F z Hz). specialize (F32' z Hz). unfold in_range in F. cbv beta in F32'. assert (pmin p = 0%Z) by (destruct p; try discriminate U; reflexivity). lia. }
  assert (bitmap_ok (bm_of l)) as B. { split; [apply bm_of_sorted|]. apply Forall_forall. intros z Hz. apply (proj1 (bm_of_in _ _)) in Hz. rewrite Forall_forall in FF. exact (FF z Hz). }
  assert (Forall (in_range p) (bm_of l)) as G. { apply Forall_forall. intros z Hz. apply (proj1 (bm_of_in _ _)) in Hz. rewrite Forall_forall in F. auto. }
  destruct (try_rint_ok _ p B U G) as [E O]. exists (RInt p (bm_of l)). unfold rint_encode. rewrite U. cbn [negb]. rewrite (u32_all l FF). cbn [bind]. split; [exact E|]. split; [exact O|]. split; [reflexivity|]. intros z. apply bm_of_in.
Qed.
Print Assumptions rint_encode_is_the_sorted_set.

(** Strictly increasing values, no nulls: encoding keeps every row. *)
Theorem rint_encode_keeps_rows :
  forall (p : ptype) (l : list Z) (v : validity), is_unsigned p = true -> wf f0 (APrim p l v) -> Forall (fun z => (z < two32)%Z) l ->
  ssortedZ l -> ~ In VNull (logical (APrim p l v)) ->
  exists a, rint_encode (APrim p l v) = Ok a /\ rint_ok a /\ ri_type a = p /\ rint_rows a = logical (APrim p l v).
Proof.
  intros p l v U [F W] F32' S NN. destruct (rint_encode_is_the_sorted_set p l v U F F32') as (a & E & O & T & M). exists a. split; [exact E|]. split; [exact O|]. split; [exact T|].
  assert (ri_bits a = l) as EB by (apply ss_unique; [apply O|exact S|exact M]). unfold rint_rows. rewrite EB. apply (nth_ext_len _ _ VNull); [rewrite map_length, prim_len; reflexivity|]. intros i Hi. rewrite map_length in Hi. rewrite (map_nth_lt VInt l 0%Z) by exact Hi. rewrite nth_prim by exact Hi.
  destruct (vvalid v i) eqn:V; [reflexivity|]. exfalso. apply NN. replace VNull with (nth i (logical (APrim p l v)) VNull) by (rewrite nth_prim by exact Hi; rewrite V; reflexivity). apply nth_In. rewrite prim_len. exact Hi.
Qed.
Print Assumptions rint_encode_keeps_rows.

(** Rejected: other types and encodings, and any stored value above u32::MAX. *)
Theorem rint_encode_rejects :
  (forall p l v, is_unsigned p = false -> rint_encode (APrim p l v) = Err) /\
  (forall p l v z, In z l -> (two32 <= z)%Z -> rint_encode (APrim p l v) = Err) /\
  (forall a, match a with APrim _ _ _ => False | _ => True end -> rint_encode a = Err).
Proof.
  split; [intros p l v U; cbn [rint_encode]; rewrite U; reflexivity|]. split; [|intros a; destruct a; intros X; try reflexivity; destruct X].
  intros p l v z Hz Hl. cbn [rint_encode]. destruct (negb (is_unsigned p)); [reflexivity|].
  assert (mapM (fun z => if (0 <=? z)%Z && (z <? two32)%Z then Ok z else Err) l = Err) as ->; [|reflexivity].
  induction l as [|x l IH]; [destruct Hz|]. cbn [mapM]. destruct Hz as [->|Hz]; [rewrite (proj2 (Z.ltb_ge _ _)) by lia; rewrite andb_false_r; reflexivity|]. destruct (_ && _); [|reflexivity]. cbn [bind]. rewrite (IH Hz). reflexivity.
Qed.

Lemma rint_u32 a : rint_ok a -> Forall (in_range U32) (ri_bits a).
Proof. intros [[_ F] _]. eapply Forall_impl; [|exact F]. intros z Hz. cbv beta in Hz. unfold in_range. unfold two32 in Hz. cbn. lia. Qed.

(** Decoding gives the rows. *)
Theorem rint_decodes_to_the_rows :
  forall a, rint_ok a -> exists r, rint_decode a = Ok r /\ r = APrim (ri_type a) (ri_bits a) VNonNull /\ logical r = rint_rows a /\ adtype r = DPrim (ri_type a) false /\ forall f, wf f r.
Proof.
  intros a O. pose proof O as (B & U & F). exists (APrim (ri_type a) (ri_bits a) VNonNull). split.
  - unfold rint_decode, try_cast. destruct (dtype_eqb _ _) eqn:E; [apply dtype_eqb_eq in E; cbn [adtype vnullable] in E; injection E as <-; reflexivity|]. cbn [prim_array_cast vnullable Bool.eqb bind].
    destruct (ptype_dec U32 (ri_type a)) as [<-|N]; [reflexivity|]. rewrite (mapM_ok_map _ (fun z => z)); [rewrite map_id; reflexivity|]. intros z Hz. rewrite Forall_forall in F. specialize (F z Hz).
    unfold num_cast. change (is_float U32) with false. cbv iota. assert (is_float (ri_type a) = false) as -> by (destruct (ri_type a); try discriminate U; reflexivity). rewrite (proj2 (in_rangeb_spec _ _) F). reflexivity.
  - split; [reflexivity|]. split; [|split; [reflexivity|intros f; split; [exact F|exact I]]]. unfold rint_rows. cbn [logical vvalid]. symmetry. apply (map_ext_nth_tab VInt (ri_bits a) 0%Z).
Qed.
Print Assumptions rint_decodes_to_the_rows.

Theorem rint_scalar_at_is_the_row :
  forall a i, rint_ok a -> (i < length (rint_rows a) -> rint_scalar_at a i = Ok (nth i (rint_rows a) VNull)) /\ (length (rint_rows a) <= i -> rint_scalar_at a i = Err).
Proof.
  intros a i (B & U & F). unfold rint_rows, rint_scalar_at, ri_len. rewrite map_length. split; intros Hi.
  - rewrite (proj2 (Nat.leb_gt _ _)) by exact Hi. rewrite select_nth by assumption. rewrite wrap_id by (apply (Forall_nth_lt _ _ 0%Z i F Hi)). rewrite (map_nth_lt VInt _ 0%Z) by exact Hi. reflexivity.
  - rewrite (proj2 (Nat.leb_le _ _)) by exact Hi. reflexivity.
Qed.
Print Assumptions rint_scalar_at_is_the_row.

(** Non-empty ranges, and empty ranges strictly inside, are sliced right; the empty range at the end is an error; other ranges are rejected. *)
Theorem rint_slice_the_rows :
  forall a i j, rint_ok a ->
  (i <= j -> j <= length (rint_rows a) -> i < j \/ 0 < i < length (rint_rows a) ->
    exists b, rint_slice a i j = Ok b /\ rint_ok b /\ ri_type b = ri_type a /\ rint_rows b = spec_slice (rint_rows a) i j) /\
  (i = j -> j = length (rint_rows a) -> (Z.of_nat j < two32)%Z -> rint_slice a i j = Err) /\
  (j < i \/ length (rint_rows a) < j -> rint_slice a i j = Err).
Proof.
  intros a i j O. pose proof O as (B & U & F). unfold rint_rows. rewrite map_length. set (m := ri_bits a) in *.
  assert (forall x, incl x m -> ssortedZ x -> bitmap_ok x /\ Forall (in_range (ri_type a)) x) as SUB.
  { intros x I S. split; [split; [exact S|]|]; apply Forall_forall; intros z Hz; apply I in Hz; [destruct B as [_ B2]; rewrite Forall_forall in B2; exact (B2 z Hz)|rewrite Forall_forall in F; exact (F z Hz)]. }
  split; [|split].
  - intros Hij Hj HC. unfold rint_slice, slice_bad, ri_len. fold m. rewrite !(proj2 (Nat.ltb_ge _ _)) by lia. cbn [orb]. cbv zeta. rewrite select_nth by (auto; lia). cbn [bind].
    assert ((if j =? length m then Ok (match bm_max m with Some x => x | None => 0%Z end) else match bm_select m (as_u32 (Z.of_nat (j - 1))) with Some x => Ok x | None => Err end) = Ok (nth (j - 1) m 0%Z)) as ->.
    { destruct (Nat.eqb_spec j (length m)) as [->|N].
      - assert (m <> []) as NE by (intros E; rewrite E in *; cbn in *; lia). rewrite bm_max_last, ss_last_nth by exact NE. reflexivity.
      - rewrite select_nth by (auto; lia). reflexivity. }
    cbn [bind]. destruct (SUB (bm_and_range m (nth i m 0%Z) (nth (j - 1) m 0%Z + 1))) as [B1 F1]; [intros z Hz; apply filter_In in Hz; apply Hz|apply filter_sorted, B|].
    destruct (try_rint_ok _ _ B1 U F1) as [E O1]. exists (RInt (ri_type a) (bm_and_range m (nth i m 0%Z) (nth (j - 1) m 0%Z + 1))). split; [exact E|]. split; [exact O1|]. split; [reflexivity|]. cbn [ri_bits].
    assert (bm_and_range m (nth i m 0%Z) (nth (j - 1) m 0%Z + 1) = spec_slice m i j) as ->; [|unfold spec_slice; rewrite skipn_map, firstn_map; reflexivity].
    destruct (Nat.eq_dec i j) as [<-|N]; [|apply and_range_slice; [apply B|lia|lia]].
    unfold spec_slice. rewrite Nat.sub_diag. cbn [firstn]. unfold bm_and_range. pose proof (ssortedZ_nth m (i - 1) i (proj1 B) ltac:(lia) ltac:(lia)) as Q.
    assert (forall l, filter (fun x => (nth i m 0 <=? x)%Z && (x <? nth (i - 1) m 0 + 1)%Z) l = []) as G; [|apply G].
    induction l as [|x l IH]; [reflexivity|]. cbn [filter]. destruct (Z.leb_spec (nth i m 0%Z) x); cbn [andb]; [|exact IH]. rewrite (proj2 (Z.ltb_ge _ _)) by lia. exact IH.
  - intros <- -> H32. unfold rint_slice, slice_bad, ri_len. fold m. rewrite !Nat.ltb_irrefl. cbn [orb]. cbv zeta.
    unfold as_u32. rewrite Z.mod_small by lia. unfold bm_select. rewrite Nat2Z.id. rewrite (proj2 (nth_error_None m (length m))) by lia. reflexivity.
  - intros HB. unfold rint_slice, slice_bad, ri_len. fold m. destruct ((length m <? i) || (length m <? j) || (j <? i)) eqn:Q; [reflexivity|]. rewrite !orb_false_iff, !Nat.ltb_ge in Q. lia.
Qed.
Print Assumptions rint_slice_the_rows.

(** take and filter go through the decoded array. *)
Theorem rint_take_the_rows :
  forall a ip idx, rint_ok a -> is_int ip = true -> (Z.of_nat (length idx) <= pmax U64)%Z -> Forall (fun i => i < length (rint_rows a)) idx ->
  exists r, rint_take a ip idx = Ok r /\ spec_take (rint_rows a) idx = Some (logical r) /\ adtype r = DPrim (ri_type a) false.
Proof.
  intros a ip idx O Ii LI B. destruct (rint_decodes_to_the_rows a O) as (r & E & _ & D & T & W). unfold rint_take. rewrite Ii, E. cbn [bind]. rewrite <- D in B |- *.
  set (g := Flags true true true true true true true true true false).
  destruct (take_commutes_with_decoding g r ip idx (W g) eq_refl eq_refl Ii LI B) as [G1 G2]. destruct (G2 (or_introl eq_refl)) as (c & E1). destruct (G1 c E1) as (Q1 & _ & _ & Q4 & _).
  exists c. split; [exact E1|]. split; [exact Q1|]. rewrite Q4 by (right; rewrite T; reflexivity). exact T.
Qed.
Theorem rint_filter_the_rows :
  forall a m, rint_ok a -> (Z.of_nat (length m) <= pmax U64)%Z -> length m = length (rint_rows a) ->
  exists r, rint_filter a (mask_of m) = Ok r /\ logical r = spec_filter (rint_rows a) m /\ adtype r = DPrim (ri_type a) false.
Proof.
  intros a m O LM LEN. destruct (rint_decodes_to_the_rows a O) as (r & E & _ & D & T & W). unfold rint_filter. rewrite E. cbn [bind]. rewrite <- D in *.
  set (g := Flags true true true true true true true true true false).
  destruct (filter_commutes_with_decoding g r m (W g) eq_refl eq_refl LM LEN) as [G1 G2]. destruct (G2 eq_refl) as (c & E1). destruct (G1 c E1) as (Q1 & _ & Q4 & _).
  exists c. split; [exact E1|]. split; [exact Q1|]. rewrite Q4 by (right; rewrite T; reflexivity). exact T.
Qed.

(** Statistics of a u32 array are true of its rows; the run count is, for every type. *)
Theorem rint_stats_are_sound :
  forall a k, rint_ok a ->
  (ri_type a = U32 -> sound (DPrim U32 true) (rint_rows a) (rint_stats a k)) /\
  oall (fun n => run_count (rint_rows a) <= n) (s_runs (rint_stats a k)).
Proof.
  intros a k O. pose proof (rint_u32 a O) as F.
  assert (Forall (nice (DPrim U32 true)) (logical (APrim U32 (ri_bits a) VNonNull))) as NI.
  { apply Forall_forall. intros x Hx. cbn [logical vvalid] in Hx. unfold tab in Hx. apply in_map_iff in Hx. destruct Hx as (i & <- & _). intros X. discriminate X. }
  pose proof (prim_stats_sound U32 (ri_bits a) VNonNull F I NI) as S.
  assert (logical (APrim U32 (ri_bits a) VNonNull) = rint_rows a) as L by (unfold rint_rows; cbn [logical vvalid]; symmetry; apply (map_ext_nth_tab VInt (ri_bits a) 0%Z)). rewrite L in S.
  assert (nn (rint_rows a) = rint_rows a) as N by (unfold rint_rows, nn; generalize (ri_bits a); clear; induction b as [|x b IH]; [reflexivity|]; cbn; f_equal; exact IH).
  pose proof (no_stats_sound (DPrim U32 true) (rint_rows a)) as S0. split; [intros _; unfold rint_stats; destruct k; assumption|].
  destruct S as [_ _ _ _ _ _ SR _ _ _ _]. rewrite N in SR. unfold rint_stats. destruct k; try exact SR; exact I.
Qed.
Print Assumptions rint_stats_are_sound.

(** ** What the code gets wrong *)

(** Encoding sorts, drops duplicates, and turns nulls into values. *)
Theorem rint_encode_rows_refuted :
  ~ (forall p l v a, is_unsigned p = true -> wf f0 (APrim p l v) -> rint_encode (APrim p l v) = Ok a -> rint_rows a = logical (APrim p l v)) /\
  (exists a, rint_encode (APrim U8 [2; 1]%Z VNonNull) = Ok a /\ rint_rows a = [VInt 1; VInt 2]) /\
  (exists a, rint_encode (APrim U8 [1; 1]%Z VNonNull) = Ok a /\ rint_rows a = [VInt 1]) /\
  (exists a, rint_encode (APrim U8 [1; 2]%Z (VBits [true; false])) = Ok a /\ rint_rows a = [VInt 1; VInt 2]).
Proof.
  split; [|split; [|split]; eexists; split; reflexivity].
  intros H. specialize (H U8 [2; 1]%Z VNonNull (RInt U8 [1; 2]%Z) eq_refl). assert (wf f0 (APrim U8 [2; 1]%Z VNonNull)) as W by (split; [repeat constructor; unfold in_range; cbn; lia|exact I]). specialize (H W eq_refl). discriminate H.
Qed.
(** The empty range at the start of a non-empty array gives its first row. *)
Theorem rint_empty_slice_refuted :
  forall a, rint_ok a -> rint_rows a <> [] -> (Z.of_nat (length (rint_rows a)) < two32)%Z ->
  exists b x, rint_slice a 0 0 = Ok b /\ rint_rows b = [x] /\ Some x = nth_error (rint_rows a) 0.
Proof.
  intros a O NE L32. pose proof O as (B & U & F). unfold rint_rows in *. rewrite map_length in L32. set (m := ri_bits a) in *. destruct m as [|x m'] eqn:Em; [contradiction NE; reflexivity|]. fold m in Em.
  exists (RInt (ri_type a) [x]), (VInt x). unfold rint_slice, slice_bad, ri_len. change (ri_bits a) with m. rewrite Em. cbn [length Nat.ltb Nat.leb orb]. cbv zeta.
  change (bm_select (x :: m') (as_u32 (Z.of_nat 0))) with (Some x). cbn [bind Nat.eqb Nat.sub]. change (bm_select (x :: m') (as_u32 (Z.of_nat 0))) with (Some x). cbn [bind].
  assert (bm_and_range (x :: m') x (x + 1) = [x]) as ->.
  { pose proof (and_range_slice (x :: m') 0 1 (proj1 B) ltac:(lia) ltac:(cbn; lia)) as Q. exact Q. }
  assert (bitmap_ok [x]) as B1. { split; [apply ss_cons; split; [intros ? []|exact I]|]. destruct B as [_ B2]. inversion B2; subst. constructor; [assumption|constructor]. }
  destruct (try_rint_ok [x] (ri_type a) B1 U) as [E _]; [inversion F; subst; constructor; [assumption|constructor]|]. split; [exact E|]. split; reflexivity.
Qed.
(** The empty array cannot be sliced at all. *)
Theorem rint_slice_of_empty_refuted : forall p, is_unsigned p = true -> rint_ok (RInt p []) /\ rint_slice (RInt p []) 0 0 = Err.
Proof. intros p U. split; [|reflexivity]. split; [split; [exact I|constructor]|]. split; [exact U|constructor]. Qed.
(** The bit-width and trailing-zero histograms of a u8 array have the length for u32. *)
Theorem rint_histograms_refuted :
  ~ (forall a k, rint_ok a -> sound (DPrim (ri_type a) true) (rint_rows a) (rint_stats a k)).
Proof.
  intros H. assert (rint_ok (RInt U8 [1%Z])) as O by (split; [split; [split; [intros ? []|exact I]|repeat constructor; unfold two32; cbn; lia]|split; [reflexivity|repeat constructor; unfold in_range; cbn; lia]]).
  pose proof (so_bw _ _ _ (H (RInt U8 [1%Z]) KBw O)) as Q. vm_compute in Q. destruct Q as [Q _]. discriminate Q.
Qed.

(** * Booleans *)

Lemma ss_nth_ge m : forall k lo, ssortedZ m -> Forall (fun x => (lo <= x)%Z) m -> k < length m -> (lo + Z.of_nat k <= nth k m 0)%Z.
Proof.
  induction m as [|x m IH]; intros k lo H F Hk; [cbn in Hk; lia|]. inversion F; subst. apply ss_cons in H. destruct H as [Ha Hb]. destruct k as [|k]; [cbn [nth]; lia|]. cbn [nth length] in *. specialize (IH k (lo + 1)%Z Hb).
  assert (Forall (fun y => (lo + 1 <= y)%Z) m) as F' by (apply Forall_forall; intros y Hy; specialize (Ha y Hy); lia). specialize (IH F' ltac:(lia)). lia.
Qed.
Lemma ss_length m n : ssortedZ m -> Forall (fun x => (0 <= x < Z.of_nat n)%Z) m -> length m <= n.
Proof.
  intros H F. destruct (length m) as [|k] eqn:E; [lia|]. pose proof (ss_nth_ge m k 0%Z H) as Q. assert (Forall (fun x => (0 <= x)%Z) m) as F0 by (eapply Forall_impl; [|exact F]; cbv beta; intros; lia). specialize (Q F0 ltac:(lia)).
  pose proof (Forall_nth_lt _ _ 0%Z k F ltac:(lia)) as Q'. cbv beta in Q'. lia.
Qed.
Lemma ss_shift m d : ssortedZ m -> ssortedZ (map (fun x => (x + d)%Z) m).
Proof.
  induction m as [|x m IH]; intros H; [exact I|]. apply ss_cons in H. destruct H as [H1 H2]. cbn [map]. apply ss_cons. split; [|auto]. intros y Hy. apply in_map_iff in Hy. destruct Hy as (z & <- & Hz). specialize (H1 z Hz). lia.
Qed.
Lemma in_set_indices bs i : In i (set_indices bs) <-> i < length bs /\ nth i bs false = true.
Proof. unfold set_indices. rewrite filter_In, in_seq. split; intros [A B]; split; auto; lia. Qed.
Lemma try_rbool_ok m n : bitmap_ok m -> Forall (fun x => (x < Z.of_nat n)%Z) m -> try_rbool m n = Ok (RBool m n) /\ rbool_ok (RBool m n).
Proof.
  intros B F. split; [|split; assumption]. unfold try_rbool. rewrite (proj2 (Nat.ltb_ge _ _)); [reflexivity|]. apply ss_length; [apply B|]. destruct B as [_ B2]. rewrite Forall_forall in *. intros x Hx. specialize (B2 x Hx). specialize (F x Hx). cbv beta in *. lia.
Qed.

(** Encoding a boolean array without nulls keeps every row. *)
Theorem rbool_encode_keeps_rows :
  forall off buf len v, wf f0 (ABool off buf len v) -> (Z.of_nat len <= two32)%Z -> ~ In VNull (logical (ABool off buf len v)) ->
  exists a, rbool_encode (ABool off buf len v) = Ok a /\ rbool_ok a /\ rbool_rows a = logical (ABool off buf len v).
Proof.
  intros off buf len v (W1 & W2 & W3) L32 NN. cbn [rbool_encode]. set (bs := lslice buf off (off + len)). assert (length bs = len) as Lb by (unfold bs; rewrite lslice_length; lia).
  assert (map (fun i => as_u32 (Z.of_nat i)) (set_indices bs) = map Z.of_nat (set_indices bs)) as ->.
  { apply map_ext_in. intros i Hi. apply in_set_indices in Hi. unfold as_u32. apply Z.mod_small. lia. }
  rewrite bm_of_id by apply set_indices_sorted. set (m := map Z.of_nat (set_indices bs)).
  assert (forall i, In (Z.of_nat i) m <-> i < len /\ nth i bs false = true) as IM.
  { intros i. unfold m. rewrite in_map_iff. rewrite <- Lb, <- in_set_indices. split; [intros (k & E & Hk); apply Nat2Z.inj in E; rewrite <- E; exact Hk|intros H; exists i; auto]. }
  assert (Forall (fun x => (0 <= x < Z.of_nat len)%Z) m) as F. { apply Forall_forall. intros x Hx. unfold m in Hx. apply in_map_iff in Hx. destruct Hx as (k & <- & Hk). apply in_set_indices in Hk. lia. }
  destruct (try_rbool_ok m len) as [E O].
  { split; [apply set_indices_sorted|]. eapply Forall_impl; [|exact F]. intros x Hx. cbv beta in *. lia. }
  { eapply Forall_impl; [|exact F]. intros x Hx. cbv beta in *. lia. }
  exists (RBool m len). split; [exact E|]. split; [exact O|]. unfold rbool_rows. cbn [rb_len rb_bits].
  assert (forall i, i < len -> vvalid v i = true) as VV.
  { intros i Hi. destruct (vvalid v i) eqn:V; [reflexivity|]. exfalso. apply NN. cbn [logical]. unfold tab. apply in_map_iff. exists i. rewrite V. split; [reflexivity|apply in_seq; lia]. }
  cbn [logical]. apply tab_ext. intros i Hi. rewrite (VV i Hi). f_equal. apply eq_true_iff_eq. rewrite contains_iff, IM. unfold bs. rewrite nth_lslice by lia. intuition.
Qed.
Print Assumptions rbool_encode_keeps_rows.
Theorem rbool_encode_rejects : forall a, match a with ABool _ _ _ _ => False | _ => True end -> rbool_encode a = Err.
Proof. intros a; destruct a; intros X; try reflexivity; destruct X. Qed.

Theorem rbool_decodes_to_the_rows :
  forall a, exists r, rbool_decode a = Ok r /\ logical r = rbool_rows a /\ adtype r = DBool false /\ forall f, wf f r.
Proof.
  intros a. eexists. split; [reflexivity|]. set (n := Nat.max _ _). assert (rb_len a <= n) as Hn by (unfold n; lia). clearbody n. split; [|split; [reflexivity|]].
  - cbn [logical vvalid]. unfold rbool_rows. apply tab_ext. intros i Hi. cbn [Nat.add]. rewrite nth_tab by lia. reflexivity.
  - intros f. cbn [wf vwf]. rewrite tab_length. split; [lia|]. split; [lia|exact I].
Qed.
Print Assumptions rbool_decodes_to_the_rows.

Theorem rbool_scalar_at_is_the_row :
  forall a i, (Z.of_nat (rb_len a) <= two32)%Z ->
  (i < length (rbool_rows a) -> rbool_scalar_at a i = Ok (nth i (rbool_rows a) VNull)) /\ (length (rbool_rows a) <= i -> rbool_scalar_at a i = Err).
Proof.
  intros a i L32. unfold rbool_rows, rbool_scalar_at. rewrite tab_length. split; intros Hi.
  - rewrite (proj2 (Nat.leb_gt _ _)) by exact Hi. rewrite nth_tab by exact Hi. unfold as_u32. rewrite Z.mod_small by lia. reflexivity.
  - rewrite (proj2 (Nat.leb_le _ _)) by exact Hi. reflexivity.
Qed.

(** Slicing: every range of an array of fewer than 2^32 rows. *)
Theorem rbool_slice_the_rows :
  forall a i j, rbool_ok a ->
  (i <= j -> j <= length (rbool_rows a) -> (Z.of_nat j < two32)%Z ->
    exists b, rbool_slice a i j = Ok b /\ rbool_ok b /\ rbool_rows b = spec_slice (rbool_rows a) i j) /\
  (j < i \/ length (rbool_rows a) < j -> rbool_slice a i j = Err).
Proof.
  intros a i j [B F]. assert (length (rbool_rows a) = rb_len a) as -> by (unfold rbool_rows; apply tab_length). split.
  - intros Hij Hj H32. unfold rbool_slice, slice_bad. rewrite !(proj2 (Nat.ltb_ge _ _)) by lia. cbn [orb]. unfold as_u32. rewrite !Z.mod_small by lia.
    set (m := rb_bits a) in *. set (m' := bm_offset (bm_and_range m (Z.of_nat i) (Z.of_nat j)) (- Z.of_nat i)).
    assert (forall x, In x m' <-> In (x + Z.of_nat i)%Z m /\ (0 <= x < Z.of_nat (j - i))%Z) as IM.
    { intros x. unfold m', bm_offset, bm_and_range. rewrite filter_In, andb_true_iff, Z.leb_le, Z.ltb_lt, in_map_iff. split.
      - intros ((z & <- & Hz) & H1 & H2). rewrite filter_In, andb_true_iff, Z.leb_le, Z.ltb_lt in Hz. destruct Hz as (Hz & H3 & H4). replace (z + - Z.of_nat i + Z.of_nat i)%Z with z by lia. split; [exact Hz|lia].
      - intros (Hx & H1). split; [|lia]. exists (x + Z.of_nat i)%Z. split; [lia|]. rewrite filter_In, andb_true_iff, Z.leb_le, Z.ltb_lt. split; [exact Hx|lia]. }
    destruct (try_rbool_ok m' (j - i)) as [E O].
    { split; [unfold m', bm_offset; apply filter_sorted, ss_shift, filter_sorted, B|]. apply Forall_forall. intros x Hx. apply IM in Hx. lia. }
    { apply Forall_forall. intros x Hx. apply IM in Hx. lia. }
    exists (RBool m' (j - i)). split; [exact E|]. split; [exact O|]. unfold rbool_rows. cbn [rb_len rb_bits]. fold m. apply (nth_ext_len _ _ VNull).
    { unfold spec_slice. rewrite firstn_length, skipn_length, !tab_length. lia. }
    intros k Hk. rewrite tab_length in Hk. unfold spec_slice. rewrite nth_firstn by exact Hk. rewrite nth_skipn, !nth_tab by lia. f_equal. apply eq_true_iff_eq. rewrite !contains_iff, IM. replace (Z.of_nat k + Z.of_nat i)%Z with (Z.of_nat (i + k)) by lia. split; [intros [X _]; exact X|intros X; split; [exact X|lia]].
  - intros HB. unfold rbool_slice, slice_bad. destruct (_ || _) eqn:Q; [reflexivity|]. rewrite !orb_false_iff, !Nat.ltb_ge in Q. lia.
Qed.
Print Assumptions rbool_slice_the_rows.

Theorem rbool_take_the_rows :
  forall a ip idx, is_int ip = true -> (Z.of_nat (length idx) <= pmax U64)%Z -> Forall (fun i => i < length (rbool_rows a)) idx ->
  exists r, rbool_take a ip idx = Ok r /\ spec_take (rbool_rows a) idx = Some (logical r) /\ adtype r = DBool false.
Proof.
  intros a ip idx Ii LI B. destruct (rbool_decodes_to_the_rows a) as (r & E & D & T & W). unfold rbool_take. rewrite Ii, E. cbn [bind]. rewrite <- D in B |- *.
  set (g := Flags true true true true true true true true true true).
  destruct (take_commutes_with_decoding g r ip idx (W g) eq_refl eq_refl Ii LI B) as [G1 G2]. destruct (G2 (or_introl eq_refl)) as (c & E1). destruct (G1 c E1) as (Q1 & _ & _ & Q4 & _).
  exists c. split; [exact E1|]. split; [exact Q1|]. rewrite Q4 by (left; reflexivity). exact T.
Qed.
Theorem rbool_filter_the_rows :
  forall a m, (Z.of_nat (length m) <= pmax U64)%Z -> length m = length (rbool_rows a) ->
  exists r, rbool_filter a (mask_of m) = Ok r /\ logical r = spec_filter (rbool_rows a) m /\ adtype r = DBool false.
Proof.
  intros a m LM LEN. destruct (rbool_decodes_to_the_rows a) as (r & E & D & T & W). unfold rbool_filter. rewrite E. cbn [bind]. rewrite <- D in *.
  set (g := Flags true true true true true true true true true true).
  destruct (filter_commutes_with_decoding g r m (W g) eq_refl eq_refl LM LEN) as [G1 G2]. destruct (G2 eq_refl) as (c & E1). destruct (G1 c E1) as (Q1 & _ & Q4 & _).
  exists c. split; [exact E1|]. split; [exact Q1|]. rewrite Q4 by (left; reflexivity). exact T.
Qed.

(** ** Statistics *)

Definition bits_of (a : rbool) : list bool := tab (rb_len a) (fun i => bm_contains (rb_bits a) (Z.of_nat i)).
Lemma rows_bits a : rbool_rows a = map (fun b => VBool b) (bits_of a).
Proof. unfold rbool_rows, bits_of, tab. rewrite map_map. reflexivity. Qed.
Lemma card_is_count a : rbool_ok a -> length (rb_bits a) = count id (bits_of a).
Proof.
  intros [[B1 B2] F]. rewrite <- set_indices_length. rewrite <- (map_length Z.of_nat). f_equal. apply ss_unique; [exact B1|apply set_indices_sorted|]. intros x. rewrite in_map_iff. split.
  - intros Hx. rewrite Forall_forall in B2, F. pose proof (B2 x Hx) as X1. pose proof (F x Hx) as X2. cbv beta in *. exists (Z.to_nat x). split; [lia|]. apply in_set_indices. unfold bits_of. rewrite tab_length. split; [lia|]. rewrite nth_tab by lia. apply contains_iff. replace (Z.of_nat (Z.to_nat x)) with x by lia. exact Hx.
  - intros (k & <- & Hk). apply in_set_indices in Hk. unfold bits_of in Hk. rewrite tab_length in Hk. destruct Hk as [H1 H2]. rewrite nth_tab in H2 by exact H1. apply contains_iff. exact H2.
Qed.
Lemma bacc_of_rows (x : bool) (r : list bool) : bacc_ok (map (fun b => VBool b) (x :: r)) (fold_left bacc_next r (bacc_new x)).
Proof.
  assert (fold_left bacc_next r (bacc_new x) = fold_left bacc_nullable_next (map Some r) (bacc_new x)) as ->.
  { generalize (bacc_new x). clear. induction r as [|y r IH]; intros c; [reflexivity|]. cbn. apply IH. }
  change (map (fun b => VBool b) (x :: r)) with ([VBool x] ++ map (fun b => VBool b) r). replace (map (fun b => VBool b) r) with (map voB (map Some r)) by (rewrite map_map; reflexivity).
  apply bacc_fold_ok; [constructor; [exact I|constructor]|apply bacc_new_ok].
Qed.
Lemma bools_ok l : bs_ok (map (fun b => VBool b) l) /\ bool_cond (map (fun b => VBool b) l).
Proof.
  split; [apply Forall_forall; intros x Hx; apply in_map_iff in Hx; destruct Hx as (b & <- & _); exact I|]. intros H. apply in_map_iff in H. destruct H as (b & E & _). discriminate E.
Qed.
Lemma count_true l : count is_true_v (map (fun b => VBool b) l) = count id l.
Proof. unfold count. induction l as [|x l IH]; [reflexivity|]. cbn. destruct x; cbn; rewrite ?IH; reflexivity. Qed.
Lemma count_null l : count is_null (map (fun b => VBool b) l) = 0.
Proof. unfold count. induction l as [|x l IH]; [reflexivity|]. cbn. exact IH. Qed.

(** The statistics set by the constructor are true of a non-empty array. *)
Theorem rbool_init_stats_are_sound :
  forall a, rbool_ok a -> 0 < rb_len a -> sound (DBool true) (rbool_rows a) (rbool_init_stats a).
Proof.
  intros a O HL. pose proof (card_is_count a O) as C. rewrite rows_bits. assert (length (bits_of a) = rb_len a) as LB by (unfold bits_of; apply tab_length).
  unfold rbool_init_stats. rewrite C, <- LB. assert (exists x r, bits_of a = x :: r) as (x & r & E) by (destruct (bits_of a) as [|x r]; [cbn in LB; lia|eauto]).
  pose proof (bacc_of_rows x r) as BO. rewrite <- E in BO. destruct (bools_ok (bits_of a)) as [H1 H2]. pose proof (bacc_sound _ _ H1 H2 BO) as S.
  destruct BO as [_ D2 D3 D4]. rewrite count_true in D3. rewrite count_null in D2. rewrite map_length in D4. set (c := fold_left bacc_next r (bacc_new x)) in *. clearbody c.
  unfold bacc_finish in S. rewrite D2, D3, D4 in S. assert ((0 =? length (bits_of a)) = false) as Z0 by (apply Nat.eqb_neq; rewrite LB; lia). rewrite Z0 in S. cbn [Nat.eqb andb] in S. rewrite orb_false_r in S.
  destruct S as [S1 S2 S3 S4 S5 S6 S7 S8 S9 S10 S11]. cbn [s_min s_max s_const s_sorted s_strict s_runs s_true s_nulls s_bw s_tz oall snd] in *. constructor; cbn [s_min s_max s_const s_sorted s_strict s_runs s_true s_nulls s_bw s_tz oall snd]; auto.
Qed.
Print Assumptions rbool_init_stats_are_sound.

Lemma fold_concat {A B} (f : A -> B -> A) (g : nat -> list B) ws c : fold_left (fun c w => fold_left f (g w) c) ws c = fold_left f (concat (map g ws)) c.
Proof. revert c; induction ws as [|w ws IH]; intros c; [reflexivity|]. cbn [fold_left map concat]. rewrite fold_left_app. apply IH. Qed.
Lemma words_concat m whole k : concat (map (fun w => word_bits m w 64) (seq 0 whole)) ++ word_bits m whole k = tab (64 * whole + k) (fun i => bm_contains m (Z.of_nat i)).
Proof.
  assert (forall n f g, (forall i, i < n -> f i = g i) -> forall n', tab (n + n') f = @tab bool n g ++ tab n' (fun i => f (n + i))) as TA.
  { intros n f g H n'. unfold tab. rewrite seq_app, map_app. f_equal; [apply map_ext_in; intros i Hi; apply in_seq in Hi; apply H; lia|]. cbn [Nat.add]. clear. assert (forall b n'', map f (seq (n + b) n'') = map (fun i => f (n + i)) (seq b n'')) as G.
    { clear n'. intros b n'. revert b. induction n' as [|n' IH]; intros b; [reflexivity|]. cbn [seq map]. f_equal. rewrite <- IH. f_equal. f_equal. lia. }
    rewrite <- (G 0 n'), Nat.add_0_r. reflexivity. }
  assert (concat (map (fun w => word_bits m w 64) (seq 0 whole)) = tab (64 * whole) (fun i => bm_contains m (Z.of_nat i))) as ->.
  { induction whole as [|w IH]; [reflexivity|]. rewrite seq_S, map_app, concat_app, IH. cbn [map concat]. rewrite app_nil_r. replace (64 * S w) with (64 * w + 64) by lia. rewrite (TA (64 * w) _ _ (fun i _ => eq_refl)). reflexivity. }
  rewrite (TA (64 * whole) _ _ (fun i _ => eq_refl)). reflexivity.
Qed.
Lemma racc_bacc (x : bool) (r : list bool) : forall c b, r_prev c = b_prev b -> r_sorted c = b_sorted b -> r_runs c = b_runs b -> r_len c = b_len b ->
  let c' := fold_left racc_next r c in let b' := fold_left bacc_next r b in
  r_sorted c' = b_sorted b' /\ r_runs c' = b_runs b' /\ r_len c' = b_len b'.
Proof.
  induction r as [|y r IH]; intros c b H1 H2 H3 H4; [cbn; auto|]. cbn [fold_left]. apply IH; unfold racc_next, bacc_next; cbn [r_prev r_sorted r_runs r_len b_prev b_sorted b_runs b_len]; rewrite ?H1, ?H2, ?H3, ?H4; reflexivity.
Qed.

(** Sortedness and run count: computed, and true, if the array has fewer than 64 rows or a true among the rows of its last, incomplete group of 64;
    otherwise computing them panics. *)
Theorem rbool_stats_are_sound :
  forall a, rbool_ok a -> 0 < rb_len a ->
  ((rb_len a < 64 \/ exists i, 64 * (rb_len a / 64) <= i < rb_len a /\ nth i (rbool_rows a) VNull = VBool true) ->
    exists s, rbool_stats a = Ok s /\ sound (DBool true) (rbool_rows a) s /\ s_sorted s <> None /\ s_runs s <> None) /\
  (64 <= rb_len a -> (forall i, 64 * (rb_len a / 64) <= i < rb_len a -> nth i (rbool_rows a) VNull = VBool false) -> rbool_stats a = Panic).
Proof.
  intros a O HL. pose proof O as [[B1 B2] F]. unfold rbool_stats. rewrite (proj2 (Nat.eqb_neq _ _)) by lia. cbv zeta. set (m := rb_bits a) in *. set (whole := rb_len a / 64) in *.
  assert (64 * whole + rb_len a mod 64 = rb_len a) as DM by (unfold whole; rewrite <- Nat.div_mod by lia; reflexivity).
  split.
  - intros HC. assert (bm_words m <=? whole = false) as ->.
    { apply Nat.leb_gt. unfold bm_words. destruct HC as [HC|(i & Hi & Ni)]; [assert (whole = 0) as -> by (unfold whole; apply Nat.div_small; exact HC); lia|].
      unfold rbool_rows in Ni. rewrite nth_tab in Ni by lia. injection Ni as Ni. apply contains_iff in Ni. fold m in Ni. assert (m <> []) as NE by (intros E; rewrite E in Ni; destruct Ni). rewrite bm_max_last by exact NE.
      pose proof (bm_max_ge m _ _ B1 (bm_max_last m NE) Ni) as Q. assert (Z.of_nat whole <= last m 0 / 64)%Z by (apply Z.div_le_lower_bound; lia). lia. }
    rewrite (fold_concat racc_next (fun w => word_bits m w 64)), <- fold_left_app, words_concat, DM. change (tab (rb_len a) (fun i => bm_contains m (Z.of_nat i))) with (bits_of a). eexists. split; [reflexivity|]. split; [|split; discriminate].
    rewrite rows_bits. pose proof (card_is_count a O) as C. fold m in C. rewrite C. assert (length (bits_of a) = rb_len a) as LB by (unfold bits_of; apply tab_length).
    assert (bm_contains m 0 = nth 0 (bits_of a) false) as -> by (unfold bits_of; rewrite nth_tab by lia; reflexivity).
    destruct (bits_of a) as [|x r] eqn:E; [cbn in LB; lia|]. cbn [nth fold_left].
    assert (racc_next (RAcc x true 1 0) x = RAcc x true 1 1) as -> by (destruct x; reflexivity).
    destruct (racc_bacc x r (RAcc x true 1 1) (bacc_new x) eq_refl eq_refl eq_refl eq_refl) as (Q1 & Q2 & Q3). cbv zeta in *.
    pose proof (bacc_of_rows x r) as BO. destruct (bools_ok (x :: r)) as [H1 H2]. pose proof (bacc_sound _ _ H1 H2 BO) as S. destruct BO as [_ D2 D3 D4]. rewrite count_true in D3.
    unfold racc_finish. rewrite Q1, Q2, Q3. set (c := fold_left bacc_next r (bacc_new x)) in *. clearbody c. unfold bacc_finish in S. rewrite <- D3.
    destruct S as [S1 S2 S3 S4 S5 S6 S7 S8 S9 S10 S11]. cbn [s_min s_max s_const s_sorted s_strict s_runs s_true s_nulls s_bw s_tz oall snd] in *. constructor; cbn [s_min s_max s_const s_sorted s_strict s_runs s_true s_nulls s_bw s_tz oall snd]; auto.
  - intros H64 HF. assert (bm_words m <=? whole = true) as ->; [|reflexivity]. apply Nat.leb_le. unfold bm_words. assert (1 <= whole) as W1 by (unfold whole; apply Nat.div_le_lower_bound; lia).
    destruct (bm_max m) as [x|] eqn:EM; [|lia]. apply bm_max_in in EM. rewrite Forall_forall in B2, F. pose proof (B2 x EM) as X1. pose proof (F x EM) as X2. cbv beta in *.
    assert (x < 64 * Z.of_nat whole)%Z as Q.
    { destruct (Z.lt_ge_cases x (64 * Z.of_nat whole)) as [|G]; [assumption|]. specialize (HF (Z.to_nat x) ltac:(lia)). unfold rbool_rows in HF. rewrite nth_tab in HF by lia. injection HF as HF. replace (Z.of_nat (Z.to_nat x)) with x in HF by lia. apply contains_iff in EM. fold m in HF. congruence. }
    assert (x / 64 < Z.of_nat whole)%Z by (apply Z.div_lt_upper_bound; lia). assert (0 <= x / 64)%Z by (apply Z.div_pos; lia). lia.
Qed.
Print Assumptions rbool_stats_are_sound.

(** ** What the code gets wrong *)

(** Encoding ignores the validity: nulls become values. *)
Theorem rbool_encode_nulls_refuted :
  exists a, wf f0 (ABool 0 [true; true] 2 (VBits [true; false])) /\ rbool_encode (ABool 0 [true; true] 2 (VBits [true; false])) = Ok a /\ rbool_rows a = [VBool true; VBool true] /\
    logical (ABool 0 [true; true] 2 (VBits [true; false])) = [VBool true; VNull].
Proof. eexists. split; [cbn; lia|]. split; [reflexivity|]. split; reflexivity. Qed.
(** Computing the sortedness of 64 rows panics, whatever they are. *)
Theorem rbool_stats_panic_refuted : forall m, rbool_ok (RBool m 64) -> rbool_stats (RBool m 64) = Panic.
Proof. intros m O. apply (rbool_stats_are_sound _ O); cbn [rb_len]; [lia|lia|]. intros i Hi. exfalso. change (64 / 64) with 1 in Hi. lia. Qed.
(** The constructor accepts members beyond the length; the statistics then count rows that are not there. *)
Theorem rbool_constructor_refuted :
  exists a, try_rbool [5%Z] 2 = Ok a /\ rbool_rows a = [VBool false; VBool false] /\ s_true (rbool_init_stats a) = Some 1 /\ s_max (rbool_init_stats a) = Some (false, VBool true).
Proof. eexists. split; [reflexivity|]. repeat split. Qed.
(** At exactly 2^32 rows the end of the range wraps to 0: the slice of the whole array is all false. *)
Theorem rbool_slice_wraps_refuted :
  forall m n, rbool_ok (RBool m n) -> Z.of_nat n = two32 -> rbool_slice (RBool m n) 0 n = Ok (RBool [] n).
Proof.
  intros m n [B F] Hn. unfold rbool_slice, slice_bad. cbn [rb_len rb_bits]. rewrite !(proj2 (Nat.ltb_ge _ _)) by lia. cbn [orb]. rewrite Hn. unfold as_u32. rewrite Z.mod_same by (unfold two32; cbn; lia). change (Z.of_nat 0) with 0%Z. rewrite Z.mod_0_l by (unfold two32; cbn; lia).
  assert (bm_and_range m 0 0 = []) as ->; [|rewrite Nat.sub_0_r; unfold try_rbool; cbn [bm_offset map filter length]; reflexivity].
  clear. unfold bm_and_range. induction m as [|x m IH]; [reflexivity|]. cbn [filter]. destruct (Z.leb_spec 0 x); cbn [andb]; [|exact IH]. rewrite (proj2 (Z.ltb_ge _ _)) by lia. exact IH.
Qed.

(** * The hypotheses are met *)
Example ex_rint : rint_ok (RInt U16 [0; 5; 300]%Z) /\ rint_encode (APrim U16 [0; 5; 300]%Z VNonNull) = Ok (RInt U16 [0; 5; 300]%Z) /\
  wf f0 (APrim U16 [0; 5; 300]%Z VNonNull) /\ ssortedZ [0; 5; 300]%Z.
Proof.
  assert (ssortedZ [0; 5; 300]%Z) as S by (cbn; intuition lia). split; [|split; [reflexivity|split; [|exact S]]].
  - split; [split; [exact S|repeat constructor; unfold two32; cbn; lia]|]. split; [reflexivity|repeat constructor; unfold in_range; cbn; lia].
  - split; [repeat constructor; unfold in_range; cbn; lia|exact I].
Qed.
Example ex_rbool : rbool_ok (RBool [0; 2]%Z 4) /\ rbool_encode (ABool 1 [true; true; false; true; false] 4 VNonNull) = Ok (RBool [0; 2]%Z 4) /\
  rbool_rows (RBool [0; 2]%Z 4) = [VBool true; VBool false; VBool true; VBool false].
Proof.
  split; [|split; reflexivity]. split; [split; [cbn; intuition lia|repeat constructor; unfold two32; cbn; lia]|repeat constructor; cbn; lia].
Qed.

(** A bitmap becomes an integer array exactly when every member fits the type. *)
Theorem roaring_int_accepted_exactly : forall m p, bitmap_ok m ->
  ((exists a, try_rint m p = Ok a) <-> is_unsigned p = true /\ forall x, In x m -> (x <= pmax p)%Z).
Proof.
  intros m p [B1 B2]. unfold try_rint. destruct (is_unsigned p) eqn:U; cbn [negb]; [|split; [intros [a E]; discriminate|intros [E _]; discriminate]].
  destruct (bm_max m) as [y|] eqn:E.
  - pose proof (bm_max_in _ _ E) as I. destruct (Z.ltb_spec (pmax p) y).
    + split; [intros [a X]; discriminate|]. intros [_ X]. specialize (X y I). lia.
    + split; [|eauto]. intros _. split; [reflexivity|]. intros x Hx. enough (x <= y)%Z by lia.
      destruct m as [|z m]; [discriminate|]. assert (y = last (z :: m) 0%Z) as -> by (cbv [bm_max] in E; congruence). clear E.
      apply (In_nth _ _ 0%Z) in Hx. destruct Hx as (k & Hk & <-).
      assert (forall (l : list Z), l <> [] -> last l 0%Z = nth (length l - 1) l 0%Z) as LN.
      { clear. induction l as [|x [|y l] IH]; intros N; [congruence|reflexivity|]. change (last (x :: y :: l) 0%Z) with (last (y :: l) 0%Z).
        rewrite IH by discriminate. cbn [length]. rewrite !Nat.sub_succ, !Nat.sub_0_r. reflexivity. }
      rewrite LN by discriminate. destruct (Nat.eq_dec k (length (z :: m) - 1)) as [->|]; [lia|].
      pose proof (ssortedZ_nth (z :: m) k (length (z :: m) - 1) B1 ltac:(lia) ltac:(lia)). lia.
  - split; [|eauto]. intros _. split; [reflexivity|]. destruct m; [intros x []|discriminate].
Qed.
