(** C14 and C15: run-end encoding. *)
From Verif Require Import Base Spec SearchModel SearchProofs Arr ArrRead ArrWf ArrReadProofs ArrSlice ArrSliceProofs ArrSliceMain
  ValidityModel PropValidity StatsModel StatsProofs PropIntEnc RunEnc.

(** Class of arrays on which slicing non-empty ranges and decoding are total and faithful (run-end arrays cannot be in the
    class of totally sliceable arrays, see C02). *)
Definition f_decr : flags := Flags false true true true true false false false false false.

(** * Generic facts about the decoding loops *)
Lemma count_cons {A} (f : A -> bool) x l : count f (x :: l) = (if f x then 1 else 0) + count f l.
Proof. unfold count. cbn [filter]. destruct (f x); reflexivity. Qed.

Lemma last_cons {A} (x : A) l d : last (x :: l) d = last l x.
Proof.
  revert x d; induction l as [|y l IH]; intros x d; [reflexivity|].
  change (last (y :: l) d = last (y :: l) x). rewrite !IH. reflexivity.
Qed.

Lemma ree_decode_spec {A} (d : A) ends : forall vals acc,
  length ends = length vals -> (forall i j, i <= j -> j < length ends -> nth i ends 0 <= nth j ends 0) ->
  Forall (fun e => length acc <= e) ends ->
  exists out, ree_decode_loop acc ends vals = Ok out /\ length out = last ends (length acc) /\
    (forall i, i < length acc -> nth i out d = nth i acc d) /\
    (forall i, length acc <= i < length out -> nth i out d = nth (count (fun e => e <=? i) ends) vals d).
Proof.
  induction ends as [|e ends IH]; intros vals acc L S F.
  - destruct vals; [|discriminate]. exists acc. cbn. split; [reflexivity|]. split; [reflexivity|]. split; [auto|lia].
  - destruct vals as [|x vals]; [discriminate|]. cbn [ree_decode_loop].
    inversion F as [|? ? Fe Fr]; subst.
    destruct (Nat.ltb_spec e (length acc)); [lia|].
    set (acc' := acc ++ repeat x (e - length acc)).
    assert (length acc' = e) as La by (unfold acc'; rewrite app_length, repeat_length; lia).
    destruct (IH vals acc') as (out & E & Lo & P1 & P2).
    + cbn in L; lia.
    + intros i j Hij Hj. apply (S (Datatypes.S i) (Datatypes.S j)); cbn [length]; lia.
    + apply Forall_forall. intros y Hy. apply (In_nth _ _ 0) in Hy. destruct Hy as (k & Hk & <-).
      rewrite La. apply (S 0 (Datatypes.S k)); cbn [length]; lia.
    + exists out. split; [exact E|]. split; [rewrite Lo, La, last_cons; reflexivity|].
      split.
      * intros i Hi. rewrite P1 by lia. unfold acc'. rewrite app_nth1 by lia. reflexivity.
      * intros i Hi. rewrite count_cons. destruct (Nat.leb_spec e i).
        -- cbn [Nat.add nth]. apply P2. lia.
        -- rewrite P1 by lia. unfold acc'. rewrite app_nth2 by lia. rewrite nth_repeat_lt by lia.
           rewrite (proj2 (count_zero (fun e0 => e0 <=? i) ends)); [reflexivity|]. intros y Hy. apply (In_nth _ _ 0) in Hy. destruct Hy as (k & Hk & <-).
           pose proof (S 0 (Datatypes.S k) ltac:(lia) ltac:(cbn [length]; lia)) as Q. cbn [nth] in Q. lia.
Qed.

Lemma reb_ree start ends : forall idx acc,
  reb_decode_loop acc idx start ends =
  ree_decode_loop acc ends (map (fun k => value_at_index k start) (seq idx (length ends))).
Proof.
  induction ends as [|e ends IH]; intros idx acc; [reflexivity|].
  cbn [reb_decode_loop ree_decode_loop length seq map]. destruct (e <? length acc); [reflexivity|]. apply IH.
Qed.

Lemma last_map {A B} (f : A -> B) l d d' : l <> [] -> last (map f l) d' = f (last l d).
Proof.
  induction l as [|x l IH]; [congruence|]. intros _. destruct l as [|y l]; [reflexivity|].
  change (last (map f (y :: l)) d' = f (last (y :: l) d)). apply IH. discriminate.
Qed.

(** Trimmed ends: monotone, ending with the length, counting positions like the run index. *)
Lemma trim_ends_spec pe ends off len :
  is_unsigned pe = true -> Forall (in_range pe) ends -> ssortedZ ends ->
  Forall (fun e => Z.of_nat off <= e)%Z ends ->
  match ends with [] => len = 0 /\ off = 0 | _ => (Z.of_nat (off + len) <= last ends 0)%Z end ->
  exists es, trim_ends pe ends off len = Ok es /\ length es = length ends /\
    (forall i j, i <= j -> j < length es -> nth i es 0 <= nth j es 0) /\
    last es 0 = len /\
    (forall i, i < len -> count (fun e => e <=? i) es = run_index ends (off + i)).
Proof.
  intros Hu R S F L. unfold trim_ends.
  assert (pmin pe = 0%Z) as P0 by (destruct pe; cbn in Hu; try discriminate; reflexivity).
  assert (in_range pe (Z.of_nat off) /\ in_range pe (Z.of_nat len)) as [R1 R2].
  { destruct ends as [|x r].
    - destruct L as [-> ->]. destruct pe; cbn in *; try discriminate; unfold in_range; cbn; lia.
    - assert (In (last (x :: r) 0%Z) (x :: r)) as I.
      { rewrite last_nth. apply nth_In. cbn; lia. }
      rewrite Forall_forall in R. specialize (R _ I). unfold in_range in *. lia. }
  apply in_rangeb_spec in R1, R2. rewrite R1, R2. cbn [negb orb].
  set (g := fun e => Z.to_nat (Z.min (e - Z.of_nat off) (Z.of_nat len))).
  rewrite mapM_ok_map with (g := g).
  2:{ intros e He. rewrite Forall_forall in R, F. specialize (R _ He). specialize (F _ He).
      assert (in_rangeb pe (e - Z.of_nat off) = true) as ->; [|reflexivity]. apply in_rangeb_spec. unfold in_range in *. lia. }
  exists (map g ends). split; [reflexivity|]. split; [apply map_length|]. split; [|split].
  - intros i j Hij Hj. rewrite map_length in Hj. rewrite !(map_nth_lt g ends 0%Z) by lia.
    pose proof (sortedZ_nth ends i j (ssorted_sorted _ S) Hij Hj). unfold g. lia.
  - destruct ends as [|x r]; [destruct L; subst; reflexivity|].
    rewrite (last_map g _ 0%Z) by discriminate. unfold g. lia.
  - intros i Hi. unfold run_index. rewrite count_map. apply count_ext. intros e He.
    rewrite Forall_forall in F. specialize (F _ He). unfold g.
    destruct (Nat.leb_spec (Z.to_nat (Z.min (e - Z.of_nat off) (Z.of_nat len))) i), (Z.leb_spec e (Z.of_nat (off + i))); (reflexivity || lia).
Qed.

(** * C14: run-end encoding of primitive values *)
Lemma ree_loop_spec p l : forall last_ e ends vals,
  ree_loop p last_ e l = (ends, vals) -> 1 <= e ->
  Forall (in_range p) (last_ :: l) -> Forall (no_neg_zero p) (last_ :: l) ->
  length ends = length vals /\ ends <> [] /\ ssortedZ ends /\ Forall (fun z => Z.of_nat e <= z)%Z ends /\
  last ends 0%Z = Z.of_nat (e + length l) /\
  (forall x, e - 1 <= x -> x < e + length l -> nth (run_index ends x) vals 0%Z = nth (x - (e - 1)) (last_ :: l) 0%Z) /\
  (forall k, k + 1 < length vals -> peq p (nth (k + 1) vals 0%Z) (nth k vals 0%Z) = false) /\
  nth 0 vals 0%Z = last_ /\
  incl vals (last_ :: l).
Proof.
  induction l as [|y l IH]; intros last_ e ends vals E He R N.
  - cbn in E. injection E as <- <-. cbn [length].
    split; [reflexivity|]. split; [discriminate|]. split; [split; [intros ? []|exact I]|].
    split; [constructor; [lia|constructor]|]. split; [cbn; f_equal; lia|]. split.
    { intros x H1 H2. replace x with (e - 1) by lia. rewrite Nat.sub_diag.
      unfold run_index, count. cbn [filter]. destruct (Z.leb_spec (Z.of_nat e) (Z.of_nat (e - 1))); [lia|]. reflexivity. }
    split; [intros k Hk; lia|]. split; [reflexivity|]. intros z Hz. exact Hz.
  - cbn [ree_loop] in E. destruct (ree_loop p y (e + 1) l) as [ends' vals'] eqn:E'.
    inversion R as [|? ? R0 R1]; subst. inversion N as [|? ? N0 N1]; subst.
    destruct (IH _ _ _ _ E' ltac:(lia) R1 N1) as (L1 & L2 & L3 & L4 & L5 & L6 & L7 & L8 & L9).
    pose proof (Forall_inv R1). pose proof (Forall_inv N1).
    cbn [fst snd] in E. destruct (peq p y last_) eqn:Q; cbn [negb] in E; injection E as <- <-.
    + assert (y = last_) as ->.
      { eapply (peq_eq p); eauto. }
      split; [exact L1|]. split; [exact L2|]. split; [exact L3|]. split.
      { eapply Forall_impl; [|exact L4]. intros z Hz. cbv beta in Hz. lia. }
      split; [rewrite L5; cbn [length]; f_equal; lia|]. split; [|split; [exact L7|split; [exact L8|]]].
      * intros x H1 H2'. destruct (Nat.eq_dec x (e - 1)) as [->|Nx].
        -- rewrite Nat.sub_diag. cbn [nth].
           assert (run_index ends' (e - 1) = 0) as ->; [|exact L8].
           apply count_zero. intros z Hz. rewrite Forall_forall in L4. specialize (L4 _ Hz). cbv beta in L4. lia.
        -- rewrite L6 by (cbn [length] in *; lia). replace (x - (e - 1)) with (S (x - (e + 1 - 1))) by lia. reflexivity.
      * intros z Hz. right. apply L9, Hz.
    + split; [cbn [length]; lia|]. split; [discriminate|]. split.
      { split; [|exact L3]. rewrite Forall_forall in L4. intros z Hz. specialize (L4 _ Hz). lia. }
      split. { constructor; [lia|]. eapply Forall_impl; [|exact L4]. intros z Hz. cbv beta in Hz. lia. }
      split; [|split; [|split; [|split; [reflexivity|]]]].
      * cbn [length]. destruct ends' as [|z r]; [congruence|].
        change (last (Z.of_nat e :: z :: r) 0%Z) with (last (z :: r) 0%Z). rewrite L5. f_equal. lia.
      * intros x H1 H2'. unfold run_index. rewrite count_cons. fold (run_index ends' x).
        destruct (Z.leb_spec (Z.of_nat e) (Z.of_nat x)).
        -- cbn [Nat.add nth]. rewrite L6 by (cbn [length] in *; lia). replace (x - (e - 1)) with (S (x - (e + 1 - 1))) by lia. reflexivity.
        -- assert (x = e - 1) as -> by lia. rewrite Nat.sub_diag. cbn [Nat.add].
           assert (run_index ends' (e - 1) = 0) as ->; [|reflexivity].
           apply count_zero. intros z Hz. rewrite Forall_forall in L4. specialize (L4 _ Hz). cbv beta in L4. lia.
      * intros k Hk. destruct k as [|k]; [cbn [Nat.add nth]; rewrite L8; exact Q|].
        cbn [Nat.add nth]. apply L7. cbn [length] in Hk. lia.
      * intros z [<-|Hz]; [left; reflexivity|right; apply L9, Hz].
Qed.

Lemma runend_encode_eq p l v ends vals :
  ree_encode_primitive p l = (ends, vals) -> ssortedZ ends ->
  match ends with [] => l = [] | _ => last ends 0%Z = Z.of_nat (length l) end -> vwf v (length l) ->
  runend_encode p l v =
  Ok (ARunEnd (APrim U64 ends VNonNull) (APrim p vals (if vnullable v then VAllValid else VNonNull)) v 0 (length l)).
Proof.
  intros E S L Hv. unfold runend_encode. rewrite E.
  assert (match ends with [] => 0 | _ => Z.to_nat (last ends 0%Z) end = length l) as ->.
  { destruct ends; [subst; reflexivity|]. rewrite L. apply Nat2Z.id. }
  unfold try_runend. cbn [adtype nullable]. replace (vnullable (if vnullable v then VAllValid else VNonNull)) with (vnullable v) by (destruct v; reflexivity).
  rewrite Bool.eqb_reflx. cbn [negb Nat.eqb andb bind uint_nonnull is_unsigned vnullable].
  rewrite logical_nonnull_ints. apply ssortedb_spec in S. rewrite S. cbn [negb].
  assert (vfits v (length l) = true) as -> by (destruct v; cbn in *; auto; apply Nat.eqb_eq; auto). reflexivity.
Qed.
Lemma nonnull_logical_prim p l v : v = VNonNull \/ v = VAllValid -> logical (APrim p l v) = map VInt l.
Proof.
  intros [->| ->]; cbn [logical]; unfold tab; cbn [vvalid]; rewrite <- (map_map (fun i => nth i l 0%Z) VInt); f_equal;
    apply nth_ext_len with (d := 0%Z); rewrite ?map_length, ?seq_length; auto; intros i Hi; (rewrite (map_nth_lt _ _ 0) by (rewrite seq_length; lia));
    rewrite seq_nth by lia; reflexivity.
Qed.
Lemma non_null_map l : non_null (map VInt l).
Proof. unfold non_null. apply Forall_forall. intros x Hx. apply in_map_iff in Hx. destruct Hx as (z & <- & _). discriminate. Qed.

(** Encoding then reading gives back the original; the stored form is minimal. *)
Theorem runend_roundtrip :
  forall p l v, wf f0 (APrim p l v) -> Forall (no_neg_zero p) l -> (Z.of_nat (length l) <= pmax U64)%Z ->
  exists ends vals vv,
    let r := ARunEnd (APrim U64 ends VNonNull) (APrim p vals vv) v 0 (length l) in
    runend_encode p l v = Ok r /\
    logical r = logical (APrim p l v) /\ adtype r = adtype (APrim p l v) /\ wf f0 r /\ wf f_decr r /\
    (* minimality *)
    ssortedZ ends /\ (l <> [] -> last ends 0%Z = Z.of_nat (length l)) /\ length ends = length vals /\
    (forall k, k + 1 < length vals -> peq p (nth (k + 1) vals 0%Z) (nth k vals 0%Z) = false).
Proof.
  intros p l v [R Hv] N Hlen.
  destruct (ree_encode_primitive p l) as [ends vals] eqn:E.
  exists ends, vals, (if vnullable v then VAllValid else VNonNull).
  set (vv := if vnullable v then VAllValid else VNonNull).
  assert (vv = VNonNull \/ vv = VAllValid) as Hvv by (unfold vv; destruct (vnullable v); auto).
  assert (vnullable vv = vnullable v) as Hnv by (unfold vv; destruct (vnullable v) eqn:Q; auto).
  assert (length ends = length vals /\ ssortedZ ends /\ Forall (fun z => 1 <= z <= Z.of_nat (length l))%Z ends /\
    match ends with [] => l = [] | _ => last ends 0%Z = Z.of_nat (length l) end /\
    (forall x, x < length l -> nth (run_index ends x) vals 0%Z = nth x l 0%Z) /\
    (forall k, k + 1 < length vals -> peq p (nth (k + 1) vals 0%Z) (nth k vals 0%Z) = false) /\
    (forall x, x < length l -> run_index ends x < length vals) /\
    Forall (in_range p) vals) as (L1 & L2 & L3 & L4 & L5 & L6 & L7 & L8).
  { destruct l as [|x l].
    - cbn in E. injection E as <- <-. repeat split; cbn; auto; lia.
    - cbn [ree_encode_primitive] in E. destruct (ree_loop_spec p l x 1 ends vals E ltac:(lia) R N) as (A1 & A2 & A3 & A4 & A5 & A6 & A7 & A8 & A9).
      split; [exact A1|]. split; [exact A3|].
      assert (length ends <> 0) as Ne by (destruct ends; cbn; congruence).
      assert (last ends 0%Z = Z.of_nat (length (x :: l))) as A5' by (rewrite A5; cbn [length]; f_equal; lia).
      split.
      { apply Forall_forall. intros z Hz. rewrite Forall_forall in A4. pose proof (A4 _ Hz) as B. cbv beta in B.
        apply (In_nth _ _ 0%Z) in Hz. destruct Hz as (k & Hk & <-).
        pose proof (sortedZ_nth ends k (length ends - 1) (ssorted_sorted _ A3) ltac:(lia) ltac:(lia)) as C.
        rewrite <- last_nth in C. lia. }
      split; [destruct ends; [congruence|exact A5']|]. split.
      { intros i Hi. rewrite A6 by (cbn [length] in *; lia). f_equal. lia. }
      split; [exact A7|]. split.
      { intros i Hi. rewrite <- A1. apply run_index_lt; [exact A2|]. rewrite A5'. lia. }
      { apply Forall_forall. intros z Hz. rewrite Forall_forall in R. apply R, A9, Hz. } }
  assert (logical (ARunEnd (APrim U64 ends VNonNull) (APrim p vals vv) v 0 (length l)) = logical (APrim p l v)) as LG.
  { cbn [logical]. change (tab (length ends) _) with (logical (APrim U64 ends VNonNull)). rewrite logical_nonnull_ints.
    change (tab (length vals) _) with (logical (APrim p vals vv)). rewrite nonnull_logical_prim by exact Hvv.
    apply tab_ext. intros i Hi. destruct (vvalid v i); [|reflexivity]. cbn [Nat.add].
    rewrite (map_nth_lt VInt vals 0%Z) by (apply L7, Hi). rewrite L5 by exact Hi. reflexivity. }
  assert (forall f, fs f = false -> ft f = false -> fT f = false -> fN f = false -> fF f = false -> (fC f = true -> fc f = true) ->
    wf f (ARunEnd (APrim U64 ends VNonNull) (APrim p vals vv) v 0 (length l))) as W.
  { intros f H1 H2 H3 H4 H5 H6. cbn [wf].
    assert (ints (logical (APrim U64 ends VNonNull)) = ends) as IE by apply logical_nonnull_ints.
    rewrite IE.
    split. { split; [|exact I]. eapply Forall_impl; [|exact L3]. intros z Hz. cbv beta in Hz. unfold in_range. change (pmin U64) with 0%Z. lia. }
    split. { split; [exact L8|]. destruct Hvv as [->| ->]; exact I. }
    split. { exists U64. split; reflexivity. }
    split. { exact L1. }
    split. { exact I. }
    split. { exact L2. }
    split. { rewrite nonnull_logical_prim by exact Hvv. apply non_null_map. }
    split. { exact Hnv. }
    split. { exact Hv. }
    split. { reflexivity. }
    split. { destruct ends as [|z0 ends]; [subst l; cbn; auto|]. cbn [Nat.add]. rewrite L4. inversion L3; subst. split; [lia|]. split; [lia|]. intros Q; congruence. }
    split. { exact H1. }
    split. { reflexivity. }
    split. { rewrite H2. discriminate. }
    split. { exact H6. }
    rewrite H3, H4, H5. intuition discriminate. }
  cbv zeta. split. { apply runend_encode_eq; auto. }
  split. { exact LG. }
  split. { cbn [adtype]. unfold vv. destruct v; reflexivity. }
  split. { apply W; auto. }
  split. { apply W; auto. }
  split. { exact L2. }
  split. { intros Hne. destruct ends; [congruence|exact L4]. }
  split. { exact L1. }
  exact L6.
Qed.
Print Assumptions runend_roundtrip.

(** The decoder computes the denotation of the encoded array. *)
Theorem runend_decode_is_logical :
  forall f pe ends p vals vv v off len,
  let a := ARunEnd (APrim pe ends VNonNull) (APrim p vals vv) v off len in
  wf f a -> exists l, runend_decode pe ends p vals v off len = Ok (APrim p l v) /\
    logical (APrim p l v) = logical a /\ adtype (APrim p l v) = adtype a /\ length l = len.
Proof.
  intros f pe ends p vals vv v off len a W. unfold a in *. clear a.
  pose proof (vtyped_logical _ _ W) as _.
  cbn [wf] in W. rewrite logical_nonnull_ints in W.
  destruct W as ([R _] & [Rv Hvv] & (q & Dq & Hu) & L & _ & S & NN & Hnu & Hv & _ & Lst & _).
  cbn [adtype vnullable] in Dq. injection Dq as <-. cbn [alen] in L.
  assert (Forall (fun e => Z.of_nat off <= e)%Z ends) as F.
  { destruct ends as [|z0 r]; [constructor|]. destruct Lst as (_ & H0 & H1).
    assert (Z.of_nat off <= z0)%Z by (destruct (Nat.eq_dec off 0); lia).
    constructor; [exact H|]. destruct S as [S1 _]. apply Forall_forall. intros y Hy. specialize (S1 _ Hy). lia. }
  destruct (trim_ends_spec pe ends off len Hu R S F) as (es & E & Le & Mo & La & Ct).
  { destruct ends; [exact Lst|]. apply Lst. }
  unfold runend_decode. rewrite E. cbn [bind].
  destruct (ree_decode_spec 0%Z es vals []) as (out & Eo & Lo & _ & Po).
  { lia. } { exact Mo. } { apply Forall_forall. intros; cbn; lia. }
  rewrite Eo. cbn [bind]. cbn [length] in Lo. rewrite La in Lo. rewrite Lo.
  assert (vfits v len = true) as -> by (destruct v; cbn in *; auto; apply Nat.eqb_eq; auto).
  exists out. split; [reflexivity|]. split; [|split; [|exact Lo]].
  - cbn [logical]. change (tab (length ends) _) with (logical (APrim pe ends VNonNull)). rewrite logical_nonnull_ints.
    change (tab (length vals) _) with (logical (APrim p vals vv)). rewrite Lo. apply tab_ext. intros i Hi.
    destruct (vvalid v i); [|reflexivity]. rewrite Po by (cbn [length]; lia). rewrite Ct by exact Hi.
    set (k := run_index ends (off + i)).
    assert (k < length vals) as Hk.
    { rewrite <- L. apply run_index_lt; destruct ends; cbn in L, Le; try discriminate.
      - destruct Lst; subst; lia.
      - destruct Lst; subst; lia.
      - lia. }
    assert (nth k (logical (APrim p vals vv)) VNull <> VNull) as NV.
    { apply Forall_nth_lt; [exact NN|]. rewrite logical_length. exact Hk. }
    revert NV. cbn [logical]. rewrite nth_tab by exact Hk. destruct (vvalid vv k); [reflexivity|congruence].
  - cbn [adtype nullable] in *. rewrite Hnu. reflexivity.
Qed.
Print Assumptions runend_decode_is_logical.

(** Round trip through the decoder itself. *)
Theorem runend_encode_decode :
  forall p l v, wf f0 (APrim p l v) -> Forall (no_neg_zero p) l -> (Z.of_nat (length l) <= pmax U64)%Z ->
  exists ends vals vv l', runend_encode p l v = Ok (ARunEnd (APrim U64 ends VNonNull) (APrim p vals vv) v 0 (length l)) /\
    runend_decode U64 ends p vals v 0 (length l) = Ok (APrim p l' v) /\
    logical (APrim p l' v) = logical (APrim p l v).
Proof.
  intros p l v W N H. destruct (runend_roundtrip p l v W N H) as (ends & vals & vv & E & Lg & D & W0 & _).
  destruct (runend_decode_is_logical f0 U64 ends p vals vv v 0 (length l) W0) as (l' & E' & Lg' & _).
  exists ends, vals, vv, l'. split; [exact E|]. split; [exact E'|]. congruence.
Qed.
Print Assumptions runend_encode_decode.

(** The proviso on negative zeros is needed: [0.0; -0.0] becomes one run of -0.0. *)
Theorem runend_negative_zero_refuted :
  exists l r, wf f0 (APrim F32 l VNonNull) /\ runend_encode F32 l VNonNull = Ok r /\
    logical r <> logical (APrim F32 l VNonNull).
Proof.
  exists [0; 2147483648]%Z. eexists. split; [|split; [vm_compute; reflexivity|vm_compute; discriminate]].
  cbn. split; [repeat constructor; unfold in_range; cbn; lia|exact I].
Qed.
Print Assumptions runend_negative_zero_refuted.

Example ex_runend : runend_encode I8 [3; 3; -1; 7; 7]%Z (VBits [true; false; true; true; true]) =
  Ok (ARunEnd (APrim U64 [2; 3; 5]%Z VNonNull) (APrim I8 [3; -1; 7]%Z VAllValid) (VBits [true; false; true; true; true]) 0 5).
Proof. vm_compute. reflexivity. Qed.
Example ex_runend_hyps : wf f0 (APrim I8 [3; 3; -1; 7; 7]%Z (VBits [true; false; true; true; true])) /\
  Forall (no_neg_zero I8) [3; 3; -1; 7; 7]%Z.
Proof. split; [cbn; split; [repeat constructor; cbn; lia|reflexivity]|repeat constructor; discriminate]. Qed.

(** * C15: run-end booleans *)
(** Specification: what a run-end boolean array denotes. *)
Definition reb_logical (b : rebool) : list value :=
  tab (rb_len b) (fun i => if vvalid (rb_v b) i
                           then VBool (value_at_index (run_index (ints (logical (rb_ends b))) (rb_off b + i)) (rb_start b))
                           else VNull).
(** Well-formed run-end boolean arrays. *)
Definition reb_wf (f : flags) (b : rebool) : Prop :=
  wf f (rb_ends b) /\ (exists p, adtype (rb_ends b) = DPrim p false /\ is_unsigned p = true) /\ ss_ok (rb_ends b) /\
  ssortedZ (ints (logical (rb_ends b))) /\ alen (rb_ends b) <> 0 /\
  Forall (fun e => Z.of_nat (rb_off b) <= e)%Z (ints (logical (rb_ends b))) /\
  (Z.of_nat (rb_off b + rb_len b) <= last (ints (logical (rb_ends b))) 0)%Z /\ vwf (rb_v b) (rb_len b).

Definition flat_se (ss : list (nat * nat)) : list nat := flat_map (fun se => [fst se; snd se]) ss.
Lemma odd_S n : Nat.odd (S n) = negb (Nat.odd n).
Proof. rewrite Nat.odd_succ. rewrite <- Nat.negb_odd. reflexivity. Qed.

Lemma set_slices_spec l : forall pos start,
  (forall s, start = Some s -> s < pos) ->
  let F := map Z.of_nat (flat_se (set_slices_from pos start l)) in
  ssortedZ F /\ Forall (fun z => z <= Z.of_nat (pos + length l))%Z F /\
  (match start with
   | None => Forall (fun z => Z.of_nat pos <= z)%Z F
   | Some s => exists F', F = Z.of_nat s :: F' /\ F' <> [] /\ Forall (fun z => Z.of_nat pos <= z)%Z F'
   end) /\
  (forall x, pos <= x -> x < pos + length l -> nth (x - pos) l false = Nat.odd (count (fun e => (e <=? Z.of_nat x)%Z) F)).
Proof.
  induction l as [|b l IH]; intros pos start Hs; cbn [length].
  - destruct start as [s|]; cbn.
    + specialize (Hs _ eq_refl). split; [split; [intros y [<-|[]]; lia|split; [intros y []|exact I]]|].
      split; [repeat constructor; lia|]. split; [|intros; lia].
      exists [Z.of_nat pos]. split; [reflexivity|]. split; [discriminate|repeat constructor; lia].
    + split; [exact I|]. split; [constructor|]. split; [constructor|intros; lia].
  - destruct b.
    + (* true *)
      assert (exists s, set_slices_from pos start (true :: l) = set_slices_from (S pos) (Some s) l /\ s < S pos /\
                match start with Some s' => s = s' | None => s = pos end) as (s & -> & Hlt & Hst).
      { destruct start as [s|]; [exists s|exists pos]; (split; [reflexivity|]; split; [|reflexivity]); [specialize (Hs _ eq_refl)|]; lia. }
      destruct (IH (S pos) (Some s)) as (I1 & I2 & (F' & EF & NF & BF) & I4); [intros ? [= <-]; exact Hlt|].
      cbv zeta in *. rewrite EF in *.
      split; [exact I1|]. split; [eapply Forall_impl; [|exact I2]; intros z Hz; cbv beta in Hz; lia|].
      assert (Forall (fun z => Z.of_nat pos <= z)%Z F') as BF'.
      { eapply Forall_impl; [|exact BF]. intros z Hz; cbv beta in Hz; lia. }
      split.
      { destruct start as [s'|]; subst s; [exists F'; auto|]. constructor; [lia|exact BF']. }
      intros x H1 H2. destruct (Nat.eq_dec x pos) as [->|Nx].
      * rewrite Nat.sub_diag. cbn [nth]. rewrite count_cons.
        destruct (Z.leb_spec (Z.of_nat s) (Z.of_nat pos)); [|lia].
        rewrite (proj2 (count_zero (fun e => (e <=? Z.of_nat pos)%Z) F')); [reflexivity|].
        intros z Hz. rewrite Forall_forall in BF. specialize (BF _ Hz). lia.
      * replace (x - pos) with (S (x - S pos)) by lia. cbn [nth]. apply I4; lia.
    + (* false *)
      destruct (IH (S pos) None) as (I1 & I2 & I3 & I4); [discriminate|]. cbv zeta in *.
      assert (forall x, pos < x -> x < pos + S (length l) -> nth (x - pos) (false :: l) false =
         Nat.odd (count (fun e => (e <=? Z.of_nat x)%Z) (map Z.of_nat (flat_se (set_slices_from (S pos) None l))))) as K.
      { intros x H1 H2. replace (x - pos) with (S (x - S pos)) by lia. cbn [nth]. apply I4; lia. }
      assert (count (fun e => (e <=? Z.of_nat pos)%Z) (map Z.of_nat (flat_se (set_slices_from (S pos) None l))) = 0) as K0.
      { apply count_zero. intros z Hz. rewrite Forall_forall in I3. specialize (I3 _ Hz). cbv beta in I3. lia. }
      destruct start as [s|]; cbn [set_slices_from].
      * specialize (Hs _ eq_refl). cbn [flat_se flat_map fst snd app map]. fold (flat_se (set_slices_from (S pos) None l)).
        set (G := map Z.of_nat (flat_se (set_slices_from (S pos) None l))) in *.
        rewrite Forall_forall in I3.
        split. { split; [intros y [<-|Hy]; [lia|]; specialize (I3 _ Hy); lia|]. split; [intros y Hy; specialize (I3 _ Hy); lia|exact I1]. }
        split. { constructor; [lia|]. constructor; [lia|]. eapply Forall_impl; [|exact I2]. intros z Hz; cbv beta in Hz; lia. }
        split. { exists (Z.of_nat pos :: G). split; [reflexivity|]. split; [discriminate|]. constructor; [lia|].
                 apply Forall_forall. intros z Hz. specialize (I3 _ Hz). lia. }
        intros x H1 H2. rewrite !count_cons.
        destruct (Z.leb_spec (Z.of_nat s) (Z.of_nat x)); [|lia]. destruct (Z.leb_spec (Z.of_nat pos) (Z.of_nat x)); [|lia].
        cbn [Nat.add]. rewrite !odd_S, negb_involutive.
        destruct (Nat.eq_dec x pos) as [->|Nx]; [rewrite Nat.sub_diag, K0; reflexivity|apply K; lia].
      * split; [exact I1|]. split; [eapply Forall_impl; [|exact I2]; intros z Hz; cbv beta in Hz; lia|].
        split; [eapply Forall_impl; [|exact I3]; intros z Hz; cbv beta in Hz; lia|].
        intros x H1 H2. destruct (Nat.eq_dec x pos) as [->|Nx]; [rewrite Nat.sub_diag, K0; reflexivity|apply K; lia].
Qed.

Lemma last_nth_nat (l : list nat) : last l 0 = nth (length l - 1) l 0.
Proof.
  induction l as [|x l IH]; [reflexivity|]. destruct l as [|y l]; [reflexivity|].
  change (last (y :: l) 0 = nth (length (x :: y :: l) - 1) (x :: y :: l) 0). rewrite IH. cbn [length]. replace (S (S (length l)) - 1) with (S (S (length l) - 1)) by lia. reflexivity.
Qed.
Lemma ssorted_snoc l x : ssortedZ l -> Forall (fun z => z < x)%Z l -> ssortedZ (l ++ [x]).
Proof.
  induction l as [|y l IH]; cbn [ssortedZ app]; intros S F; [split; [intros ? []|exact I]|].
  inversion F; subst. destruct S as [S1 S2]. split; [|apply IH; auto].
  intros z Hz. apply in_app_or in Hz. destruct Hz as [Hz|[<-|[]]]; auto.
Qed.
Lemma last_app1 {A} (l : list A) x d : last (l ++ [x]) d = x.
Proof. apply last_last. Qed.

(** The encoder produces strictly increasing ends, ending with the length, whose alternating values are the input. *)
Lemma reb_encode_spec l ends start :
  reb_encode l = (ends, start) ->
  ends <> [] /\ ssortedZ ends /\ Forall (fun z => 0 <= z <= Z.of_nat (length l))%Z ends /\
  last ends 0%Z = Z.of_nat (length l) /\
  (forall x, x < length l -> value_at_index (run_index ends x) start = nth x l false).
Proof.
  unfold reb_encode. pose proof (set_slices_spec l 0 None ltac:(discriminate)) as (S1 & S2 & S3 & S4).
  unfold set_slices. cbn [Nat.add] in *. destruct (set_slices_from 0 None l) as [|[s e] rest] eqn:E.
  - intros [= <- <-]. cbn [flat_se flat_map map] in *.
    split; [discriminate|]. split; [split; [intros y []|exact I]|]. split; [constructor; [lia|constructor]|].
    split; [reflexivity|]. intros x Hx. specialize (S4 x ltac:(lia) Hx). rewrite Nat.sub_0_r in S4. rewrite S4.
    unfold run_index. rewrite count_cons. destruct (Z.leb_spec (Z.of_nat (length l)) (Z.of_nat x)); [lia|]. reflexivity.
  - intros H. injection H as <- <-.
    assert (flat_se ((s, e) :: rest) = s :: e :: flat_se rest) as EF by reflexivity.
    rewrite EF in *. fold (flat_se rest) in *.
    set (tl := e :: flat_se rest) in *.
    set (en := (if s =? 0 then [] else [s]) ++ tl).
    assert (en <> []) as NE by (unfold en, tl; destruct (s =? 0); discriminate).
    assert (ssortedZ (map Z.of_nat en) /\ Forall (fun z => 0 <= z <= Z.of_nat (length l))%Z (map Z.of_nat en) /\
      forall x, x < length l -> value_at_index (run_index (map Z.of_nat en) x) (s =? 0) = nth x l false) as (A1 & A2 & A3).
    { assert (Forall (fun z => 0 <= z <= Z.of_nat (length l))%Z (map Z.of_nat (s :: tl))) as B.
      { rewrite Forall_forall in *. intros z Hz. specialize (S2 _ Hz). specialize (S3 _ Hz). cbv beta in *. lia. }
      unfold en. destruct (Nat.eqb_spec s 0) as [->|Ns]; cbn [app].
      - split; [apply S1|]. split; [inversion B; auto|]. intros x Hx. specialize (S4 x ltac:(lia) Hx).
        rewrite Nat.sub_0_r in S4. rewrite S4. cbn [map]. rewrite count_cons.
        destruct (Z.leb_spec (Z.of_nat 0) (Z.of_nat x)); [|lia]. cbn [Nat.add].
        fold (run_index (map Z.of_nat tl) x). set (k := run_index (map Z.of_nat tl) x).
        unfold value_at_index. rewrite odd_S, Nat.negb_odd. destruct (Nat.even k); reflexivity.
      - split; [exact S1|]. split; [exact B|]. intros x Hx. specialize (S4 x ltac:(lia) Hx).
        rewrite Nat.sub_0_r in S4. rewrite S4. fold (run_index (map Z.of_nat (s :: tl)) x).
        set (k := run_index (map Z.of_nat (s :: tl)) x). unfold value_at_index. rewrite <- Nat.negb_even. destruct (Nat.even k); reflexivity. }
    destruct (Nat.eqb_spec (last en 0) (length l)) as [Q|Q].
    + split. { destruct en; [congruence|discriminate]. }
      split; [exact A1|]. split; [exact A2|]. split; [|exact A3]. rewrite (last_map Z.of_nat en 0) by exact NE. congruence.
    + rewrite map_app. cbn [map]. split. { destruct (map Z.of_nat en); discriminate. }
      assert (Forall (fun z => z < Z.of_nat (length l))%Z (map Z.of_nat en)) as B.
      { apply Forall_forall. intros z Hz. apply (In_nth _ _ 0%Z) in Hz. destruct Hz as (k & Hk & <-).
        assert (length (map Z.of_nat en) <> 0) by lia.
        pose proof (sortedZ_nth _ k (length (map Z.of_nat en) - 1) (ssorted_sorted _ A1) ltac:(lia) ltac:(lia)) as C.
        rewrite <- last_nth in C. rewrite (last_map Z.of_nat en 0) in C by exact NE.
        assert (In (last en 0) en) as I. { rewrite last_nth_nat. apply nth_In. destruct en; [congruence|cbn; lia]. }
        apply (in_map Z.of_nat) in I. rewrite Forall_forall in A2. specialize (A2 _ I). cbv beta in A2. lia. }
      split; [apply ssorted_snoc; assumption|]. split; [apply Forall_app; split; [exact A2|constructor; [lia|constructor]]|].
      split; [apply last_app1|]. intros x Hx. rewrite <- A3 by exact Hx. f_equal. unfold run_index. rewrite count_app.
      rewrite count_cons. destruct (Z.leb_spec (Z.of_nat (length l)) (Z.of_nat x)); [lia|]. cbn. lia.
Qed.

(** Encoding any booleans with any validity, then reading the result, gives the original. *)
Theorem runend_bool_roundtrip :
  forall l v, vwf v (length l) -> (Z.of_nat (length l) <= pmax U64)%Z ->
  exists ends start, let b := REBool (APrim U64 ends VNonNull) start v 0 (length l) in
    reb_encode_array l v = Ok b /\ (forall f, reb_wf f b) /\
    reb_logical b = logical (ABool 0 l (length l) v).
Proof.
  intros l v Hv Hl. destruct (reb_encode l) as [ends start] eqn:E. exists ends, start. cbv zeta.
  destruct (reb_encode_spec l ends start E) as (NE & S & B & La & V).
  assert (length ends <> 0) as Ln by (destruct ends; cbn; congruence).
  assert (Forall (in_range U64) ends) as R.
  { eapply Forall_impl; [|exact B]. intros z Hz. cbv beta in Hz. unfold in_range. change (pmin U64) with 0%Z. lia. }
  assert (forall f, wf f (APrim U64 ends VNonNull)) as W by (intros f; split; [exact R|exact I]).
  split.
  - unfold reb_encode_array, reb_try_new. rewrite E. cbn [alen]. destruct (Nat.eqb_spec (length ends) 0); [lia|].
    unfold scalar_at. rewrite rd_scalar_at_ by (try apply (reads_ok _ f0 (W f0)); cbn [alen]; lia).
    destruct (nonnull_elem f0 (APrim U64 ends VNonNull) U64 (length ends - 1) (W f0) eq_refl ltac:(cbn [alen]; lia)) as [EL _].
    rewrite EL, logical_nonnull_ints, <- last_nth, La. cbn [bind to_usize].
    rewrite (proj2 (Z.leb_le _ _)) by lia. cbn [bind]. rewrite Nat2Z.id. unfold reb_new.
    rewrite logical_nonnull_ints. apply ssortedb_spec in S. rewrite S. cbn [negb adtype vnullable uint_nonnull is_unsigned alen].
    destruct (Nat.eqb_spec (length ends) 0); [lia|].
    assert (vfits v (length l) = true) as -> by (destruct v; cbn in *; auto; apply Nat.eqb_eq; auto). reflexivity.
  - split.
    + intros f. unfold reb_wf. cbn [rb_ends rb_off rb_len rb_v]. rewrite logical_nonnull_ints.
      split; [apply W|]. split; [exists U64; split; reflexivity|]. split; [exact I|]. split; [exact S|]. split; [exact Ln|].
      split; [eapply Forall_impl; [|exact B]; intros z Hz; cbv beta in Hz; lia|]. split; [rewrite La; cbn [Nat.add]; lia|exact Hv].
    + unfold reb_logical. cbn [rb_ends rb_off rb_len rb_v rb_start]. rewrite logical_nonnull_ints. cbn [logical].
      apply tab_ext. intros i Hi. cbn [Nat.add]. rewrite V by exact Hi. reflexivity.
Qed.
Print Assumptions runend_bool_roundtrip.

(** The decoder computes the denotation. *)
Theorem runend_bool_decode_is_logical :
  forall f pe ends start v off len,
  let b := REBool (APrim pe ends VNonNull) start v off len in
  reb_wf f b -> exists l, reb_decode pe ends start v off len = Ok (ABool 0 l len v) /\ length l = len /\
    logical (ABool 0 l len v) = reb_logical b.
Proof.
  intros f pe ends start v off len b W. unfold b, reb_wf in W. cbn [rb_ends rb_off rb_len rb_v] in W.
  rewrite logical_nonnull_ints in W. destruct W as ([R _] & (q & Dq & Hu) & _ & S & NE & F & La & Hv).
  cbn [adtype vnullable] in Dq. injection Dq as <-. cbn [alen] in NE.
  destruct (trim_ends_spec pe ends off len Hu R S F) as (es & E & Le & Mo & Las & Ct).
  { destruct ends; [cbn in NE; lia|exact La]. }
  unfold reb_decode. rewrite E. cbn [bind]. rewrite reb_ree.
  destruct (ree_decode_spec false es (map (fun k => value_at_index k start) (seq 0 (length es))) []) as (out & Eo & Lo & _ & Po).
  { rewrite map_length, seq_length. reflexivity. } { exact Mo. } { apply Forall_forall. intros; cbn; lia. }
  rewrite Eo. cbn [bind]. cbn [length] in Lo. rewrite Las in Lo. rewrite Lo.
  assert (vfits v len = true) as -> by (destruct v; cbn in *; auto; apply Nat.eqb_eq; auto).
  exists out. split; [reflexivity|]. split; [exact Lo|]. unfold b, reb_logical. cbn [rb_ends rb_off rb_len rb_v rb_start].
  rewrite logical_nonnull_ints. cbn [logical]. apply tab_ext. intros i Hi. destruct (vvalid v i); [|reflexivity]. cbn [Nat.add].
  rewrite Po by (cbn [length]; lia). rewrite Ct by exact Hi.
  assert (run_index ends (off + i) < length es) as Hk.
  { rewrite Le. apply run_index_lt; [destruct ends; [cbn in NE; lia|discriminate]|]. lia. }
  rewrite (map_nth_lt (fun k => value_at_index k start) _ 0) by (rewrite seq_length; exact Hk).
  rewrite seq_nth by exact Hk. reflexivity.
Qed.
Print Assumptions runend_bool_decode_is_logical.

Lemma reb_find_ok f b i : reb_wf f b -> i <= rb_len b ->
  reb_find b i = Ok (Nat.min (run_index (ints (logical (rb_ends b))) (rb_off b + i)) (alen (rb_ends b) - 1)).
Proof.
  intros (W & (p & D & Hu) & SS & S & NE & F & La & Hv) Hi. unfold reb_find, runend_find.
  destruct (reads_ok _ _ W) as [_ Hse].
  set (el := ints (logical (rb_ends b))) in *.
  assert (length el = alen (rb_ends b)) as IL by (unfold el; rewrite ints_length, logical_length; reflexivity).
  assert (pmin p = 0%Z) as P0 by (destruct p; cbn in Hu; try discriminate; reflexivity).
  assert (in_range p (last el 0%Z)) as HL.
  { rewrite last_nth, IL. eapply nonnull_elem; eauto. lia. }
  destruct (se_nonnull_index f _ p W Hse SS D (is_unsigned_int _ Hu) (ssorted_sorted _ S) (Z.of_nat (i + rb_off b)) Right) as (rr & -> & ER & _).
  { unfold in_range in *. lia. }
  - cbn [bind]. unfold to_ends_index. rewrite ER, search_right_run. fold el.
    replace (i + rb_off b) with (rb_off b + i) by lia. fold (run_index el (rb_off b + i)).
    pose proof (count_le_length (fun e => (e <=? Z.of_nat (rb_off b + i))%Z) el) as H. fold (run_index el (rb_off b + i)) in H.
    destruct (Nat.eqb_spec (run_index el (rb_off b + i)) (alen (rb_ends b))) as [Q|Q].
    + destruct (Nat.eqb_spec (run_index el (rb_off b + i)) 0); [lia|]. f_equal. lia.
    + f_equal. lia.
Qed.
Lemma reb_find_lt f b i : reb_wf f b -> i < rb_len b ->
  reb_find b i = Ok (run_index (ints (logical (rb_ends b))) (rb_off b + i)).
Proof.
  intros W Hi. rewrite (reb_find_ok f) by (auto; lia). f_equal.
  destruct W as (W & (p & D & Hu) & SS & S & NE & F & La & Hv).
  assert (length (ints (logical (rb_ends b))) = alen (rb_ends b)) as IL by (rewrite ints_length, logical_length; reflexivity).
  assert (run_index (ints (logical (rb_ends b))) (rb_off b + i) < alen (rb_ends b)); [|lia].
  rewrite <- IL. apply run_index_lt; [|lia]. intros E0. rewrite E0 in IL. cbn in IL. lia.
Qed.

(** Random access, on any (sliced, nullable) run-end boolean array. *)
Theorem runend_bool_scalar_at :
  forall f b i, reb_wf f b ->
  reb_scalar_at b i = match nth_error (reb_logical b) i with Some x => Ok x | None => Err end.
Proof.
  intros f b i W. unfold reb_scalar_at, reb_logical. rewrite nth_error_tab.
  destruct (Nat.leb_spec (rb_len b) i); [rewrite (proj2 (Nat.ltb_ge _ _)) by lia; reflexivity|].
  rewrite (proj2 (Nat.ltb_lt _ _)) by lia. rewrite (vvalid_r_ok _ (rb_len b)) by (auto; apply W). cbn [bind].
  destruct (vvalid (rb_v b) i); [|reflexivity]. rewrite (reb_find_lt f) by auto. reflexivity.
Qed.
Print Assumptions runend_bool_scalar_at.

(** Take on arrays without nulls. *)
Theorem runend_bool_take :
  forall f b idx, reb_wf f b -> (forall i, i < rb_len b -> vvalid (rb_v b) i = true) ->
  match spec_take (reb_logical b) idx with
  | Some l => exists r, reb_take b idx = Ok r /\ logical r = l
  | None => reb_take b idx = Err
  end.
Proof.
  intros f b idx W V. unfold reb_take.
  set (g := fun i => run_index (ints (logical (rb_ends b))) (rb_off b + i)).
  assert (forall i, i < rb_len b -> nth_error (reb_logical b) i = Some (VBool (value_at_index (g i) (rb_start b)))) as N.
  { intros i Hi. unfold reb_logical. rewrite nth_error_tab, (proj2 (Nat.ltb_lt _ _)) by lia. rewrite V by lia. reflexivity. }
  assert (match spec_take (reb_logical b) idx with
          | Some l => mapM (fun i => if rb_len b <=? i then Err else reb_find b i) idx = Ok (map g idx) /\
    l = map (fun i => VBool (value_at_index (g i) (rb_start b))) idx
          | None => mapM (fun i => if rb_len b <=? i then Err else reb_find b i) idx = Err end) as K.
  { induction idx as [|i idx IH]; [split; reflexivity|]. cbn [spec_take mapM].
    destruct (Nat.leb_spec (rb_len b) i).
    - assert (nth_error (reb_logical b) i = None) as -> by (apply nth_error_None; unfold reb_logical; rewrite tab_length; lia). reflexivity.
    - rewrite N by lia. rewrite (reb_find_lt f) by auto. cbn [bind].
      destruct (spec_take (reb_logical b) idx); [destruct IH as [-> ->]; split; reflexivity|rewrite IH; reflexivity]. }
  destruct (spec_take (reb_logical b) idx) as [l|]; [|rewrite K; reflexivity].
  destruct K as [-> ->]. cbn [bind]. eexists. split; [reflexivity|]. rewrite map_map, map_length. cbn [logical vvalid].
  apply nth_ext_len with (d := VNull); [rewrite tab_length, map_length; reflexivity|]. intros k Hk. rewrite tab_length in Hk.
  rewrite nth_tab by exact Hk. rewrite (map_nth_lt (fun i => VBool (value_at_index (g i) (rb_start b))) idx 0) by exact Hk.
  cbn [Nat.add]. rewrite (map_nth_lt (fun x => value_at_index (g x) (rb_start b)) idx 0) by exact Hk. reflexivity.
Qed.
Print Assumptions runend_bool_take.

Lemma value_at_plus s r b : value_at_index (s + r) b = value_at_index r (value_at_index s b).
Proof. unfold value_at_index. rewrite Nat.even_add. destruct (Nat.even s), (Nat.even r), b; reflexivity. Qed.

(** Slicing an unsliced array without validity bits. *)
Theorem runend_bool_slice :
  forall f b i j, reb_wf f b -> fn f = true -> rb_off b = 0 -> (forall l, rb_v b <> VBits l) ->
  i <= j -> j <= rb_len b ->
  exists b', reb_slice b i j = Ok b' /\ reb_wf f b' /\ reb_logical b' = spec_slice (reb_logical b) i j /\ rb_v b' = rb_v b.
Proof.
  intros f b i j W Hfn Ho Hv Hij Hj. unfold reb_slice. rewrite slice_good by auto.
  rewrite !(reb_find_ok f) by (auto; lia). cbn [bind]. rewrite Ho. cbn [Nat.add].
  destruct W as (W & (p & D & Hu) & SS & S & NE & F & La & Hvw). rewrite Ho in *. cbn [Nat.add] in *.
  set (el := ints (logical (rb_ends b))) in *.
  assert (length el = alen (rb_ends b)) as IL by (unfold el; rewrite ints_length, logical_length; reflexivity).
  pose proof (run_index_mono el i j Hij) as Hmono.
  set (n := alen (rb_ends b)) in *.
  set (ri := run_index el i) in *. set (rj := run_index el j) in *.
  set (s := Nat.min ri (n - 1)) in *. set (e := Nat.min rj (n - 1)) in *.
  pose proof (slice_correct (rb_ends b) f s (e + 1) W ltac:(lia) ltac:(unfold n in *; lia)) as H. unfold outc in H.
  destruct (slice (rb_ends b) s (e + 1)) as [en'| |]; [|contradiction H; right; split; [exact Hfn|lia]|contradiction H; right; split; [exact Hfn|lia]].
  assert (Ae : alen en' = e + 1 - s) by (eapply post_alen; [|exact H]; fold n; lia).
  destruct H as (We & Le & De & SSe & _).
  cbn [bind]. assert (vslice (rb_v b) s (e + 1) = Ok (rb_v b)) as -> by (destruct (rb_v b) as [| | |bl]; try reflexivity; contradiction (Hv bl eq_refl)).
  cbn [bind]. unfold reb_new.
  assert (El' : ints (logical en') = lslice el s (e + 1)) by (rewrite Le, ints_lslice; reflexivity).
  assert (ssortedZ (lslice el s (e + 1))) as Hs' by (apply ssortedZ_lslice; exact S).
  rewrite El'. pose proof Hs' as Hs''. apply ssortedb_spec in Hs''. rewrite Hs''. cbn [negb].
  rewrite De, D. cbn [uint_nonnull]. rewrite Hu. cbn [negb]. destruct (Nat.eqb_spec (alen en') 0); [lia|].
  assert (vfits (rb_v b) (j - i) = true) as -> by (destruct (rb_v b) as [| | |bl]; try reflexivity; contradiction (Hv bl eq_refl)). cbn [negb].
  eexists. split; [reflexivity|].
  destruct (run_index_spec el i (ssorted_sorted _ S)) as [R1 R2]. fold ri in R1, R2.
  destruct (run_index_spec el j (ssorted_sorted _ S)) as [Q1 Q2]. fold rj in Q1, Q2.
  assert (Z.of_nat i <= nth s el 0)%Z as Hfst.
  { destruct (le_lt_dec n ri).
    - replace s with (length el - 1) by lia. rewrite <- last_nth. lia.
    - replace s with ri by lia. specialize (R2 ltac:(lia)). lia. }
  assert (Z.of_nat j <= nth e el 0)%Z as Hlst.
  { destruct (le_lt_dec n rj).
    - replace e with (length el - 1) by lia. rewrite <- last_nth. lia.
    - replace e with rj by lia. specialize (Q2 ltac:(lia)). lia. }
  split; [|split; [|reflexivity]].
  - unfold reb_wf. cbn [rb_ends rb_off rb_len rb_v]. rewrite El'.
    split; [exact We|]. split; [exists p; rewrite De; split; assumption|]. split; [apply SSe, SS|]. split; [exact Hs'|]. split; [lia|].
    split.
    { apply Forall_forall. intros z Hz. apply (In_nth _ _ 0%Z) in Hz. destruct Hz as (k & Hk & <-).
      rewrite lslice_length in Hk by lia. rewrite nth_lslice by lia.
      pose proof (sortedZ_nth el s (s + k) (ssorted_sorted _ S) ltac:(lia) ltac:(lia)). lia. }
    split.
    { rewrite last_nth, lslice_length by lia. rewrite nth_lslice by lia. replace (s + (e + 1 - s - 1)) with e by lia. lia. }
    destruct (rb_v b) as [| | |bl]; try exact I. contradiction (Hv bl eq_refl).
  - change (spec_slice (reb_logical b) i j) with (lslice (reb_logical b) i j). unfold reb_logical.
    cbn [rb_ends rb_off rb_len rb_v rb_start]. rewrite El'. fold el. rewrite Ho. cbn [Nat.add].
    rewrite lslice_tab by lia. apply tab_ext. intros k Hk.
    assert (vvalid (rb_v b) (i + k) = vvalid (rb_v b) k) as -> by (destruct (rb_v b) as [| | |bl]; try reflexivity; contradiction (Hv bl eq_refl)).
    destruct (vvalid (rb_v b) k); [|reflexivity]. f_equal.
    pose proof (run_index_mono el i (i + k) ltac:(lia)) as M1. pose proof (run_index_mono el (i + k) j ltac:(lia)) as M2. fold ri in M1. fold rj in M2.
    assert (run_index el (i + k) < n) by (rewrite <- IL; apply run_index_lt; [intros E0; rewrite E0 in IL; cbn in IL; lia|lia]).
    rewrite (run_index_slice el s (e + 1) (i + k)); [apply eq_sym, value_at_plus|apply ssorted_sorted; exact S|lia|lia|lia|lia].
Qed.
Print Assumptions runend_bool_slice.

(** What goes wrong outside these provisos. Take forgets nulls: *)
Theorem runend_bool_take_drops_nulls_refuted :
  exists b r, reb_wf f_dec b /\ reb_take b [1] = Ok r /\ spec_take (reb_logical b) [1] = Some [VNull] /\ logical r = [VBool true].
Proof.
  exists (REBool (APrim U64 [2; 3]%Z VNonNull) true (VBits [true; false; true]) 0 3). eexists.
  split; [|split; [vm_compute; reflexivity|split; vm_compute; reflexivity]].
  unfold reb_wf. cbn. repeat split; try (repeat constructor; unfold in_range; cbn; lia); try lia; try (exists U64; split; reflexivity).
Qed.
Print Assumptions runend_bool_take_drops_nulls_refuted.
(** A slice of a slice forgets the first offset: *)
Theorem runend_bool_slice_of_slice_refuted :
  exists b b1 b2, reb_wf f_dec b /\ reb_slice b 2 6 = Ok b1 /\ reb_slice b1 1 4 = Ok b2 /\
    reb_logical b2 <> spec_slice (spec_slice (reb_logical b) 2 6) 1 4.
Proof.
  exists (REBool (APrim U64 [3; 5; 7]%Z VNonNull) true VNonNull 0 7). do 2 eexists.
  split; [|split; [vm_compute; reflexivity|split; [vm_compute; reflexivity|vm_compute; discriminate]]].
  unfold reb_wf. cbn. repeat split; try (repeat constructor; unfold in_range; cbn; lia); try lia; try (exists U64; split; reflexivity).
Qed.
Print Assumptions runend_bool_slice_of_slice_refuted.
(** The validity bits are sliced by run positions instead of row positions: *)
Theorem runend_bool_slice_nullable_refuted :
  exists b, reb_wf f_dec b /\ reb_slice b 1 3 = Err.
Proof.
  exists (REBool (APrim U64 [4]%Z VNonNull) true (VBits [true; false; true; true]) 0 4).
  split; [|vm_compute; reflexivity].
  unfold reb_wf. cbn. repeat split; try (repeat constructor; unfold in_range; cbn; lia); try lia; try (exists U64; split; reflexivity).
Qed.
Print Assumptions runend_bool_slice_nullable_refuted.
Example ex_reb : reb_encode_array [false; false; true; true; false] (VBits [true; true; false; true; true]) =
  Ok (REBool (APrim U64 [2; 4; 5]%Z VNonNull) false (VBits [true; true; false; true; true]) 0 5).
Proof. vm_compute. reflexivity. Qed.
