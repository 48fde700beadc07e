(** take and filter of sparse arrays. *)
From Verif Require Import Base Spec SearchModel SearchProofs Arr ArrRead ArrWf ArrReadProofs ArrSearchProofs ArrSlice ArrSliceProofs ArrSliceMain
  ValidityModel PropValidity IntEnc PropIntEnc RunEnc PropRunEnc PropUnary PropDict ArrOps OpsBase OpsFlat OpsCanon OpsCanon2 OpsCanon3 OpsTake OpsVarBin.

(** The (output position, patch position) pairs of a selection [q], when [h i] is the patch for element [i]. *)
Definition pairs_spec (h : nat -> option nat) (q : list nat) (pairs : list (nat * nat)) : Prop :=
  ssortedZ (map (fun pr => Z.of_nat (fst pr)) pairs) /\
  Forall (fun pr => fst pr < length q) pairs /\
  (forall i, i < length q ->
     match pos_of (Z.of_nat i) (map (fun pr => Z.of_nat (fst pr)) pairs) with
     | Some k => h (nth i q 0) = Some (nth k (map snd pairs) 0)
     | None => h (nth i q 0) = None
     end) /\
  Forall (fun pr => exists i, In i q /\ h i = Some (snd pr)) pairs /\
  length pairs <= length q.

Definition pairs_of (h : nat -> option nat) (s : nat) (q : list nat) : list (nat * nat) :=
  filter_map (fun pi => match h (snd pi) with Some k => Some (fst pi, k) | None => None end) (combine (seq s (length q)) q).

Lemma pairs_of_facts h q : forall s,
  let P := pairs_of h s q in
  ssortedZ (map (fun pr => Z.of_nat (fst pr)) P) /\
  Forall (fun pr => s <= fst pr < s + length q) P /\
  (forall i, i < length q ->
     match pos_of (Z.of_nat (s + i)) (map (fun pr => Z.of_nat (fst pr)) P) with
     | Some k => h (nth i q 0) = Some (nth k (map snd P) 0)
     | None => h (nth i q 0) = None
     end) /\
  Forall (fun pr => exists i, In i q /\ h i = Some (snd pr)) P /\ length P <= length q.
Proof.
  induction q as [|x q IH]; intros s.
  - cbn. repeat split; auto. intros i Hi; lia.
  - destruct (IH (S s)) as (I1 & I2 & I3 & I4 & I5). unfold pairs_of in *. cbn [length seq combine filter_map snd fst].
    set (P := filter_map _ (combine (seq (S s) (length q)) q)) in *.
    assert (Forall (fun pr => S s <= fst pr < S s + length q) P -> forall i, i <= s -> pos_of (Z.of_nat i) (map (fun pr => Z.of_nat (fst pr)) P) = None) as PN.
    { intros F i Hi. apply pos_of_none. intros HIn. apply in_map_iff in HIn. destruct HIn as (pr & E & Hpr). rewrite Forall_forall in F.
      specialize (F pr Hpr). cbv beta in F. lia. }
    assert (Forall (fun pr => exists i, In i (x :: q) /\ h i = Some (snd pr)) P) as I4'.
    { eapply Forall_impl; [|exact I4]. intros pr (i & Hi & Ei). exists i. split; [right; exact Hi|exact Ei]. }
    assert (Forall (fun pr => s <= fst pr < s + S (length q)) P) as I2' by (eapply Forall_impl; [|exact I2]; intros pr Hpr; cbv beta in Hpr; lia).
    destruct (h x) as [k|] eqn:Ex.
    + cbn [map fst snd length]. split; [|split; [|split; [|split]]].
      * cbn [ssortedZ]. split; [|exact I1]. intros y Hy. apply in_map_iff in Hy. destruct Hy as (pr & <- & Hpr).
        rewrite Forall_forall in I2. specialize (I2 pr Hpr). cbv beta in I2. lia.
      * constructor; [cbn; lia|exact I2'].
      * intros i Hi. cbn [pos_of]. destruct i as [|i].
        -- rewrite Nat.add_0_r, Z.eqb_refl. cbn [nth]. exact Ex.
        -- destruct (Z.eqb_spec (Z.of_nat s) (Z.of_nat (s + S i))); [lia|]. specialize (I3 i ltac:(lia)).
           replace (S s + i) with (s + S i) in I3 by lia. destruct (pos_of _ _); cbn [nth]; exact I3.
      * constructor; [exists x; cbn; auto|exact I4'].
      * lia.
    + split; [exact I1|]. split; [exact I2'|]. split; [|split; [exact I4'|cbn [length]; lia]].
      intros i Hi. destruct i as [|i].
      * rewrite Nat.add_0_r, PN by (auto; lia). exact Ex.
      * specialize (I3 i ltac:(cbn [length] in Hi; lia)). replace (S s + i) with (s + S i) in I3 by lia. exact I3.
Qed.
Lemma pairs_of_spec h q : pairs_spec h q (pairs_of h 0 q).
Proof.
  destruct (pairs_of_facts h q 0) as (I1 & I2 & I3 & I4 & I5). unfold pairs_spec. split; [exact I1|]. split; [|auto].
  eapply Forall_impl; [|exact I2]. intros pr Hpr. cbv beta in Hpr. lia.
Qed.

Definition sp_pos (il : list Z) (off : nat) (i : nat) : option nat := pos_of (Z.of_nat (off + i)) il.

Lemma last_pos_eq x pos : NoDup pos -> forall i, last_pos i pos x = match pos_of (Z.of_nat x) (map Z.of_nat pos) with Some k => Some (i + k) | None => None end.
Proof.
  induction 1 as [|y r Hy Hr IH]; intros i; [reflexivity|]. cbn [last_pos map pos_of]. rewrite IH.
  destruct (Nat.eqb_spec y x) as [->|N].
  - rewrite Z.eqb_refl. replace (pos_of (Z.of_nat x) (map Z.of_nat r)) with (@None nat); [rewrite Nat.add_0_r; reflexivity|].
    symmetry. apply pos_of_none. intros H. apply in_map_iff in H. destruct H as (z & E & Hz). apply Nat2Z.inj in E. congruence.
  - destruct (Z.eqb_spec (Z.of_nat y) (Z.of_nat x)); [lia|]. destruct (pos_of _ _) as [k|]; [|reflexivity]. f_equal. lia.
Qed.
Lemma pos_of_shift off x il : Forall (fun z => (Z.of_nat off <= z)%Z) il ->
  pos_of (Z.of_nat x) (map Z.of_nat (rel_pos il off)) = pos_of (Z.of_nat (off + x)) il.
Proof.
  intros F. unfold rel_pos. induction F as [|z r Hz Hr IH]; [reflexivity|]. cbn [map pos_of]. rewrite IH.
  assert ((Z.of_nat (Z.to_nat (z - Z.of_nat off)) =? Z.of_nat x)%Z = (z =? Z.of_nat (off + x))%Z) as -> by lia. reflexivity.
Qed.

Lemma non_null_pick l idx : Forall (fun i => i < length l) idx -> non_null l -> non_null (pick l idx).
Proof.
  intros H N. unfold non_null, pick in *. apply Forall_map. eapply Forall_impl; [|exact H]. intros i Hi. cbv beta in Hi. apply (Forall_nth_lt _ _ VNull i N Hi).
Qed.

(** Building a sparse array from the selected patches. *)
Lemma sparse_build f idx vals off len fill q pairs vals' (T : Prop) :
  wf f (ASparse idx vals off len fill) -> fc f = true -> (Z.of_nat (length q) <= pmax U64)%Z -> Forall (fun i => i < len) q ->
  pairs_spec (sp_pos (ints (logical idx)) off) q pairs -> sel_post (pf f) (sliceable f) vals (map snd pairs) vals' ->
  (T -> fk f = true \/ is_prim (adtype vals) = true) ->
  outc T (try_sparse (APrim U64 (map (fun pr => Z.of_nat (fst pr)) pairs) VNonNull) vals' (length q) 0 fill)
    (fun b => sel_post (pf f) f (ASparse idx vals off len fill) q b /\ exists i v, b = ASparse i v 0 (length q) fill).
Proof.
  intros W C Hl HQ (P1 & P2 & P3 & P4 & P5) SV HT. pose proof (sel_alen _ _ _ _ _ SV) as AL. rewrite map_length in AL.
  destruct SV as (S1 & S2 & S3 & S4 & S5). cbn [sliceable fk] in S4.
  cbn [wf] in W. destruct W as (W1 & W2 & W3 & W4 & W5 & W6 & W7 & W8 & W9 & W10 & W11 & W12 & W13).
  set (fi := map (fun pr : nat * nat => Z.of_nat (fst pr)) pairs) in *.
  assert (length fi = length pairs) as LF by apply map_length.
  destruct (W11 C) as [BP FN].
  assert (is_bool (adtype vals') || is_prim (adtype vals') = true) as BP'.
  { destruct (adtype vals), (adtype vals'); cbn in *; try discriminate; auto. }
  assert (fill = VNull \/ is_prim (adtype vals) = true) as FN' by (destruct FN as [[FN _]|[FN _]]; auto).
  assert (instance_of fill (adtype vals') = true -> vtyped (adtype vals') fill) as VT.
  { intros H. destruct FN' as [-> | FN'']; [|rewrite S4 by auto; exact W9]. cbn in *. exact H. }
  assert (fk f = true \/ is_prim (adtype vals) = true -> instance_of fill (adtype vals') = true) as IT.
  { intros H. rewrite S4 by exact H. apply vtyped_instance; auto. }
  assert (Forall (fun i => i < length (logical vals)) (map snd pairs)) as SP.
  { apply Forall_map. eapply Forall_impl; [|exact P4]. intros pr (i & _ & Hi). unfold sp_pos in Hi. apply pos_of_lt in Hi.
    rewrite ints_length in Hi. rewrite logical_length in *. lia. }
  unfold try_sparse. cbn [adtype vnullable dtype_eqb ptype_eqb Bool.eqb andb negb]. change (dtype_eqb (DPrim U64 false) (DPrim U64 false)) with true. cbn [negb].
  destruct (instance_of fill (adtype vals')) eqn:EI; cbn [negb]. 2: { intros HH. specialize (IT (HT HH)). discriminate. }
  specialize (VT eq_refl). change (alen (APrim U64 fi VNonNull)) with (length fi). rewrite LF, AL, Nat.eqb_refl. cbn [negb].
  assert (forall z, In z fi -> (0 <= z < Z.of_nat (length q))%Z) as FB.
  { intros z Hz. unfold fi in Hz. apply in_map_iff in Hz. destruct Hz as (pr & <- & Hpr). rewrite Forall_forall in P2. specialize (P2 pr Hpr). cbv beta in P2. lia. }
  assert (Forall (in_range U64) fi) as FR.
  { apply Forall_forall. intros z Hz. specialize (FB z Hz). unfold in_range. change (pmin U64) with 0%Z. lia. }
  assert (logical (APrim U64 fi VNonNull) = map VInt fi) as LP.
  { cbn [logical vvalid]. symmetry. apply (map_ext_nth_tab VInt fi 0%Z). }
  assert (ints (map VInt fi) = fi) as IO by (unfold ints; rewrite map_map; apply map_id).
  match goal with |- outc T ?r _ => assert (r = Ok (ASparse (APrim U64 fi VNonNull) vals' 0 (length q) fill)) as -> end.
  { destruct (Nat.eqb_spec (length pairs) 0) as [E0|N0]; [reflexivity|].
    unfold scalar_at. rewrite (rd_scalar_at_ (APrim U64 fi VNonNull)) by (first [apply (reads_ok (APrim U64 fi VNonNull) f0); cbn [wf vwf]; auto|cbn [alen]; lia]).
    rewrite LP. cbn [bind]. rewrite (map_nth_lt VInt fi 0%Z) by lia. cbn [to_usize].
    assert (In (nth (length pairs - 1) fi 0%Z) fi) as HIn by (apply nth_In; lia). specialize (FB _ HIn).
    rewrite (proj2 (Z.leb_le _ _)) by lia. cbn [bind].
    destruct (Nat.ltb_spec (Z.to_nat (nth (length pairs - 1) fi 0%Z)) 0); [lia|]. rewrite Nat.sub_0_r.
    destruct (Nat.leb_spec (length q) (Z.to_nat (nth (length pairs - 1) fi 0%Z))); [lia|]. reflexivity. }
  apply outc_ok. split; [|eauto].
  split; [|split; [|split; [|split]]].
  - cbn [wf]. rewrite sliceable_pf, LP, IO. change (alen (APrim U64 fi VNonNull)) with (length fi). rewrite LF, AL. cbn [wf adtype vnullable Nat.add].
    split; [split; [exact FR|exact I]|]. split; [exact S1|]. split; [reflexivity|]. split; [reflexivity|]. split; [split; [exact I|intros _ z; discriminate]|]. split; [exact P1|].
    split. { apply Forall_forall. intros z Hz. specialize (FB z Hz). lia. }
    split; [exact Hl|]. split; [exact VT|].
    split. { destruct (adtype vals'); cbn in BP' |- *; try discriminate; reflexivity. }
    split. { intros _. split; [exact BP'|]. destruct FN as [[FN1 FN2]|[FN1 FN2]].
             - left. split; [exact FN1|]. rewrite S2. apply non_null_pick; auto.
             - right. rewrite S4 by auto. auto. }
    split. { intros Hv Hn. assert (nullable (adtype vals) = true) as NV.
             { destruct FN' as [E|E]; [subst fill; exact W9|]. rewrite <- S4 by auto. exact Hn. }
             assert (fv f = true) as Hv' by (destruct (fle_pf f) as (_ & _ & _ & <- & _); exact Hv).
             destruct (W12 Hv' NV) as [E1 E2]. split; [exact E1|]. rewrite S2. apply non_null_pick; auto. }
    intros HF. destruct (fle_pf f) as (_ & _ & _ & _ & _ & _ & [(H1 & H2 & H3 & H4 & H5)|(H1 & H2 & H3 & H4)]).
    + rewrite H1, H2, H3 in HF. destruct (W13 HF) as (X1 & X2 & X3). rewrite H1, H4, H5. split; [exact X1|]. split; [exact X2|].
      destruct X3 as [X3|X3]; [auto|right; rewrite S4 by auto; exact X3].
    + rewrite H1, H2, H3 in HF. destruct HF as [|[|]]; discriminate.
  - change (logical (ASparse (APrim U64 fi VNonNull) vals' 0 (length q) fill)) with
      (tab (length q) (fun i => match pos_of (Z.of_nat (0 + i)) (ints (logical (APrim U64 fi VNonNull))) with Some k => nth k (logical vals') VNull | None => fill end)).
    rewrite LP, IO. change (logical (ASparse idx vals off len fill)) with
      (tab len (fun i => match sp_pos (ints (logical idx)) off i with Some k => nth k (logical vals) VNull | None => fill end)).
    rewrite tab_pick by exact HQ. apply tab_ext. intros i Hi. cbn [Nat.add]. specialize (P3 i Hi).
    destruct (pos_of (Z.of_nat i) fi) as [k|] eqn:EK; rewrite P3; [|reflexivity]. apply pos_of_lt in EK. rewrite S2. rewrite nth_pick by (rewrite map_length; lia). reflexivity.
  - exact S3.
  - exact S4.
  - cbn [depth]. lia.
Qed.

Lemma filter_map_filter {A B} (g : A -> option B) h l : (forall x, In x l -> h x = false -> g x = None) -> filter_map g (filter h l) = filter_map g l.
Proof.
  induction l as [|x r IH]; intros H; [reflexivity|]. cbn [filter filter_map]. destruct (h x) eqn:E.
  - cbn [filter_map]. rewrite IH by (intros; apply H; [right|]; auto). reflexivity.
  - rewrite (H x) by (cbn; auto). apply IH. intros; apply H; [right|]; auto.
Qed.
Lemma filter_map_map {A B C} (g : B -> option C) (h : A -> B) l : filter_map g (map h l) = filter_map (fun x => g (h x)) l.
Proof. induction l as [|x r IH]; [reflexivity|]. cbn [map filter_map]. rewrite IH. reflexivity. Qed.
Lemma filter_map_ext {A B} (g h : A -> option B) l : (forall x, In x l -> g x = h x) -> filter_map g l = filter_map h l.
Proof.
  induction l as [|x r IH]; intros H; [reflexivity|]. cbn [filter_map]. rewrite (H x) by (left; reflexivity). rewrite IH by (intros; apply H; right; auto). reflexivity.
Qed.

(** min_index and max_index. *)
Lemma min_index_ok f idx off len : wf f idx -> adtype idx = DPrim U64 false -> Forall (fun z => (Z.of_nat off <= z < Z.of_nat (off + len))%Z) (ints (logical idx)) ->
  sparse_min_index idx (reads idx) off = Ok (if alen idx =? 0 then None else Some (Z.to_nat (nth 0 (ints (logical idx)) 0%Z) - off)).
Proof.
  intros W D F. unfold sparse_min_index. destruct (Nat.eqb_spec (alen idx) 0) as [E|E]; [reflexivity|].
  destruct (reads_ok idx f W) as [R _]. rewrite rd_scalar_at_ by (auto; lia).
  rewrite (proj1 (nonnull_elem f idx U64 0 W D ltac:(lia))). cbn [expect bind to_usize].
  pose proof (Forall_nth_lt _ _ 0%Z 0 F ltac:(rewrite ints_length, logical_length; lia)) as Q. cbv beta in Q.
  rewrite (proj2 (Z.leb_le _ _)) by lia. cbn [expect bind]. destruct (Nat.ltb_spec (Z.to_nat (nth 0 (ints (logical idx)) 0%Z)) off); [lia|reflexivity].
Qed.
Lemma max_index_ok f idx off len : wf f idx -> adtype idx = DPrim U64 false -> Forall (fun z => (Z.of_nat off <= z < Z.of_nat (off + len))%Z) (ints (logical idx)) ->
  sparse_max_index idx (reads idx) off = Ok (if alen idx =? 0 then None else Some (Z.to_nat (nth (alen idx - 1) (ints (logical idx)) 0%Z) - off)).
Proof.
  intros W D F. unfold sparse_max_index. destruct (Nat.eqb_spec (alen idx) 0) as [E|E]; [reflexivity|].
  destruct (reads_ok idx f W) as [R _]. rewrite rd_scalar_at_ by (auto; lia).
  rewrite (proj1 (nonnull_elem f idx U64 (alen idx - 1) W D ltac:(lia))). cbn [expect bind to_usize].
  pose proof (Forall_nth_lt _ _ 0%Z (alen idx - 1) F ltac:(rewrite ints_length, logical_length; lia)) as Q. cbv beta in Q.
  rewrite (proj2 (Z.leb_le _ _)) by lia. cbn [expect bind]. destruct (Nat.ltb_spec (Z.to_nat (nth (alen idx - 1) (ints (logical idx)) 0%Z)) off); [lia|reflexivity].
Qed.

Lemma ssorted_ge l k : ssortedZ l -> Forall (fun z => (0 <= z)%Z) l -> k < length l -> (Z.of_nat k <= nth k l 0)%Z.
Proof.
  intros SS F. induction k as [|k IH]; intros H.
  - apply (Forall_nth_lt _ _ 0%Z 0 F H).
  - pose proof (ssortedZ_nth l k (S k) SS ltac:(lia) H). specialize (IH ltac:(lia)). lia.
Qed.
Lemma ssorted_length l n : ssortedZ l -> Forall (fun z => (0 <= z < Z.of_nat n)%Z) l -> length l <= n.
Proof.
  intros S F. destruct (length l) as [|k] eqn:E; [lia|].
  pose proof (ssorted_ge l k S ltac:(eapply Forall_impl; [|exact F]; intros z Hz; cbv beta in Hz; lia) ltac:(lia)).
  pose proof (Forall_nth_lt _ _ 0%Z k F ltac:(lia)) as Q. cbv beta in Q. lia.
Qed.

(** * Filter positions *)
Definition rank (bs : list bool) (c : nat) : nat := count id (firstn c bs).
Lemma count_id_cons b l : count id (b :: l) = (if b then 1 else 0) + count id l.
Proof. destruct b; reflexivity. Qed.
Lemma rank_S bs c : c < length bs -> rank bs (S c) = rank bs c + (if nth c bs false then 1 else 0).
Proof.
  intros H. unfold rank. revert c H; induction bs as [|b r IH]; intros c H; cbn [length] in H; [lia|].
  destruct c as [|c].
  - cbn. destruct b; reflexivity.
  - change (firstn (S (S c)) (b :: r)) with (b :: firstn (S c) r). change (firstn (S c) (b :: r)) with (b :: firstn c r).
    change (nth (S c) (b :: r) false) with (nth c r false). specialize (IH c ltac:(lia)). rewrite !count_id_cons, IH. lia.
Qed.
Lemma rank_mono bs c c' : c <= c' -> c' <= length bs -> rank bs c <= rank bs c'.
Proof.
  intros H. induction H as [|c' H IH]; intros L; [lia|]. rewrite rank_S by lia. specialize (IH ltac:(lia)). lia.
Qed.
Lemma rank_lt bs c c' : c < c' -> c' <= length bs -> nth c bs false = true -> rank bs c < rank bs c'.
Proof.
  intros H L B. pose proof (rank_mono bs (S c) c' ltac:(lia) L). rewrite rank_S, B in H0 by lia. lia.
Qed.
Lemma rank_slice bs l c : l <= c -> c <= length bs -> count id (lslice bs l c) + rank bs l = rank bs c.
Proof.
  intros H L. unfold rank.
  assert (firstn c bs = firstn l bs ++ lslice bs l c) as E.
  { unfold lslice. replace c with (l + (c - l)) at 1 by lia. rewrite firstn_plus. reflexivity. }
  rewrite E. unfold count. rewrite filter_app, app_length. lia.
Qed.
Lemma set_indices_nth bs i : i < length (set_indices bs) -> nth (nth i (set_indices bs) 0) bs false = true /\ rank bs (nth i (set_indices bs) 0) = i.
Proof.
  revert i; induction bs as [|b r IH]; intros i H; [cbn in H; lia|]. rewrite set_indices_cons in *. destruct b; cbn [app] in *.
  - destruct i as [|i]; [split; reflexivity|]. cbn [nth length] in *. rewrite map_length in H. rewrite (map_nth_lt S _ 0) by lia.
    destruct (IH i ltac:(lia)) as [I1 I2]. split; [exact I1|]. unfold rank in *. cbn [firstn]. unfold count in *. cbn [filter id length]. rewrite I2. reflexivity.
  - rewrite map_length in H. rewrite (map_nth_lt S _ 0) by lia. destruct (IH i ltac:(lia)) as [I1 I2]. split; [exact I1|]. unfold rank in *. cbn [firstn]. unfold count in *. cbn [filter id]. exact I2.
Qed.
Lemma rank_bound bs c : c < length bs -> nth c bs false = true -> rank bs c < length (set_indices bs).
Proof.
  intros H B. pose proof (rank_lt bs c (length bs) H (le_n _) B) as Q. unfold rank at 2 in Q. rewrite firstn_all in Q. rewrite set_indices_length. exact Q.
Qed.
Lemma rank_inj bs c c' : c < length bs -> c' < length bs -> nth c bs false = true -> nth c' bs false = true -> rank bs c = rank bs c' -> c = c'.
Proof.
  intros H H' B B' E. destruct (Nat.lt_trichotomy c c') as [X|[X|X]]; [|exact X|].
  - pose proof (rank_lt bs c c' X ltac:(lia) B). lia.
  - pose proof (rank_lt bs c' c X ltac:(lia) B'). lia.
Qed.
Definition loop_pairs (bs : list bool) (vi : nat) (pos : list nat) : list (nat * nat) :=
  filter_map (fun vc => if nth (snd vc) bs false then Some (rank bs (snd vc), fst vc) else None) (combine (seq vi (length pos)) pos).
Lemma sparse_filter_loop_ok bs pos : forall last coord vi, Forall (fun c => c < length bs) pos -> ssortedZ (map Z.of_nat pos) ->
  Forall (fun c => last <= c) pos -> match coord with Some k => k | None => 0 end = rank bs last -> last <= length bs ->
  sparse_filter_loop bs last coord vi pos = Ok (map fst (loop_pairs bs vi pos), map snd (loop_pairs bs vi pos)).
Proof.
  induction pos as [|c r IH]; intros last coord vi F SS L HC HL; [reflexivity|].
  cbn [sparse_filter_loop]. inversion F as [|? ? Hc Fr]; subst. inversion L as [|? ? Lc Lr]; subst. destruct SS as [S1 S2].
  rewrite (nth_error_nth' bs false) by exact Hc. unfold loop_pairs. cbn [length seq combine filter_map fst snd].
  destruct (nth c bs false) eqn:B.
  - destruct (Nat.ltb_spec c last); [lia|]. cbv zeta. rewrite HC, rank_slice by lia.
    assert (Forall (fun x => c <= x) r) as Lc'.
    { apply Forall_forall. intros x Hx. specialize (S1 (Z.of_nat x) (in_map _ _ _ Hx)). lia. }
    rewrite (IH c (Some (rank bs c)) (S vi) Fr S2 Lc' eq_refl ltac:(lia)). reflexivity.
  - apply IH; auto.
Qed.
Lemma in_filter_map {A B} (g : A -> option B) l y : In y (filter_map g l) <-> exists x, In x l /\ g x = Some y.
Proof.
  induction l as [|x r IH]; [split; [intros []|intros (x & H & _); destruct H]|]. cbn [filter_map]. destruct (g x) eqn:E.
  - cbn [In]. rewrite IH. split.
    + intros [<-|(z & Hz & Ez)]; [exists x|exists z]; auto.
    + intros (z & [<-|Hz] & Ez); [left; congruence|right; exists z; auto].
  - rewrite IH. split; intros (z & Hz & Ez); [exists z; split; [right; exact Hz|exact Ez]|]. cbn [In] in Hz. destruct Hz as [Hz|Hz]; [congruence|exists z; auto].
Qed.
Lemma in_enum pos vi c s : In (vi, c) (combine (seq s (length pos)) pos) <-> s <= vi < s + length pos /\ nth (vi - s) pos 0 = c.
Proof.
  revert s; induction pos as [|x r IH]; intros s; cbn [length seq combine]; [split; [intros []|lia]|].
  cbn [In]. rewrite IH. split.
  - intros [E|[H1 H2]]; [injection E as -> ->; split; [lia|rewrite Nat.sub_diag; reflexivity]|]. split; [lia|].
    replace (vi - s) with (S (vi - S s)) by lia. exact H2.
  - intros [H1 H2]. destruct (Nat.eq_dec vi s) as [->|N]; [left; rewrite Nat.sub_diag in H2; cbn in H2; congruence|].
    right. split; [lia|]. replace (vi - s) with (S (vi - S s)) in H2 by lia. exact H2.
Qed.
Lemma in_loop_pairs bs pos k vi : In (k, vi) (loop_pairs bs 0 pos) <-> vi < length pos /\ nth (nth vi pos 0) bs false = true /\ k = rank bs (nth vi pos 0).
Proof.
  unfold loop_pairs. rewrite in_filter_map. split.
  - intros ([v c] & Hin & E). apply in_enum in Hin. rewrite Nat.sub_0_r in Hin. cbn [fst snd] in E. destruct Hin as [H1 H2]. subst c.
    destruct (nth (nth v pos 0) bs false) eqn:B; [|discriminate]. injection E as <- <-. split; [lia|auto].
  - intros (H1 & H2 & ->). exists (vi, nth vi pos 0). split; [apply in_enum; rewrite Nat.sub_0_r; split; [lia|reflexivity]|]. cbn [fst snd]. rewrite H2. reflexivity.
Qed.
Lemma loop_pairs_sorted bs pos : forall vi, Forall (fun c => c < length bs) pos -> ssortedZ (map Z.of_nat pos) ->
  ssortedZ (map (fun pr => Z.of_nat (fst pr)) (loop_pairs bs vi pos)).
Proof.
  induction pos as [|c r IH]; intros vi F S; [exact I|]. inversion F as [|? ? Hc Fr]; subst. destruct S as [S1 S2].
  unfold loop_pairs. cbn [length seq combine filter_map fst snd]. destruct (nth c bs false) eqn:B; [|apply IH; auto].
  cbn [map fst ssortedZ]. split; [|apply IH; auto]. intros y Hy. apply in_map_iff in Hy. destruct Hy as ((k & v) & <- & Hp).
  apply in_filter_map in Hp. destruct Hp as ([v' c'] & Hin & E). cbn [fst snd] in E. apply in_combine_r in Hin.
  specialize (S1 (Z.of_nat c') (in_map _ _ _ Hin)). destruct (nth c' bs false) eqn:B'; [|discriminate]. injection E as <- <-. cbn [fst].
  rewrite Forall_forall in Fr. pose proof (rank_lt bs c c' ltac:(lia) ltac:(specialize (Fr c' Hin); cbv beta in Fr; lia) B). lia.
Qed.
Lemma rel_pos_sorted il off : ssortedZ il -> Forall (fun z => (Z.of_nat off <= z)%Z) il -> ssortedZ (map Z.of_nat (rel_pos il off)).
Proof.
  unfold rel_pos. induction il as [|z r IH]; intros S F; [exact I|]. destruct S as [S1 S2]. inversion F as [|? ? Fz Fr]; subst. cbn [map ssortedZ]. split; [|auto].
  intros y Hy. rewrite map_map in Hy. apply in_map_iff in Hy. destruct Hy as (w & <- & Hw). specialize (S1 w Hw). rewrite Forall_forall in Fr. specialize (Fr w Hw). cbv beta in Fr. lia.
Qed.
Lemma loop_pairs_spec bs il off : ssortedZ il -> Forall (fun z => (Z.of_nat off <= z < Z.of_nat (off + length bs))%Z) il ->
  pairs_spec (sp_pos il off) (set_indices bs) (loop_pairs bs 0 (rel_pos il off)).
Proof.
  intros S F. set (pos := rel_pos il off). set (P := loop_pairs bs 0 pos).
  destruct (rel_pos_facts il off (length bs) S F) as [ND FP]. fold pos in ND, FP.
  assert (Forall (fun z => (Z.of_nat off <= z)%Z) il) as F' by (eapply Forall_impl; [|exact F]; intros z Hz; cbv beta in Hz; lia).
  assert (forall vi, vi < length pos -> sp_pos il off (nth vi pos 0) = Some vi) as SPK.
  { intros vi Hvi. assert (vi < length il) as Hvi' by (unfold pos, rel_pos in Hvi; rewrite map_length in Hvi; exact Hvi).
    unfold sp_pos, pos, rel_pos. rewrite (map_nth_lt _ il 0%Z) by exact Hvi'. pose proof (Forall_nth_lt _ _ 0%Z vi F' Hvi') as Q. cbv beta in Q.
    replace (Z.of_nat (off + Z.to_nat (nth vi il 0%Z - Z.of_nat off))) with (nth vi il 0%Z) by lia. apply pos_of_nth; auto. }
  assert (forall c vi, sp_pos il off c = Some vi -> vi < length pos /\ nth vi pos 0 = c) as SPI.
  { intros c vi H. unfold sp_pos in H. apply pos_of_some in H. destruct H as [H1 H2]. unfold pos, rel_pos. rewrite map_length. split; [exact H1|].
    rewrite (map_nth_lt _ il 0%Z) by exact H1. rewrite H2. lia. }
  assert (Forall (fun pr => fst pr < length (set_indices bs)) P) as PB.
  { apply Forall_forall. intros [k vi] Hp. apply in_loop_pairs in Hp. destruct Hp as (H1 & H2 & ->). cbn [fst]. apply rank_bound; auto.
    apply (Forall_nth_lt _ _ 0 vi FP H1). }
  assert (ssortedZ (map (fun pr => Z.of_nat (fst pr)) P)) as PS by (apply loop_pairs_sorted; auto; apply rel_pos_sorted; auto).
  split; [exact PS|]. split; [exact PB|]. split; [|split].
  - intros i Hi. destruct (set_indices_nth bs i Hi) as [B R]. set (c := nth i (set_indices bs) 0) in *.
    assert (c < length bs) as Hc by (apply (Forall_nth_lt _ _ 0 i (set_indices_lt bs) Hi)).
    destruct (pos_of (Z.of_nat i) _) as [k|] eqn:EK.
    + apply pos_of_some in EK. rewrite map_length in EK. destruct EK as [K1 K2]. rewrite (map_nth_lt _ P (0, 0)) in K2 by exact K1.
      rewrite (map_nth_lt snd P (0, 0)) by exact K1. destruct (nth k P (0, 0)) as [k' vi] eqn:EP. cbn [fst snd] in *.
      assert (In (k', vi) P) as HIn by (rewrite <- EP; apply nth_In; exact K1). apply in_loop_pairs in HIn. destruct HIn as (H1 & H2 & H3).
      assert (nth vi pos 0 = c) as EC.
      { apply (rank_inj bs); auto; [apply (Forall_nth_lt _ _ 0 vi FP H1)|]. apply Nat2Z.inj in K2. congruence. }
      rewrite <- EC. apply SPK. exact H1.
    + destruct (sp_pos il off c) as [vi|] eqn:EV; [|reflexivity]. exfalso. apply SPI in EV. destruct EV as [H1 H2].
      apply pos_of_none in EK. apply EK. apply in_map_iff. exists (i, vi). split; [reflexivity|]. apply in_loop_pairs. rewrite H2. auto.
  - apply Forall_forall. intros [k vi] Hp. pose proof Hp as Hp'. apply in_loop_pairs in Hp. destruct Hp as (H1 & H2 & H3). cbn [snd]. exists (nth vi pos 0). split; [|apply SPK; exact H1].
    unfold set_indices. apply filter_In. split; [|exact H2]. apply in_seq. pose proof (Forall_nth_lt _ _ 0 vi FP H1) as Q. cbv beta in Q. lia.
  - rewrite <- (map_length (fun pr => Z.of_nat (fst pr)) P). apply ssorted_length; [exact PS|]. apply Forall_map. eapply Forall_impl; [|exact PB]. intros pr Hpr. cbv beta in Hpr. lia.
Qed.

Section Step.
  Variable rec : array -> ops_t.
  Variable M : nat.
  Hypothesis Hrec : forall b, depth b < M -> ops_good (rec b) b.

  Lemma sparse_sel f idx vals off len fill q pairs (T : Prop) : depth vals < M ->
    wf f (ASparse idx vals off len fill) -> fc f = true -> ft f = true -> (Z.of_nat (length q) <= pmax U64)%Z -> Forall (fun i => i < len) q ->
    pairs_spec (sp_pos (ints (logical idx)) off) q pairs -> (T -> fT f = true) ->
    outc T (do vals' <- o_take (rec vals) U64 (map snd pairs); try_sparse (APrim U64 (map (fun pr => Z.of_nat (fst pr)) pairs) VNonNull) vals' (length q) 0 fill)
      (sel_post (pf f) f (ASparse idx vals off len fill) q).
  Proof.
    intros D W C T0 Hl HQ P HT. pose proof W as W0. cbn [wf] in W. destruct W as (W1 & W2 & W3 & W4 & W5 & W6 & W7 & W8 & W9 & W10 & W11 & W12 & W13).
    eapply outc_bind.
    { eapply outc_weaken with (P' := sel_post (pf f) (sliceable f) vals (map snd pairs)).
      - apply (g_take _ _ (Hrec vals D) (sliceable f) U64 (map snd pairs)); auto.
        + rewrite map_length. destruct P as (_ & _ & _ & _ & P5). clear - P5 Hl. set (pm := pmax U64) in *. clearbody pm. lia.
        + destruct P as (_ & _ & _ & P4 & _). apply Forall_map. eapply Forall_impl; [|exact P4]. intros pr (i & _ & Hi). apply pos_of_lt in Hi.
          rewrite ints_length, logical_length in Hi. lia.
      - intros HH. left. apply HT. exact HH.
      - intros b _ Hb. unfold take_post in Hb. rewrite pf_sliceable in Hb. exact Hb. }
    intros vals' _ SV. eapply outc_impl; [eapply sparse_build; eauto|].
    - intros HH. apply W13. auto.
    - cbv beta. intros b [Hb _]. exact Hb.
  Qed.

  Lemma take_sparse ix vs o n fl : depth (ASparse ix vs o n fl) <= M -> take_ok rec (ASparse ix vs o n fl).
  Proof.
    intros D f ip q W C T Hl HI. cbn [depth] in D. cbn [alen] in HI. cbn [ops_step o_take]. pose proof W as W0.
    cbn [wf] in W. destruct W as (W1 & W2 & W3 & W4 & W5 & W6 & W7 & W8 & W9 & W10 & W11 & W12 & W13).
    assert (Ttake f ip q -> fT f = true) as HT by (intros [H|(H & _)]; [exact H|apply W13; auto]).
    unfold sparse_take. rewrite (min_index_ok (sliceable f) ix o n W1 W3 W7), (max_index_ok (sliceable f) ix o n W1 W3 W7). cbn [bind].
    set (il := ints (logical ix)) in *. assert (length il = alen ix) as LI by (unfold il; rewrite ints_length; apply logical_length).
    set (mn := match (if alen ix =? 0 then None else Some _) with Some k => k | None => 0 end).
    set (mx := match (if alen ix =? 0 then None else Some (Z.to_nat (nth (alen ix - 1) il 0%Z) - o)) with Some k => k | None => 0 end).
    set (enum := combine (seq 0 (length q)) q).
    assert (forall pi, In pi enum -> snd pi < n) as EB.
    { intros [a b] Hp. apply in_combine_r in Hp. rewrite Forall_forall in HI. apply HI. exact Hp. }
    assert (forall i, (mn <=? i) && (i <=? mx) = false -> sp_pos il o i = None) as EX.
    { intros i Hi. destruct (sp_pos il o i) as [k|] eqn:E; [|reflexivity]. exfalso. unfold sp_pos in E. apply pos_of_some in E. destruct E as [E1 E2].
      unfold mn, mx in Hi. destruct (Nat.eqb_spec (alen ix) 0) as [E0|N0]; [lia|].
      pose proof (ssorted_sorted _ W6) as SS. pose proof (sortedZ_nth il 0 k SS ltac:(lia) E1). pose proof (sortedZ_nth il k (alen ix - 1) SS ltac:(lia) ltac:(lia)).
      apply andb_false_iff in Hi. rewrite !Nat.leb_gt in Hi. pose proof (Forall_nth_lt _ _ 0%Z 0 W7 ltac:(lia)) as Q. cbv beta in Q. lia. }
    set (h := fun pi : nat * nat => match sp_pos il o (snd pi) with Some k => Some (fst pi, k) | None => None end).
    assert (filter_map h (filter (fun pi => (mn <=? snd pi) && (snd pi <=? mx)) enum) = pairs_of (sp_pos il o) 0 q) as EP.
    { rewrite filter_map_filter; [reflexivity|]. intros pi _ Hp. unfold h. rewrite EX by exact Hp. reflexivity. }
    apply (outc_bind _ _ (fun pairs => pairs = pairs_of (sp_pos il o) 0 q)).
    - destruct (Nat.ltb_spec 128 (length q)).
      + eapply outc_bind.
        { eapply outc_weaken; [apply (resolved_ok (sliceable f) ix _ o n); auto| |intros b _ Hb; exact Hb].
          - apply (g_canon _ _ (Hrec ix ltac:(lia))); auto.
          - cbn [sliceable fC]. intros HH. apply W13. left. apply HT. exact HH. }
        intros pos _ ->. apply outc_ok. rewrite <- EP. apply filter_map_ext. intros pi _. unfold h.
        rewrite last_pos_eq by (apply (rel_pos_facts il o n W6 W7)).
        rewrite pos_of_shift by (eapply Forall_impl; [|exact W7]; intros z Hz; cbv beta in Hz; lia). unfold sp_pos. fold il.
        destruct (pos_of _ il); reflexivity.
      + set (cand := filter (fun pi => (mn <=? snd pi) && (snd pi <=? mx)) enum) in *.
        assert (mapM (fun pi => do r <- sparse_search_index ix (reads ix) o (snd pi); Ok (fst pi, to_found r)) cand = Ok (map (fun pi => (fst pi, sp_pos il o (snd pi))) cand)) as EM.
        { apply mapM_ok_map. intros pi Hpi. unfold cand in Hpi. apply filter_In in Hpi. destruct Hpi as [Hpi _]. specialize (EB pi Hpi).
          unfold sparse_search_index. destruct (reads_ok ix (sliceable f) W1) as [_ SE].
          destruct W5 as [W5 W5']. rewrite (se_nonnull (sliceable f) ix U64 W1 SE W5 W3 eq_refl (ssorted_sorted _ W6)).
          - cbn [bind]. rewrite (search_left_pos _ _ W6). reflexivity.
          - unfold in_range. change (pmin U64) with 0%Z. clear - EB W8. set (pm := pmax U64) in *. clearbody pm. lia.
          - destruct (Nat.eq_dec (alen ix) 0) as [Z0|Z0]; [right|left; exact Z0]. intros CC. apply (W5' Z0 _ CC). clear - EB. lia. }
        rewrite EM. cbn [bind]. apply outc_ok. rewrite <- EP. rewrite filter_map_map. apply filter_map_ext. intros pi _. unfold h. cbn [fst snd]. destruct (sp_pos il o (snd pi)); reflexivity.
    - intros pairs _ ->. apply sparse_sel; auto; [lia|]. apply pairs_of_spec.
  Qed.

  Lemma sparse_take_shape ix vs o n fl ip q b : o_take (ops_step rec (ASparse ix vs o n fl)) ip q = Ok b -> exists i v, b = ASparse i v 0 (length q) fl.
  Proof.
    cbn [ops_step o_take]. unfold sparse_take. intros H.
    repeat match type of H with
    | bind ?r _ = Ok _ => destruct r; cbn [bind] in H; [|discriminate H|discriminate H]
    end.
    unfold try_sparse in H.
    repeat match type of H with
    | bind ?r _ = Ok _ => destruct r; cbn [bind] in H; [|discriminate H|discriminate H]
    | (if ?c then _ else _) = Ok _ => destruct c
    | Ok _ = Ok _ => injection H as <-; eauto
    | _ => discriminate H
    end.
  Qed.
End Step.
