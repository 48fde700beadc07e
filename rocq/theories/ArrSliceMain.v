(** slice is correct on every well-formed encoding tree (induction over the tree). *)
From Verif Require Import Base Spec SearchModel SearchProofs Arr ArrRead ArrWf ArrReadProofs ArrSlice ArrSliceProofs.

Lemma Forall2_length {A B} (P : A -> B -> Prop) l l' : Forall2 P l l' -> length l = length l'.
Proof. induction 1; cbn; congruence. Qed.

Definition slice_ok (a : array) : Prop :=
  forall f i j, wf f a -> i <= j -> j <= alen a -> outc (Tslice f i j) (slice a i j) (slice_post f a i j).

Lemma slice_null n : slice_ok (ANull n).
Proof.
  intros f i j Hw Hij Hj. cbn [alen] in Hj. cbn [slice alen]. rewrite slice_good by auto. apply outc_ok.
  repeat split; auto. cbn [logical]. rewrite lslice_repeat by auto. reflexivity.
Qed.

Lemma slice_bool o b n v : slice_ok (ABool o b n v).
Proof.
  intros f i j Hw Hij Hj. cbn [alen] in Hj. cbn [slice alen]. rewrite slice_good by auto.
  cbn [wf] in Hw. destruct Hw as (Ho & Hb & Hv).
  destruct (vslice_ok v n i j Hv Hij Hj) as (w & E & Hw & Hnu & Hval & _ & Hfit). rewrite E. cbn [bind].
  unfold try_bool. rewrite Hfit. apply outc_ok.
  repeat split; auto.
  - apply Nat.mod_upper_bound. lia.
  - rewrite skipn_length. lia.
  - cbn [logical]. rewrite lslice_tab by auto. apply tab_ext. intros k Hk. rewrite Hval by auto.
    rewrite nth_skipn. replace (8 * ((o + i) / 8) + ((o + i) mod 8 + k)) with (o + (i + k)) by lia. reflexivity.
  - cbn [adtype]. rewrite Hnu. reflexivity.
Qed.

Lemma slice_prim p l v : slice_ok (APrim p l v).
Proof.
  intros f i j Hw Hij Hj. cbn [alen] in Hj. cbn [slice alen]. rewrite slice_good by auto.
  cbn [wf] in Hw. destruct Hw as (Hl & Hv).
  destruct (vslice_ok v _ i j Hv Hij Hj) as (w & E & Hw & Hnu & Hval & _ & Hfit). rewrite E. cbn [bind].
  unfold try_prim. rewrite lslice_length by auto. rewrite Hfit. apply outc_ok.
  repeat split; auto.
  - apply Forall_lslice; auto.
  - rewrite lslice_length by auto. exact Hw.
  - cbn [logical]. rewrite lslice_tab by auto. rewrite lslice_length by auto. apply tab_ext. intros k Hk. rewrite Hval by auto.
    rewrite nth_lslice by auto. reflexivity.
  - cbn [adtype]. rewrite Hnu. reflexivity.
Qed.

Lemma slice_view u l b v : slice_ok (AView u l b v).
Proof.
  intros f i j Hw Hij Hj. cbn [alen] in Hj. cbn [slice alen]. rewrite slice_good by auto.
  cbn [wf] in Hw. destruct Hw as (Hl & Hv & Hu & Hk).
  destruct (vslice_ok v _ i j Hv Hij Hj) as (w & E & Hw & Hnu & Hval & Hnn & Hfit). rewrite E. cbn [bind].
  unfold try_view. rewrite lslice_length by auto. rewrite Hfit. apply outc_ok.
  assert (L : logical (AView u (lslice l i j) b w) = lslice (logical (AView u l b v)) i j).
  { cbn [logical]. rewrite lslice_tab by auto. rewrite lslice_length by auto. apply tab_ext. intros k Hk'. rewrite Hval by auto.
    rewrite nth_lslice by auto. reflexivity. }
  split; [|repeat split; auto].
  - cbn [wf]. rewrite L. repeat split; auto using Forall_lslice.
    + rewrite lslice_length by auto. exact Hw.
    + intros Hu' s Hs. apply Hu; auto. eapply In_lslice; eauto.
    + intros Hk'. apply Hnn. auto.
  - cbn [adtype]. rewrite Hnu. reflexivity.
  - destruct u; auto.
Qed.

Lemma slice_varbin u o b v : slice_ok o -> slice_ok (AVarBin u o b v).
Proof.
  intros IH f i j Hw Hij Hj. cbn [alen] in Hj. cbn [slice alen]. rewrite slice_good by auto.
  cbn [wf] in Hw. destruct Hw as (Hwo & (p & Hd & Hp) & H1 & Hs & Hb & Hv & Hu & Hc & HC & HF & HT & HN).
  eapply outc_bind.
  { eapply outc_weaken; [apply (IH f i (j + 1) Hwo); lia| |intros b0 _ Hb0; exact Hb0].
    unfold Tslice. intuition lia. }
  intros o' _ (Wo & Lo & Do & _ & _ & _).
  destruct (vslice_ok v _ i j Hv Hij Hj) as (w & E & Hw & Hnu & Hval & Hnn & Hfit). rewrite E. cbn [bind].
  assert (Ao : alen o' = j - i + 1).
  { rewrite <- logical_length, Lo, lslice_length by (rewrite logical_length; lia). lia. }
  unfold try_varbin. rewrite Do, Hd. cbn [int_nonnull]. rewrite Hp. cbn [negb].
  rewrite Ao. replace (j - i + 1 =? 0) with false by lia. replace (j - i + 1 - 1) with (j - i) by lia.
  rewrite Hfit. cbn [negb]. apply outc_ok.
  assert (L : logical (AVarBin u o' b w) = lslice (logical (AVarBin u o b v)) i j).
  { cbn [logical]. rewrite lslice_tab by (rewrite nats_length, ints_length, logical_length; lia).
    rewrite Lo, ints_lslice. unfold nats. rewrite <- lslice_map. fold (nats (ints (logical o))).
    rewrite lslice_length by (rewrite nats_length, ints_length, logical_length; lia).
    replace (j + 1 - i - 1) with (j - i) by lia. apply tab_ext. intros k Hk. rewrite Hval by auto.
    rewrite !nth_lslice by lia. replace (i + (k + 1)) with (i + k + 1) by lia. reflexivity. }
  split; [|repeat split; auto].
  - cbn [wf]. rewrite L. rewrite Do, Lo, ints_lslice. rewrite Ao. replace (j - i + 1 - 1) with (j - i) by lia.
    split; [exact Wo|]. split; [eauto|]. split; [lia|]. split; [apply sortedZ_lslice; auto|]. split; [apply Forall_lslice; auto|].
    repeat split; auto. intros Hu' s Hs'. apply Hu; auto. eapply In_lslice; eauto.
  - cbn [adtype]. rewrite Hnu. reflexivity.
  - destruct u; auto.
Qed.

Lemma slice_struct ns fls n v : Forall slice_ok fls -> slice_ok (AStruct ns fls n v).
Proof.
  intros IH f i j Hw Hij Hj. cbn [alen] in Hj. cbn [slice alen]. rewrite slice_good by auto.
  apply wf_struct_iff in Hw. destruct Hw as (Hn & Hv & Hf).
  rewrite mapM_map. eapply outc_bind.
  { apply mapM_outc with (P := fun x y => slice_post f x i j y /\ alen y = j - i). intros x Hx.
    rewrite Forall_forall in Hf, IH. destruct (Hf x Hx) as [Wx Lx].
    eapply outc_impl; [apply (IH x Hx f i j Wx); lia|]. intros y Hy. split; [exact Hy|]. eapply post_alen; [|exact Hy]. lia. }
  intros fls' _ HF2.
  destruct (vslice_ok v _ i j Hv Hij Hj) as (w & E & Hw & Hnu & Hval & Hnn & Hfit). rewrite E. cbn [bind].
  assert (length fls' = length fls) as HL by (symmetry; eapply Forall2_length; eauto).
  unfold try_struct. rewrite Hn, HL, Nat.eqb_refl. cbn [negb].
  assert (forallb (fun x => alen x =? j - i) fls' = true) as ->.
  { apply forallb_forall. intros y Hy. clear - HF2 Hy. induction HF2 as [|x y0 l l' H _ IH]; [destruct Hy|].
    destruct Hy as [<-|Hy]; [apply Nat.eqb_eq; tauto|auto]. }
  rewrite Hfit. cbn [negb]. apply outc_ok. split; [|repeat split; auto].
  - apply wf_struct_iff. rewrite HL. split; [auto|]. split; [auto|].
    clear - HF2. induction HF2 as [|x y0 l l' H _ IH]; constructor; [|auto]. destruct H as [(W & _) L]. auto.
  - cbn [logical]. rewrite lslice_tab by auto. apply tab_ext. intros k Hk. rewrite Hval by auto.
    destruct (vvalid v (i + k)); [|reflexivity]. f_equal. rewrite !map_map.
    clear - HF2 Hk. induction HF2 as [|x y0 l l' H _ IH]; [reflexivity|]. cbn [map]. f_equal; [|exact IH].
    destruct H as [(_ & L & _) _]. rewrite L. apply nth_lslice. exact Hk.
  - cbn [adtype]. rewrite Hnu. f_equal. clear - HF2. induction HF2 as [|x y0 l l' H _ IH]; [reflexivity|]. cbn [map]. f_equal; [|exact IH].
    destruct H as [(_ & _ & D & _) _]. exact D.
Qed.

Lemma slice_ext id st : slice_ok st -> slice_ok (AExt id st).
Proof.
  intros IH f i j Hw Hij Hj. cbn [alen] in Hj. cbn [slice alen]. rewrite slice_good by auto.
  cbn [wf] in Hw. destruct Hw as (Hw & HF). eapply outc_bind; [apply (IH f i j Hw); auto|].
  intros st' _ (W & L & D & _). apply outc_ok. repeat split; auto. cbn [adtype]. rewrite D. reflexivity.
Qed.

Lemma slice_const d x n : slice_ok (AConst d x n).
Proof.
  intros f i j Hw Hij Hj. cbn [alen] in Hj. cbn [slice alen]. rewrite slice_good by auto. apply outc_ok.
  split; [exact Hw|]. repeat split; auto. cbn [logical]. rewrite lslice_repeat by auto. reflexivity.
Qed.

Lemma slice_bytebool l v : slice_ok (AByteBool l v).
Proof.
  intros f i j Hw Hij Hj. cbn [alen] in Hj. cbn [slice alen]. rewrite slice_good by auto.
  cbn [wf] in Hw. destruct Hw as (Hl & Hv & Hk).
  destruct (vslice_ok v _ i j Hv Hij Hj) as (w & E & Hw & Hnu & Hval & Hnn & Hfit). rewrite E. cbn [bind].
  unfold try_bytebool. rewrite lslice_length by auto. rewrite Hfit. apply outc_ok.
  repeat split; auto.
  - apply Forall_lslice; auto.
  - rewrite lslice_length by auto. exact Hw.
  - intros K C. apply Hk; auto. apply Hnn. exact C.
  - cbn [logical]. rewrite lslice_tab by auto. rewrite lslice_length by auto. apply tab_ext. intros k Hk'. rewrite Hval by auto.
    rewrite nth_lslice by auto. reflexivity.
  - cbn [adtype]. rewrite Hnu. reflexivity.
Qed.

Lemma slice_dict c vs : slice_ok c -> slice_ok (ADict c vs).
Proof.
  intros IH f i j Hw Hij Hj. cbn [alen] in Hj. cbn [slice alen]. rewrite slice_good by auto.
  cbn [wf] in Hw. destruct Hw as (Hwc & Hwv & (p & Hd & Hu) & Hb & Hfl & Hfv & HF).
  eapply outc_bind; [apply (IH f i j Hwc); auto|]. intros c' _ Hp. pose proof (post_alen _ _ _ _ _ Hj Hp) as Ac.
  destruct Hp as (W & L & D & _). unfold try_dict. rewrite D, Hd. cbn [uint_nonnull]. rewrite Hu. apply outc_ok.
  assert (LL : logical (ADict c' vs) = lslice (logical (ADict c vs)) i j).
  { cbn [logical]. rewrite L, lslice_map. reflexivity. }
  split; [|repeat split; auto; cbn [ss64_ok adtype]; auto].
  cbn [wf]. rewrite LL, L, D, ints_lslice.
  split; [exact W|]. split; [exact Hwv|]. split; [eauto|]. split; [apply Forall_lslice; auto|]. split; [auto|]. split; [|auto].
  intros Hf Hn k Hk. rewrite Ac in Hk. rewrite !nth_lslice by auto. apply Hfv; auto. lia.
Qed.

Lemma slice_for p e r sh : slice_ok e -> slice_ok (AFoR p e r sh).
Proof.
  intros IH f i j Hw Hij Hj. cbn [alen] in Hj. cbn [slice alen]. rewrite slice_good by auto.
  cbn [wf] in Hw. destruct Hw as (Hwe & Hp & (n & Hd) & Hr & Hs).
  eapply outc_bind; [apply (IH f i j Hwe); auto|]. intros e' _ (W & L & D & S & _ & _ & CV). apply outc_ok.
  repeat split; auto; try lia; try apply Hr.
  - rewrite D. eauto.
  - cbn [logical]. rewrite L, lslice_map. reflexivity.
  - cbn [adtype]. rewrite D. reflexivity.
  - cbn [ss_ok] in *. tauto.
  - cbn [ss_ok] in *. intros z Hz. apply H. rewrite L, ints_lslice in Hz. eapply In_lslice; eauto.
  - cbn [ss_ok] in *. tauto.
  - cbn [cval]. rewrite CV. reflexivity.
Qed.

Lemma slice_zigzag e : slice_ok e -> slice_ok (AZigZag e).
Proof.
  intros IH f i j Hw Hij Hj. cbn [alen] in Hj. cbn [slice alen]. rewrite slice_good by auto.
  cbn [wf] in Hw. destruct Hw as (Hwe & (p & n & Hd & Hu) & HT).
  eapply outc_bind; [apply (IH f i j Hwe); auto|]. intros e' _ (W & L & D & S & _).
  unfold try_zigzag. rewrite D, Hd. cbn [is_uint]. rewrite Hu. apply outc_ok.
  repeat split; auto.
  - rewrite D. eauto.
  - cbn [logical]. rewrite L, lslice_map. reflexivity.
  - cbn [adtype]. rewrite D. reflexivity.
  - cbn [ss64_ok adtype]. rewrite D. auto.
Qed.

Lemma vtyped_instance d x : vtyped d x -> flat d = true -> instance_of x d = true.
Proof.
  destruct x, d; cbn; intros H F; try contradiction; try discriminate; auto. apply in_rangeb_spec. exact H.
Qed.

Lemma slice_sparse ix vs o n fl : slice_ok ix -> slice_ok vs -> slice_ok (ASparse ix vs o n fl).
Proof.
  intros IHi IHv f i j Hw Hij Hj. cbn [alen] in Hj. cbn [slice alen]. rewrite slice_good by auto.
  pose proof Hw as Hw'. cbn [wf] in Hw.
  destruct Hw as (Hwi & Hwv & Hdi & Hlen & Hss & Hs & Hrng & Hmax & Hfill & Hflat & Hc & Hv & HT).
  destruct (reads_ok _ _ Hwi) as [Hri Hsi].
  destruct Hss as [Hss Hcv].
  assert (E : forall k, k <= n -> exists r, sparse_search_index ix (reads ix) o k = Ok r /\
     to_index r = to_index (spec_search (map (fun z => Z.compare z (Z.of_nat (o + k))) (ints (logical ix))) Left)).
  { intros k Hk. unfold sparse_search_index.
    destruct (se_nonnull_index _ ix U64 Hwi Hsi Hss Hdi eq_refl (ssorted_sorted _ Hs) (Z.of_nat (o + k)) Left) as (r & E1 & E2 & _); [|eauto].
    unfold in_range. change (pmin U64) with 0%Z. lia. }
  destruct (E i ltac:(lia)) as (r1 & -> & T1). destruct (E j Hj) as (r2 & -> & T2). cbn [bind]. rewrite T1, T2. clear r1 r2 T1 T2 E.
  pose proof (spec_left_bounds (ints (logical ix)) (Z.of_nat (o + i)) (ssorted_sorted _ Hs)) as (S1 & S2 & S3).
  pose proof (spec_left_bounds (ints (logical ix)) (Z.of_nat (o + j)) (ssorted_sorted _ Hs)) as (E1 & E2 & E3).
  set (s := to_index (spec_search (map (fun z => Z.compare z (Z.of_nat (o + i))) (ints (logical ix))) Left)) in *.
  set (e := to_index (spec_search (map (fun z => Z.compare z (Z.of_nat (o + j))) (ints (logical ix))) Left)) in *.
  assert (IL : length (ints (logical ix)) = alen ix) by (rewrite ints_length, logical_length; reflexivity).
  assert (s <= e) as Hse.
  { destruct (le_lt_dec s e); auto. specialize (S2 e ltac:(lia)). specialize (E3 e ltac:(lia) ltac:(lia)). lia. }
  eapply outc_bind.
  { eapply outc_weaken; [apply (IHi (sliceable f) s e Hwi); lia|intros HH; eapply Tslice_sliceable; exact HH|intros b _ Hb; exact Hb]. }
  intros ix' _ Pi. assert (Ai : alen ix' = e - s) by (eapply post_alen; [|exact Pi]; lia). destruct Pi as (Wi & Li & Di & SSi & _ & _ & CVi).
  eapply outc_bind.
  { eapply outc_weaken; [apply (IHv (sliceable f) s e Hwv); lia|intros HH; eapply Tslice_sliceable; exact HH|intros b _ Hb; exact Hb]. }
  intros vs' _ Pv. assert (Av : alen vs' = e - s) by (eapply post_alen; [|exact Pv]; lia). destruct Pv as (Wv & Lv & Dv & SSv & _).
  assert (RI : Forall (fun z => (Z.of_nat (o + i) <= z < Z.of_nat (o + i + (j - i)))%Z) (ints (logical ix'))).
  { rewrite Li, ints_lslice. apply Forall_forall. intros z Hz. apply In_nth with (d := 0%Z) in Hz. destruct Hz as (k & Hk & <-).
    rewrite lslice_length in Hk by lia. rewrite nth_lslice by lia.
    specialize (S3 (s + k) ltac:(lia) ltac:(lia)). specialize (E2 (s + k) ltac:(lia)). lia. }
  assert (TS : try_sparse ix' vs' (j - i) (o + i) fl = Ok (ASparse ix' vs' (o + i) (j - i) fl)).
  { unfold try_sparse. rewrite Di, Hdi, dtype_eqb_refl. cbn [negb]. rewrite Dv.
    rewrite vtyped_instance by auto. cbn [negb]. rewrite Ai, Av, Nat.eqb_refl. cbn [negb].
    destruct (Nat.eqb_spec (e - s) 0) as [Z0|Z0]; [reflexivity|].
    destruct (reads_ok _ _ Wi) as [Rix' _]. unfold scalar_at. rewrite rd_scalar_at_ by (auto; lia). cbn [bind].
    rewrite Hdi in Di. destruct (nonnull_elem _ ix' U64 (e - s - 1) Wi Di ltac:(lia)) as [EE _]. rewrite EE.
    pose proof (Forall_nth_lt _ _ 0%Z (e - s - 1) RI ltac:(rewrite ints_length, logical_length; lia)) as B. cbn beta in B.
    unfold to_usize. destruct (Z.leb_spec 0 (nth (e - s - 1) (ints (logical ix')) 0)%Z); [|lia]. cbn [bind].
    match goal with |- context [if ?c then _ else _] => assert (c = false) as -> by lia end.
    match goal with |- context [if ?c then _ else _] => assert (c = false) as -> by lia end. reflexivity. }
  rewrite TS. apply outc_ok.
  assert (L : logical (ASparse ix' vs' (o + i) (j - i) fl) = lslice (logical (ASparse ix vs o n fl)) i j).
  { cbn [logical]. rewrite lslice_tab by auto. apply tab_ext. intros k Hk.
    rewrite Li, ints_lslice, Lv. rewrite (pos_of_slice (ints (logical ix)) s e);
      [|exact Hs|lia|lia|intros k' Hk'; specialize (S2 k' Hk'); lia|intros k' Hk' Hk2; specialize (E3 k' Hk' Hk2); lia].
    replace (o + i + k) with (o + (i + k)) by lia.
    destruct (pos_of (Z.of_nat (o + (i + k))) (lslice (ints (logical ix)) s e)) as [q|] eqn:Eq; [|reflexivity].
    cbn [option_map]. apply pos_of_some in Eq. rewrite lslice_length in Eq by lia. apply nth_lslice. lia. }
  split; [|repeat split; auto].
  - cbn [wf]. assert (ix_ok ix' (o + i) (j - i)) as IX.
    { split; [auto|]. rewrite CVi, Ai. intros Z0 z Cz Hz.
      destruct (Nat.eq_dec (alen ix) 0) as [Zi|Zi]; [apply (Hcv Zi z Cz); lia|].
      pose proof (cval_repeat _ _ Cz) as RP.
      assert (N : forall k, k < alen ix -> nth k (ints (logical ix)) 0%Z = z).
      { intros k Hk. rewrite RP. rewrite nth_indep with (d' := z) by (rewrite repeat_length; auto). apply nth_repeat. }
      destruct (Nat.eq_dec s 0) as [S0|S0].
      - specialize (E3 0 ltac:(lia) ltac:(lia)). rewrite N in E3 by lia. lia.
      - specialize (S2 0 ltac:(lia)). rewrite N in S2 by lia. lia. }
    rewrite Di, Dv, Ai, Av, Lv. repeat (split; [now auto|]).
    split; [rewrite Li, ints_lslice; apply ssortedZ_lslice; auto|]. split; [exact RI|]. split; [lia|].
    repeat (split; [now auto|]). split.
    + intros Hf. destruct (Hc Hf) as [K1 K2]. split; [exact K1|]. destruct K2 as [[K2 K3]|K2]; [left|right; exact K2].
      split; [exact K2|]. apply non_null_lslice. exact K3.
    + split; [|auto]. intros Hf Hn. destruct (Hv Hf Hn) as [K2 K3]. split; [exact K2|]. apply non_null_lslice. exact K3.
  - cbn [ss64_ok adtype]. rewrite Dv. auto.
  - cbn [sparse_shape]. exists ix', vs', s, e. auto 10.
Qed.

Lemma slice_runend en vs v o n : slice_ok en -> slice_ok vs -> slice_ok (ARunEnd en vs v o n).
Proof.
  intros IHe IHv f i j Hw Hij Hj. cbn [alen] in Hj. cbn [slice alen]. rewrite slice_good by auto.
  pose proof Hw as Hw'. cbn [wf] in Hw.
  destruct Hw as (Hwe & Hwv & (p & Hd & Hu) & Hlen & Hss & Hs & Hnn & Hnu & Hv & Hfl & Hl & Hfs & Hrest).
  destruct (reads_ok _ _ Hwe) as [Hre Hse].
  set (el := ints (logical en)) in *.
  assert (IL : length el = alen en) by (unfold el; rewrite ints_length, logical_length; reflexivity).
  assert (HT : Tslice f i j -> i < j) by (unfold Tslice; rewrite Hfs; intuition congruence).
  assert (Hp0 : pmin p = 0%Z) by (destruct p; cbn in Hu; try discriminate; reflexivity).
  destruct (Nat.eq_dec (alen en) 0) as [Z0|Z0].
  { (* no runs: to_ends_index panics *)
    assert (el = []) as E0 by (destruct el; [reflexivity|cbn in IL; lia]). rewrite E0 in Hl. destruct Hl as [-> ->].
    assert (runend_find en (reads en) 0 i = Panic) as ->; [|cbn; intros T; specialize (HT T); lia].
    unfold runend_find. destruct (se_nonnull_index f en p Hwe Hse Hss Hd (is_unsigned_int _ Hu) (ssorted_sorted _ Hs) (Z.of_nat (i + 0)) Right) as (rr & -> & ER & _).
    2:{ cbn [bind]. unfold to_ends_index. rewrite ER. fold el. rewrite E0, Z0. reflexivity. }
    1:{ unfold in_range. pose proof (bits_pos p). assert (0 < 2 ^ bits p)%Z by (apply Z.pow_pos_nonneg; lia). unfold pmax.
      assert (is_signed p = false) as -> by (destruct p; cbn in Hu; try discriminate; reflexivity). lia. } }
  assert (el <> []) as Hne by (intros E0; rewrite E0 in IL; cbn in IL; lia).
  assert (HL : in_range p (last el 0%Z)).
  { rewrite last_nth, IL. eapply nonnull_elem; eauto. lia. }
  assert (Hlast : (Z.of_nat (o + n) <= last el 0)%Z) by (destruct el; [congruence|]; lia).
  assert (H0 : (0 < nth 0 el 0)%Z /\ (o <> 0 -> (Z.of_nat o < nth 0 el 0)%Z)).
  { destruct el; [congruence|]. cbn [nth]. tauto. }
  assert (F : forall k, k <= n -> runend_find en (reads en) o k = Ok (Nat.min (run_index el (o + k)) (alen en - 1))).
  { intros k Hk. unfold runend_find.
    destruct (se_nonnull_index f en p Hwe Hse Hss Hd (is_unsigned_int _ Hu) (ssorted_sorted _ Hs) (Z.of_nat (k + o)) Right) as (rr & -> & ER & _); [unfold in_range in *; lia|].
    - cbn [bind]. unfold to_ends_index. rewrite ER, search_right_run. fold el.
      replace (k + o) with (o + k) by lia. fold (run_index el (o + k)).
      pose proof (count_le_length (fun e => (e <=? Z.of_nat (o + k))%Z) el). fold (run_index el (o + k)) in H.
      destruct (Nat.eqb_spec (run_index el (o + k)) (alen en)) as [Q|Q].
      + destruct (Nat.eqb_spec (run_index el (o + k)) 0); [lia|]. f_equal. lia.
      + f_equal. lia. }
  rewrite !F by lia. cbn [bind].
  pose proof (run_index_mono el (o + i) (o + j) ltac:(lia)) as Hmono.
  set (ri := run_index el (o + i)) in *. set (rj := run_index el (o + j)) in *.
  set (s := Nat.min ri (alen en - 1)) in *. set (e := Nat.min rj (alen en - 1)) in *.
  assert (s <= e) by lia. assert (e < alen en) by lia.
  assert (Tsub : Tslice f i j -> Tslice f s (e + 1)) by (unfold Tslice; rewrite Hfs; intuition lia).
  eapply outc_bind.
  { eapply outc_weaken; [apply (IHe f s (e + 1) Hwe); lia|exact Tsub|intros b _ Hb; exact Hb]. }
  intros en' _ Pe. assert (Ae : alen en' = e + 1 - s) by (eapply post_alen; [|exact Pe]; lia). destruct Pe as (We & Le & De & SSe & SS64e & _).
  eapply outc_bind.
  { eapply outc_weaken; [apply (IHv f s (e + 1) Hwv); lia|exact Tsub|intros b _ Hb; exact Hb]. }
  intros vs' _ Pv. assert (Av : alen vs' = e + 1 - s) by (eapply post_alen; [|exact Pv]; lia). destruct Pv as (Wv & Lv & Dv & _).
  destruct (vslice_ok v _ i j Hv Hij Hj) as (w & Ew & Hw & Hwnu & Hval & _ & Hfit). rewrite Ew. cbn [bind].
  unfold try_runend. rewrite Dv, Hnu, Hwnu, Bool.eqb_reflx. cbn [negb].
  assert (El' : ints (logical en') = lslice el s (e + 1)) by (rewrite Le, ints_lslice; reflexivity).
  assert (N0 : nth 0 (ints (logical en')) 0%Z = nth s el 0%Z).
  { rewrite El', nth_lslice by lia. f_equal. lia. }
  destruct (reads_ok _ _ We) as [Re' _].
  assert (SC : scalar_at en' 0 = Ok (VInt (nth s el 0%Z))).
  { unfold scalar_at. rewrite rd_scalar_at_ by (auto; lia). f_equal. rewrite <- N0. rewrite Hd in De.
    eapply nonnull_elem; eauto. lia. }
  assert (P0 : (0 < nth s el 0)%Z).
  { destruct (Nat.eq_dec s 0) as [->|]; [tauto|]. pose proof (ssortedZ_nth el 0 s Hs ltac:(lia) ltac:(lia)). lia. }
  destruct (run_index_spec el (o + i) (ssorted_sorted _ Hs)) as [R1 R2]. fold ri in R1, R2.
  (* does the first kept run start the slice? *)
  assert (CHK : (if negb (i + o =? 0) && negb (alen en' =? 0)
           then do x <- scalar_at en' 0; do k <- to_usize x; (if k <=? i + o then Err else Ok tt)
           else Ok tt) = if (Z.of_nat (i + o) <? nth s el 0)%Z then Ok tt else Err).
  { rewrite Ae, SC. cbn [bind to_usize]. rewrite (proj2 (Z.leb_le _ _)) by lia. cbn [bind].
    destruct (Nat.eqb_spec (i + o) 0) as [Q|Q]; cbn [negb andb].
    - rewrite (proj2 (Z.ltb_lt _ _)) by lia. reflexivity.
    - replace (e + 1 - s =? 0) with false by lia. cbn [negb].
      destruct (Nat.leb_spec (Z.to_nat (nth s el 0%Z)) (i + o)), (Z.ltb_spec (Z.of_nat (i + o)) (nth s el 0%Z)); (reflexivity || lia). }
  rewrite CHK. destruct (Z.ltb_spec (Z.of_nat (i + o)) (nth s el 0%Z)) as [G|G]; cbn [bind].
  2:{ (* only possible when i = len *)
      cbn. intros T. specialize (HT T). assert (ri < alen en).
      { rewrite <- IL. apply run_index_lt; [auto|]. lia. }
      assert (s = ri) as Hsr by lia. rewrite Hsr in G. specialize (R2 ltac:(lia)). lia. }
  assert (s = ri) as Hsr.
  { destruct (le_lt_dec ri (alen en - 1)); [lia|]. assert (s = alen en - 1) by lia.
    assert (ri <= alen en) by (rewrite <- IL; apply count_le_length).
    specialize (R1 s ltac:(lia)). lia. }
  rewrite De, Hd. cbn [uint_nonnull]. rewrite Hu. cbn [negb].
  rewrite El'. assert (ssortedZ (lslice el s (e + 1))) as Hs' by (apply ssortedZ_lslice; exact Hs).
  apply ssortedb_spec in Hs'. rewrite Hs'. cbn [negb]. apply ssortedb_spec in Hs'. rewrite Hfit. cbn [negb]. apply outc_ok.
  assert (NE : nth e el 0%Z = last (ints (logical en')) 0%Z).
  { rewrite last_nth, El', lslice_length by lia. rewrite nth_lslice by lia. f_equal. lia. }
  assert (LAST : (Z.of_nat (o + j) <= nth e el 0)%Z).
  { destruct (le_lt_dec (alen en - 1) rj).
    - replace e with (alen en - 1) by lia. rewrite <- IL, <- last_nth. lia.
    - destruct (run_index_spec el (o + j) (ssorted_sorted _ Hs)) as [Q1 Q2]. fold rj in Q1, Q2.
      replace e with rj by lia. specialize (Q2 ltac:(lia)). lia. }
  assert (LG : logical (ARunEnd en' vs' w (i + o) (j - i)) = lslice (logical (ARunEnd en vs v o n)) i j).
  { cbn [logical]. rewrite lslice_tab by auto. fold el. rewrite El', Lv. apply tab_ext. intros k Hk. rewrite Hval by auto.
    destruct (vvalid v (i + k)); [|reflexivity]. replace (i + o + k) with (o + (i + k)) by lia.
    set (x := o + (i + k)) in *.
    assert (run_index el x < e + 1).
    { destruct (le_lt_dec (alen en - 1) rj) as [Q|Q].
      - assert (run_index el x < length el); [|lia]. apply run_index_lt; auto. lia.
      - pose proof (run_index_mono el x (o + j) ltac:(lia)) as RM. fold rj in RM. lia. }
    assert (s <= run_index el x) by (rewrite Hsr; apply run_index_mono; lia).
    pose proof (run_index_slice el s (e + 1) x (ssorted_sorted _ Hs) ltac:(lia) ltac:(lia) ltac:(lia) ltac:(lia)) as RS.
    rewrite RS. apply nth_lslice. lia. }
  split; [|repeat split; auto].
  - cbn [wf]. rewrite De, Dv, Ae, Av, Lv, Hnu, Hwnu. repeat (split; [now eauto|]).
    rewrite El'. repeat (split; [now eauto using non_null_lslice|]). split.
    + destruct (lslice el s (e + 1)) as [|z0 zr] eqn:EZ.
      { assert (length (lslice el s (e + 1)) = e + 1 - s) as Q by (apply lslice_length; lia). rewrite EZ in Q. cbn in Q. lia. }
      rewrite <- El', <- NE. assert (z0 = nth s el 0%Z) as ->.
      { rewrite <- N0, El'. reflexivity. }
      repeat split; lia.
    + split; [auto|]. destruct Hrest as (Q1 & Q2 & Q3 & Q4). repeat split; auto.
      * apply Q4; auto.
      * apply Q4; auto.
      * apply Q4; auto.
      * apply Q4; auto.
  - cbn [ss64_ok adtype]. rewrite Dv. auto.
Qed.

Lemma slice_bitpacked p l bw o n v q : match q with Some a => slice_ok a | None => True end -> slice_ok (ABitPacked p l bw o n v q).
Proof.
  intros IH f i j Hw Hij Hj. cbn [alen] in Hj. cbn [slice alen]. rewrite slice_good by auto.
  cbn [wf] in Hw. destruct Hw as (Hu & Hb & Ho & Hlen & Hr & Hv & Hq & HT).
  set (o' := (i + o) mod 1024) in *. set (bs := i + o - o') in *. set (be := (j + o + 1023) / 1024 * 1024) in *. cbv zeta.
  assert (O' : o' < 1024) by (apply Nat.mod_upper_bound; lia).
  assert (B1 : bs + o' = i + o) by lia.
  assert (B2 : bs <= be) by lia. assert (B3 : be <= length l) by lia. assert (B4 : j + o <= be) by lia.
  match goal with |- context [if ?c then _ else _] => assert (c = false) as -> by lia end.
  destruct (vslice_ok v _ i j Hv Hij Hj) as (w & E & Hw & Hnu & Hval & Hnn & Hfit). rewrite E. cbn [bind].
  assert (LB : length (lslice l bs be) = 1024 * ((j - i + o' + 1023) / 1024)) by (rewrite lslice_length by lia; lia).
  assert (TB : forall q', match q' with None => True | Some b => alen b = j - i /\
              match b with ASparse ix _ _ _ _ => alen ix <> 0 | _ => False end end ->
            try_bitpacked p (lslice l bs be) bw o' (j - i) w q' = Ok (ABitPacked p (lslice l bs be) bw o' (j - i) w q')).
  { intros q' Hq'. unfold try_bitpacked. rewrite Hu. cbn [negb].
    replace (64 <? bw)%Z with false by (pose proof (bits_pos p); lia).
    replace (1023 <? o') with false by lia. rewrite LB, Nat.eqb_refl. cbn [negb]. rewrite Hfit. cbn [negb].
    destruct q' as [b|]; [|reflexivity]. destruct Hq' as [-> Hb']. rewrite Nat.eqb_refl. cbn [negb].
    destruct b; try contradiction. rewrite (proj2 (Nat.eqb_neq _ _)) by auto. reflexivity. }
  assert (NL : forall k, k < j - i -> nth (o' + k) (lslice l bs be) 0%Z = nth (o + (i + k)) l 0%Z).
  { intros k Hk. rewrite nth_lslice by lia. f_equal. lia. }
  assert (RB : Forall (fun z => (0 <= z < 2 ^ bw)%Z) (lslice l bs be)) by (apply Forall_lslice; auto).
  destruct q as [q|].
  - destruct Hq as (Hwq & Hlq & Hdq & Hft & Hsp). pose proof Hsp as Hsp'.
    destruct q as [| | | | | | | |idx vals soff slen fill| | | | | | |]; try contradiction.
    destruct Hsp as (-> & Hne & Hnv & (d & Hd)). cbn [alen] in Hlq. subst slen.
    set (Q := ASparse idx vals soff n VNull) in *.
    eapply outc_bind.
    { eapply outc_bind; [apply (IH f i j Hwq); auto|]. intros b _ Hp.
      assert (Ab : alen b = j - i) by (eapply post_alen; [|exact Hp]; auto).
      destruct Hp as (Wb & Lb & Db & _ & _ & Sb & _). cbn [sparse_shape Q] in Sb.
      destruct Sb as (idx' & vals' & s & e & -> & Dv' & Lv' & Li' & SSv').
      instantiate (1 := fun q' => match q' with
         | None => forall k, k < j - i -> nth (i + k) (logical Q) VNull = VNull
         | Some b => wf f b /\ logical b = lslice (logical Q) i j /\ adtype b = DPrim p true /\ alen b = j - i /\
             match b with
             | ASparse ix vs so _ fl => (fl = VNull /\ alen ix <> 0 /\ non_null (logical vs) /\ (exists w, adtype vs = DPrim p w)) /\
                 (so = soff + i /\ exists s e, logical vs = lslice (logical vals) s e /\ logical ix = lslice (logical idx) s e /\ (ss_ok vals -> ss_ok vs))
             | _ => False end end).
      destruct (Nat.eqb_spec (alen idx') 0) as [Z0|Z0]; apply outc_ok.
      - intros k Hk. rewrite <- (nth_lslice (logical Q) i j) by auto. rewrite <- Lb. cbn [logical]. rewrite nth_tab by auto.
        assert (ints (logical idx') = []) as -> by
          (apply length_zero_iff_nil; rewrite ints_length, logical_length; exact Z0). reflexivity.
      - split; [exact Wb|]. split; [exact Lb|]. split; [rewrite Db; exact Hdq|]. split; [exact Ab|]. split; [|split; [reflexivity|exists s, e; auto]].
        split; [reflexivity|]. split; [exact Z0|]. split.
        + rewrite Lv'. apply non_null_lslice; auto.
        + rewrite Dv'. eauto. }
    intros q' _ Hq'.
    rewrite TB.
    2:{ destruct q' as [b|]; [|exact I]. destruct Hq' as (_ & _ & _ & Ab & Hb'). split; [exact Ab|]. destruct b; try contradiction. tauto. }
    apply outc_ok. split; [|split; [|split; [|split; [|split; [|split]]]]]; auto.
    + cbn [wf]. repeat (split; [now auto|]). split; [|auto].
      destruct q' as [b|]; [|exact I]. destruct Hq' as (Wb & Lb & Db & Ab & Hb').
      repeat (split; [now auto|]). split; [intros; specialize (Hft ltac:(auto)); lia|]. destruct b; try contradiction. exact (proj1 Hb').
    + cbn [logical]. rewrite lslice_tab by auto. fold Q. apply tab_ext. intros k Hk. rewrite Hval by auto.
      destruct (vvalid v (i + k)); [|reflexivity]. rewrite NL by auto.
      destruct q' as [b|].
      * destruct Hq' as (Wb & Lb & _). rewrite Lb, nth_lslice by auto. reflexivity.
      * rewrite Hq' by auto. destruct k; reflexivity.
    + cbn [adtype]. rewrite Hnu. reflexivity.
    + cbn [ss_ok]. unfold Q. intros [[PX1 PX2] SSv]. destruct q' as [b|]; [|exact I]. destruct Hq' as (Wb & Lb & Db & Ab & Hb').
      destruct b as [| | | | | | | |ix' vs' so sl fl| | | | | | |]; try contradiction.
      destruct Hb' as [_ (-> & s & e & Lv' & Li' & SS')]. split; [|auto]. split.
      * rewrite Lv', ints_lslice. apply Forall_lslice; auto.
      * cbn [wf] in Wb. destruct Wb as (_ & _ & _ & _ & _ & _ & RB' & _). cbn [alen] in Ab. subst sl.
        apply Forall_forall. intros z Hz. rewrite Forall_forall in RB', PX2. pose proof (RB' z Hz) as Rz.
        rewrite Li', ints_lslice in Hz. apply In_lslice in Hz. specialize (PX2 z Hz). cbn beta in PX2.
        rewrite Hval by lia. rewrite <- PX2. f_equal. lia.
    + cbn [ss64_ok]. discriminate.
    + exact I.
  - cbn [bind]. rewrite TB by exact I. apply outc_ok. split; [|split; [|split; [|split; [|split; [|split]]]]]; auto.
    + cbn [wf]. repeat (split; [now auto|]). auto.
    + cbn [logical]. rewrite lslice_tab by auto. apply tab_ext. intros k Hk. rewrite Hval by auto.
      destruct (vvalid v (i + k)); [|reflexivity]. rewrite NL by auto.
      assert (P0 : forall i, nth i ([] : list value) VNull = VNull) by (intros [|]; reflexivity). rewrite !P0. reflexivity.
    + cbn [adtype]. rewrite Hnu. reflexivity.
Qed.

Lemma nth_error_combine_map {A B} (g : A -> B) l k d : k < length l -> nth_error (combine l (map g l)) k = Some (nth k l d, g (nth k l d)).
Proof.
  intros H. rewrite combine_map, nth_error_map, nth_error_nth' with (d := d) by auto. reflexivity.
Qed.

Lemma find_chunk_idx_mono lens i j k1 o1 k2 o2 : i <= j -> j <= list_sum lens ->
  find_chunk_idx lens i = Ok (k1, o1) -> find_chunk_idx lens j = Ok (k2, o2) -> k1 <= k2.
Proof.
  intros Hij Hj E1 E2. destruct lens as [|x r] eqn:El.
  { cbn in Hj. assert (i = 0) by lia. assert (j = 0) by lia. subst. rewrite E1 in E2. injection E2 as -> _. lia. }
  rewrite <- El in *. assert (Hne : lens <> []) by congruence. clear El.
  destruct (find_chunk_idx_spec lens i ltac:(lia) Hne) as (a & b & F1 & Ha & Sa & Ba & Ca).
  destruct (find_chunk_idx_spec lens j ltac:(lia) Hne) as (c & d & F2 & Hc & Sc & Bc & Cc).
  rewrite E1 in F1. rewrite E2 in F2. injection F1 as <- <-. injection F2 as <- <-.
  destruct (le_lt_dec k1 k2) as [|L]; auto. exfalso.
  (* k2 < k1, so j <= end of chunk k2 <= start of chunk k1 <= i *)
  pose proof (list_sum_firstn_S lens k2 Hc). pose proof (list_sum_firstn_mono lens (S k2) k1 ltac:(lia)).
  assert (i = j) as Eij by lia. rewrite Eij, E2 in E1. injection E1 as E1 _. lia.
Qed.

Lemma forallb_dtype (cs : list array) d : Forall (fun c => adtype c = d) cs -> forallb (fun c => dtype_eqb (adtype c) d) cs = true.
Proof. intros H. apply forallb_forall. rewrite Forall_forall in H. intros x Hx. rewrite (H x Hx). apply dtype_eqb_refl. Qed.

Lemma lslice_cons_snoc {A} (l : list A) k1 k2 d : k1 < k2 -> k2 < length l ->
  lslice l k1 (k2 + 1) = nth k1 l d :: lslice l (k1 + 1) k2 ++ [nth k2 l d].
Proof.
  intros H1 H2. apply nth_error_ext. intros t. rewrite nth_error_lslice.
  destruct t as [|t].
  { cbn [nth_error]. destruct (Nat.ltb_spec 0 (k2 + 1 - k1)); [|lia]. rewrite Nat.add_0_r. apply nth_error_nth'. lia. }
  cbn [nth_error]. assert (LL : length (lslice l (k1 + 1) k2) = k2 - (k1 + 1)) by (apply lslice_length; lia).
  destruct (Nat.ltb_spec t (k2 - (k1 + 1))).
  - rewrite nth_error_app1 by lia. rewrite nth_error_lslice. destruct (Nat.ltb_spec (S t) (k2 + 1 - k1)), (Nat.ltb_spec t (k2 - (k1 + 1))); try lia.
    f_equal. lia.
  - rewrite nth_error_app2 by lia. rewrite LL. destruct (Nat.ltb_spec (S t) (k2 + 1 - k1)).
    + replace (t - (k2 - (k1 + 1))) with 0 by lia. cbn. replace (k1 + S t) with k2 by lia. apply nth_error_nth'. lia.
    + destruct (t - (k2 - (k1 + 1))) as [|u] eqn:Eu; [lia|]. cbn. destruct u; reflexivity.
Qed.

Lemma slice_chunked d cs : Forall slice_ok cs -> slice_ok (AChunked d cs).
Proof.
  intros IH f i j Hw Hij Hj. cbn [alen] in Hj. cbn [slice]. change (alen (AChunked d cs)) with (list_sum (map alen cs)).
  rewrite slice_good by auto. cbn [wf] in Hw. destruct Hw as (Hc & Hfs & HfT & HfN & HfF & Hfc & Hsum & HCx). apply wf_chunks_iff in Hc.
  unfold chunked_slice.
  assert (LENS : map (fun c : array * slicer => alen (fst c)) (combine cs (map slice cs)) = map alen cs).
  { rewrite combine_map, map_map. reflexivity. }
  rewrite LENS. cbv zeta. clear LENS.
  destruct cs as [|c0 cr] eqn:Ecs.
  { (* no chunks: find_chunk_idx finds chunk 0, which does not exist *)
    cbn in Hj. assert (i = 0) by lia. assert (j = 0) by lia. subst. cbn. unfold Tslice. intros [T|[_ T]]; [|lia]. apply (Hfs T). reflexivity. }
  rewrite <- Ecs in *. assert (Hne : cs <> []) by congruence. clear Ecs c0 cr.
  set (lens := map alen cs) in *. assert (Hlne : lens <> []) by (unfold lens; destruct cs; [congruence|discriminate]).
  destruct (find_chunk_idx_spec lens i ltac:(lia) Hlne) as (k1 & o1 & F1 & K1 & S1 & B1 & C1).
  destruct (find_chunk_idx_spec lens j ltac:(lia) Hlne) as (k2 & o2 & F2 & K2 & S2 & B2 & C2).
  pose proof (find_chunk_idx_mono lens i j _ _ _ _ Hij Hj F1 F2) as Hk.
  assert (LLN : length lens = length cs) by apply map_length. rewrite LLN in K1, K2.
  rewrite F1, F2. cbn [bind fst snd].
  assert (LL : map (@length value) (map logical cs) = lens) by (unfold lens; rewrite map_map; apply map_ext; apply logical_length).
  set (x1 := nth k1 cs (ANull 0)) in *. set (x2 := nth k2 cs (ANull 0)) in *.
  assert (N1 : nth k1 lens 0 = alen x1) by (unfold lens; apply map_nth_lt; auto).
  assert (N2 : nth k2 lens 0 = alen x2) by (unfold lens; apply map_nth_lt; auto).
  assert (L1 : nth k1 (map logical cs) [] = logical x1) by (apply map_nth_lt; auto).
  assert (L2 : nth k2 (map logical cs) [] = logical x2) by (apply map_nth_lt; auto).
  pose proof (Forall_nth_lt _ _ (ANull 0) k1 Hc K1) as [W1 D1]. pose proof (Forall_nth_lt _ _ (ANull 0) k2 Hc K2) as [W2 D2].
  pose proof (Forall_nth_lt _ _ (ANull 0) k1 IH K1) as I1. pose proof (Forall_nth_lt _ _ (ANull 0) k2 IH K2) as I2.
  fold x1 in W1, D1, I1. fold x2 in W2, D2, I2.
  (* a list of well-formed chunks of the right type meets the postcondition *)
  assert (FIN : forall cs', Forall (fun x => wf f x /\ adtype x = d) cs' -> cs' <> [] ->
      concat (map logical cs') = lslice (concat (map logical cs)) i j ->
      outc (Tslice f i j) (try_chunked cs' d) (slice_post f (AChunked d cs) i j)).
  { intros cs' HF Hne' HL. unfold try_chunked. rewrite forallb_dtype by (eapply Forall_impl; [|exact HF]; cbn; tauto).
    apply outc_ok. split; [|split; [exact HL|split; [reflexivity|split; [auto|split; [auto|split; [exact I|reflexivity]]]]]].
    cbn [wf]. rewrite wf_chunks_iff. repeat (split; [now auto|]). split; [|now auto]. intros HN. specialize (Hsum HN).
    apply (f_equal (@length value)) in HL. rewrite concat_length_sum, map_map in HL.
    rewrite (map_ext _ alen logical_length) in HL. rewrite lslice_length in HL by (rewrite concat_length_sum, LL; auto).
    generalize dependent (pmax U64). intros m Hm. lia. }
  destruct (Nat.eqb_spec k2 k1) as [Ek|Ek].
  - (* one chunk *)
    rewrite nth_error_combine_map with (d := ANull 0) by auto. cbn [snd]. fold x1.
    subst k2. assert (o1 <= o2) by lia.
    eapply outc_bind.
    { eapply outc_weaken; [apply (I1 f o1 o2 W1); lia| |intros b _ Hb; exact Hb]. unfold Tslice. intuition lia. }
    intros y _ (Wy & Ly & Dy & _). apply FIN; [repeat constructor; auto; congruence|discriminate|].
    cbn [map concat]. rewrite app_nil_r, Ly. rewrite <- S1, <- S2, <- LL.
    rewrite lslice_concat_one; [rewrite L1; reflexivity|rewrite map_length; auto|lia|rewrite L1, logical_length; lia].
  - (* several chunks *)
    assert (k1 < k2) by lia.
    assert (LC : lslice (combine cs (map slice cs)) k1 (k2 + 1) =
       (x1, slice x1) :: combine (lslice cs (k1 + 1) k2) (map slice (lslice cs (k1 + 1) k2)) ++ [(x2, slice x2)]).
    { rewrite (lslice_cons_snoc _ k1 k2 (ANull 0, slice (ANull 0))) by (rewrite ?combine_map, ?map_length; lia).
      rewrite !combine_map, lslice_map.
      rewrite !(map_nth_lt (fun x => (x, slice x)) cs (ANull 0)) by lia. reflexivity. }
    unfold slicer. rewrite LC. cbn [fst snd]. rewrite removelast_last, rev_app_distr. cbn [rev app snd].
    assert (MF : map fst (combine (lslice cs (k1 + 1) k2) (map slice (lslice cs (k1 + 1) k2))) = lslice cs (k1 + 1) k2).
    { rewrite combine_map, map_map. cbn [fst]. apply map_id. }
    rewrite MF.
    assert (MW : Forall (fun x => wf f x /\ adtype x = d) (lslice cs (k1 + 1) k2)) by (apply Forall_lslice; auto).
    assert (HL : lslice (concat (map logical cs)) i j =
       lslice (logical x1) o1 (alen x1) ++ concat (map logical (lslice cs (k1 + 1) k2)) ++ lslice (logical x2) 0 o2).
    { rewrite <- S1, <- S2, <- LL.
      rewrite lslice_concat_many; rewrite ?L1, ?L2, ?map_length, ?logical_length; try lia. rewrite <- lslice_map. reflexivity. }
    eapply outc_bind.
    { eapply outc_weaken; [apply (I1 f o1 (alen x1) W1); lia| |intros b _ Hb; exact Hb].
      unfold Tslice. intros [T|[T Tij]]; [auto|]. right. split; [auto|].
      specialize (C1 ltac:(lia)). lia. }
    intros y _ (Wy & Ly & Dy & _).
    destruct (Nat.eqb_spec o2 0) as [->|Eo].
    + apply FIN; [constructor; [split; congruence|exact MW]|discriminate|].
      rewrite HL. cbn [map concat]. rewrite Ly. rewrite (lslice_nil (logical x2)) by lia. rewrite app_nil_r. reflexivity.
    + eapply outc_bind.
      { eapply outc_weaken; [apply (I2 f 0 o2 W2); lia| |intros b _ Hb; exact Hb].
        unfold Tslice. intros [T|[T Tij]]; [auto|]. right. split; [auto|lia]. }
      intros z _ (Wz & Lz & Dz & _). apply FIN; [|discriminate|].
      * constructor; [split; congruence|]. apply Forall_app. split; [exact MW|]. repeat constructor; congruence.
      * rewrite HL. cbn [map concat]. rewrite map_app, concat_app. cbn [map concat]. rewrite Ly, Lz, app_nil_r. reflexivity.
Qed.

Theorem slice_correct a : slice_ok a.
Proof.
  induction a as [n|o b n v|p l v|u w b v|u o b v IHo|ns fls n v IHf|id st IHst|d x n|ix vs o n fl IHi IHv|d cs IHc
    |c vs IHc IHv|e vs v o n IHe IHv|p e r sh IHe|e IHe|p l bw o n v q IHq|l v] using array_ind'.
  - apply slice_null.
  - apply slice_bool.
  - apply slice_prim.
  - apply slice_view.
  - apply slice_varbin; auto.
  - apply slice_struct; auto.
  - apply slice_ext; auto.
  - apply slice_const.
  - apply slice_sparse; auto.
  - apply slice_chunked; auto.
  - apply slice_dict; auto.
  - apply slice_runend; auto.
  - apply slice_for; auto.
  - apply slice_zigzag; auto.
  - apply slice_bitpacked; auto.
  - apply slice_bytebool.
Qed.

(** Bounds are checked first by every encoding. *)
Lemma slice_out_of_bounds a i j : alen a < j \/ j < i -> slice a i j = Err.
Proof.
  intros H. destruct a; cbn [slice]; match goal with |- (if ?c then _ else _) = _ => assert (c = true) as -> end;
    try reflexivity; unfold slice_bad; lia.
Qed.
