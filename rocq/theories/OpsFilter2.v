(** filter on variable-length binary arrays. *)
From Verif Require Import Base Spec SearchModel SearchProofs Arr ArrRead ArrWf ArrReadProofs ArrSearchProofs ArrSlice ArrSliceProofs ArrSliceMain
  ValidityModel PropValidity IntEnc PropIntEnc RunEnc PropRunEnc PropUnary PropDict ArrOps OpsBase OpsFlat OpsCanon OpsCanon2 OpsCanon3 OpsTake
  OpsVarBin OpsSparse OpsTake2 OpsChunked OpsFilter.

(** The slices cover exactly the set bits from [pos] on. *)
Fixpoint cover (bits : list bool) (pos : nat) (ss : list (nat * nat)) : Prop :=
  match ss with
  | [] => forall x, pos <= x -> nth x bits false = false
  | (s, e) :: r => pos <= s /\ s < e /\ e <= length bits /\ (forall x, pos <= x -> x < s -> nth x bits false = false) /\
                   (forall x, s <= x -> x < e -> nth x bits false = true) /\ cover bits e r
  end.
Lemma cover_slices bits l : forall pos start p0, skipn pos bits = l -> pos + length l = length bits ->
  match start with
  | None => p0 <= pos /\ (forall x, p0 <= x -> x < pos -> nth x bits false = false)
  | Some s => p0 <= s /\ s < pos /\ (forall x, p0 <= x -> x < s -> nth x bits false = false) /\ (forall x, s <= x -> x < pos -> nth x bits false = true)
  end -> cover bits p0 (set_slices_from pos start l).
Proof.
  induction l as [|b l IH]; intros pos start p0 Hk Hl H; cbn [length] in Hl.
  - destruct start as [s|]; cbn [set_slices_from cover].
    + destruct H as (H1 & H2 & H3 & H4). split; [lia|]. split; [lia|]. split; [lia|]. split; [assumption|]. split; [assumption|]. intros x Hx. apply nth_overflow. lia.
    + intros x Hx. destruct H as [H1 H2]. destruct (Nat.lt_ge_cases x pos); [auto|]. apply nth_overflow. lia.
  - assert (nth pos bits false = b) as Hb. { replace pos with (pos + 0) by lia. rewrite <- nth_skipn, Hk. reflexivity. }
    assert (skipn (S pos) bits = l) as Hk' by (replace (S pos) with (pos + 1) by lia; rewrite <- skipn_plus, Hk; reflexivity).
    destruct b; destruct start as [s|]; cbn [set_slices_from].
    + destruct H as (H1 & H2 & H3 & H4). apply IH; [exact Hk'|lia|]. split; [lia|]. split; [lia|]. split; [assumption|]. intros x Hx1 Hx2. destruct (Nat.eq_dec x pos) as [->|]; [exact Hb|]. apply H4; lia.
    + destruct H as (H1 & H2). apply IH; [exact Hk'|lia|]. split; [lia|]. split; [lia|]. split; [assumption|]. intros x Hx1 Hx2. replace x with pos by lia. exact Hb.
    + destruct H as (H1 & H2 & H3 & H4). cbn [cover]. split; [lia|]. split; [lia|]. split; [lia|]. split; [assumption|]. split; [assumption|]. apply IH; [exact Hk'|lia|]. split; [lia|]. intros x Hx1 Hx2. replace x with pos by lia. exact Hb.
    + destruct H as (H1 & H2). apply IH; [exact Hk'|lia|]. split; [lia|]. intros x Hx1 Hx2. destruct (Nat.eq_dec x pos) as [->|]; [exact Hb|]. apply H2; lia.
Qed.
Lemma cover_set_slices bits : cover bits 0 (set_slices bits).
Proof. apply cover_slices; [reflexivity|reflexivity|]. split; [lia|]. intros; lia. Qed.

Definition sidx (ss : list (nat * nat)) : list nat := concat (map (fun se => seq (fst se) (snd se - fst se)) ss).
Lemma sidx_app a b : sidx (a ++ b) = sidx a ++ sidx b.
Proof. unfold sidx. rewrite map_app, concat_app. reflexivity. Qed.
Lemma filter_none {A} (h : A -> bool) l : (forall x, In x l -> h x = false) -> filter h l = [].
Proof. induction l as [|x l IH]; intros H; [reflexivity|]. cbn [filter]. rewrite H by (left; reflexivity). apply IH. intros; apply H; right; auto. Qed.
Lemma filter_all {A} (h : A -> bool) l : (forall x, In x l -> h x = true) -> filter h l = l.
Proof. induction l as [|x l IH]; intros H; [reflexivity|]. cbn [filter]. rewrite H by (left; reflexivity). f_equal. apply IH. intros; apply H; right; auto. Qed.
Lemma cover_sidx bits ss : forall pos, cover bits pos ss -> pos <= length bits ->
  filter (fun i => nth i bits false) (seq pos (length bits - pos)) = sidx ss.
Proof.
  induction ss as [|[s e] r IH]; intros pos H Hp; cbn [cover] in H.
  - apply filter_none. intros x Hx. apply in_seq in Hx. apply H. lia.
  - destruct H as (H1 & H2 & H3 & H4 & H5 & H6). specialize (IH e H6 H3).
    replace (length bits - pos) with ((s - pos) + ((e - s) + (length bits - e))) by lia. rewrite !seq_app, !filter_app.
    replace (pos + (s - pos)) with s by lia. replace (s + (e - s)) with e by lia. rewrite IH.
    rewrite filter_none by (intros x Hx; apply in_seq in Hx; apply H4; lia).
    rewrite filter_all by (intros x Hx; apply in_seq in Hx; apply H5; lia). reflexivity.
Qed.
Lemma set_slices_indices bits : sidx (set_slices bits) = set_indices bits.
Proof. rewrite <- (cover_sidx bits _ 0 (cover_set_slices bits)) by lia. rewrite Nat.sub_0_r. reflexivity. Qed.
Lemma cover_bounds bits ss : forall pos, cover bits pos ss -> Forall (fun se => pos <= fst se /\ fst se < snd se /\ snd se <= length bits) ss.
Proof.
  induction ss as [|[s e] r IH]; intros pos H; cbn [cover] in H; [constructor|]. destruct H as (H1 & H2 & H3 & H4 & H5 & H6).
  constructor; [cbn; auto|]. eapply Forall_impl; [|exact (IH e H6)]. intros x Hx. cbv beta in Hx. lia.
Qed.

Lemma wf_in_range_ints_ f o p : wf f o -> adtype o = DPrim p false -> Forall (in_range p) (ints (logical o)).
Proof.
  intros W D. pose proof (vtyped_logical o f W) as H. rewrite D in H. unfold ints. apply Forall_map. eapply Forall_impl; [|exact H].
  intros x Hx. cbv beta in Hx. destruct (vtyped_prim _ _ _ Hx) as [->|(z & -> & Hz)]; [cbn in Hx; discriminate|exact Hz].
Qed.

(** The selected strings are no longer than all strings. *)
Section Bound.
  Variables (ol bytes : list Z) (v : validity).
  Hypothesis SO : sortedZ ol.
  Hypothesis FO : Forall (fun z => (0 <= z <= Z.of_nat (length bytes))%Z) ol.

  Lemma vb_str_length i : i < length ol - 1 -> length (vb_str ol bytes i) = Z.to_nat (nth (i + 1) ol 0%Z) - Z.to_nat (nth i ol 0%Z).
  Proof.
    intros Hi. unfold vb_str. apply lslice_length. pose proof (Forall_nth_lt _ _ 0%Z (i + 1) FO ltac:(lia)) as Q. cbv beta in Q. lia.
  Qed.
  Lemma vb_total idx : forall n, ssortedZ (map Z.of_nat idx) -> Forall (fun i => i < n) idx -> n <= length ol - 1 -> 1 <= length ol ->
    length (odata (map (vb_opt ol bytes v) idx)) <= Z.to_nat (nth n ol 0%Z).
  Proof.
    induction idx as [|i r IH] using rev_ind; intros n SS HF Hn HL; [cbn; lia|].
    rewrite map_app, odata_app, app_length. apply Forall_app in HF. destruct HF as [HF Hi]. inversion Hi as [|? ? Hi' _]; subst. cbv beta in Hi'.
    rewrite map_app in SS.
    assert (ssortedZ (map Z.of_nat r) /\ Forall (fun j => j < i) r) as [SR FR].
    { clear - SS. induction r as [|x r IH]; [split; constructor|]. cbn [map app ssortedZ] in SS. destruct SS as [S1 S2]. destruct (IH S2) as [I1 I2]. split.
      - cbn [map ssortedZ]. split; [|exact I1]. intros y Hy. apply S1. apply in_or_app. auto.
      - constructor; [|exact I2]. specialize (S1 (Z.of_nat i) ltac:(apply in_or_app; right; left; reflexivity)). lia. }
    specialize (IH i SR FR ltac:(lia) HL).
    pose proof (sortedZ_nth ol i (i + 1) SO ltac:(lia) ltac:(lia)) as A1. pose proof (sortedZ_nth ol (i + 1) n SO ltac:(lia) ltac:(lia)) as A2.
    pose proof (Forall_nth_lt _ _ 0%Z i FO ltac:(lia)) as A3. cbv beta in A3.
    assert (length (odata (map (vb_opt ol bytes v) [i])) <= Z.to_nat (nth (i + 1) ol 0%Z) - Z.to_nat (nth i ol 0%Z)) as B.
    { unfold odata. cbn [map concat]. rewrite app_nil_r. unfold vb_opt. destruct (vvalid v i); cbn [ob length]; [|lia]. rewrite vb_str_length by lia. lia. }
    lia.
  Qed.
End Bound.

Lemma push_values_st p L strs : in_range p (Z.of_nat (length (odata (L ++ map Some strs)))) ->
  push_values p (vb_st L) (concat strs) (map Z.of_nat (tl (offsets_from 0 (map (@length Z) strs)))) = Ok (vb_st (L ++ map Some strs)).
Proof.
  intros HR. assert (odata (map Some strs) = concat strs) as ES by (unfold odata; rewrite map_map; f_equal; rewrite <- (map_id strs) at 2; reflexivity).
  assert (olens (map Some strs) = map (@length Z) strs) as EO by (unfold olens; rewrite map_map; reflexivity).
  rewrite odata_app, ES, app_length in HR.
  unfold push_values. cbn [b_data b_offs b_valid vb_st].
  rewrite wrap_id by (eapply in_range_le; [exact HR|lia]).
  rewrite mapM_map. rewrite (mapM_ok_map _ (fun o => (Z.of_nat o + Z.of_nat (length (odata L)))%Z)).
  - cbn [bind]. f_equal. unfold vb_st. rewrite odata_app, olens_app, ES, EO, OpsVarBin.offsets_from_app, !map_app. f_equal.
    + f_equal. rewrite odata_length. generalize (list_sum (olens L)). intros c. cbn [Nat.add]. clear.
      assert (forall l a b, map (fun o => Z.of_nat o + Z.of_nat b)%Z (offsets_from a l) = map Z.of_nat (offsets_from (b + a) l)) as G.
      { induction l as [|x l IH]; intros a b; cbn [offsets_from map].
        - f_equal. lia.
        - f_equal; [lia|]. rewrite IH. f_equal. f_equal. lia. }
      destruct strs as [|s strs]; cbn [map offsets_from tl]; [reflexivity|]. rewrite G. reflexivity.
    + f_equal. rewrite !map_length, map_map. cbn [is_some].
      assert (length (tl (offsets_from 0 (map (@length Z) strs))) = length strs) as ->.
      { pose proof (offsets_from_length 0 (map (@length Z) strs)) as Q. rewrite map_length in Q. destruct (offsets_from 0 (map (@length Z) strs)); cbn in *; lia. }
      clear. induction strs as [|s r IH]; [reflexivity|]. cbn [length repeat map]. f_equal. exact IH.
  - intros o Ho. cbv zeta. assert (in_rangeb p (Z.of_nat o + Z.of_nat (length (odata L))) = true) as ->; [|reflexivity].
    apply in_rangeb_spec. eapply in_range_le; [exact HR|].
    assert (In o (offsets_from 0 (map (@length Z) strs))) as Ho' by (destruct (offsets_from 0 (map (@length Z) strs)); [destruct Ho|right; exact Ho]).
    apply (In_nth _ _ 0) in Ho'. destruct Ho' as (k & Hk & <-). rewrite offsets_from_length in Hk. rewrite nth_offsets_from by lia.
    pose proof (list_sum_firstn_mono (map (@length Z) strs) k (length (map (@length Z) strs)) ltac:(lia)) as Q. rewrite list_sum_firstn_all in Q.
    rewrite <- concat_length_sum in Q. lia.
Qed.

Section Slice.
  Variables (ol bytes : list Z).
  Hypothesis SO : sortedZ ol.
  Hypothesis FO : Forall (fun z => (0 <= z <= Z.of_nat (length bytes))%Z) ol.
  Lemma slice_strs s e : s <= e -> e < length ol ->
    concat (map (vb_str ol bytes) (seq s (e - s))) = lslice bytes (Z.to_nat (nth s ol 0%Z)) (Z.to_nat (nth e ol 0%Z)) /\
    map Z.of_nat (tl (offsets_from 0 (map (@length Z) (map (vb_str ol bytes) (seq s (e - s)))))) = map (fun o => (o - nth s ol 0)%Z) (lslice ol (s + 1) (e + 1)).
  Proof.
    intros H1 H2.
    assert (forall k, k <= e - s -> list_sum (firstn k (map (@length Z) (map (vb_str ol bytes) (seq s (e - s))))) = Z.to_nat (nth (s + k) ol 0%Z) - Z.to_nat (nth s ol 0%Z)) as SUM.
    { induction k as [|k IH]; intros Hk; [rewrite Nat.add_0_r; cbn; lia|].
      rewrite list_sum_firstn_S by (rewrite !map_length, seq_length; lia). rewrite IH by lia.
      rewrite (map_nth_lt (@length Z) _ []) by (rewrite map_length, seq_length; lia). rewrite (map_nth_lt (vb_str ol bytes) _ 0) by (rewrite seq_length; lia).
      rewrite seq_nth by lia. rewrite (vb_str_length ol bytes FO) by lia. replace (s + S k) with (s + k + 1) by lia.
      pose proof (sortedZ_nth ol s (s + k) SO ltac:(lia) ltac:(lia)). pose proof (sortedZ_nth ol (s + k) (s + k + 1) SO ltac:(lia) ltac:(lia)).
      pose proof (Forall_nth_lt _ _ 0%Z s FO ltac:(lia)) as Q. cbv beta in Q. lia. }
    split.
    - assert (forall k, k <= e - s -> concat (map (vb_str ol bytes) (seq s k)) = lslice bytes (Z.to_nat (nth s ol 0%Z)) (Z.to_nat (nth (s + k) ol 0%Z))) as G.
      { induction k as [|k IH]; intros Hk.
        - rewrite Nat.add_0_r. unfold lslice. rewrite Nat.sub_diag. reflexivity.
        - rewrite seq_S, map_app, concat_app, IH by lia. cbn [map concat]. rewrite app_nil_r. unfold vb_str.
          pose proof (sortedZ_nth ol s (s + k) SO ltac:(lia) ltac:(lia)). pose proof (sortedZ_nth ol (s + k) (s + k + 1) SO ltac:(lia) ltac:(lia)).
          pose proof (Forall_nth_lt _ _ 0%Z s FO ltac:(lia)) as Q. cbv beta in Q. replace (s + S k) with (s + k + 1) by lia.
          set (a := Z.to_nat (nth s ol 0%Z)) in *. set (b := Z.to_nat (nth (s + k) ol 0%Z)) in *. set (c := Z.to_nat (nth (s + k + 1) ol 0%Z)) in *.
          assert (a <= b /\ b <= c) as [AB BC] by lia. unfold lslice. replace (c - a) with ((b - a) + (c - b)) by lia. rewrite firstn_plus. f_equal.
          rewrite skipn_plus. do 2 f_equal. lia. }
      rewrite G by lia. replace (s + (e - s)) with e by lia. reflexivity.
    - apply (nth_ext_len _ _ 0%Z).
      + rewrite !map_length, lslice_length by lia. pose proof (offsets_from_length 0 (map (@length Z) (map (vb_str ol bytes) (seq s (e - s))))) as Q.
        rewrite !map_length, seq_length in Q. destruct (offsets_from 0 _); cbn in *; lia.
      + intros k Hk. assert (k < e - s) as Hk'.
        { rewrite map_length in Hk. pose proof (offsets_from_length 0 (map (@length Z) (map (vb_str ol bytes) (seq s (e - s))))) as Q.
          rewrite !map_length, seq_length in Q. destruct (offsets_from 0 _); cbn in *; lia. }
        rewrite (map_nth_lt _ (lslice ol (s + 1) (e + 1)) 0%Z) by (rewrite lslice_length by lia; lia). rewrite nth_lslice by lia.
        assert (forall l d, nth k (map Z.of_nat (tl l)) d = nth (S k) (map Z.of_nat l) d) as TL by (intros [|x l] d; [destruct k; reflexivity|reflexivity]).
        rewrite TL. rewrite (map_nth_lt Z.of_nat _ 0) by (rewrite offsets_from_length, !map_length, seq_length; lia).
        rewrite nth_offsets_from by (rewrite !map_length, seq_length; lia). cbn [Nat.add]. rewrite SUM by lia. replace (s + S k) with (s + 1 + k) by lia.
        pose proof (sortedZ_nth ol s (s + 1 + k) SO ltac:(lia) ltac:(lia)). pose proof (Forall_nth_lt _ _ 0%Z s FO ltac:(lia)) as Q. cbv beta in Q. lia.
  Qed.
End Slice.

Lemma varbin_filter_st f u o b v p oc m : wf f (AVarBin u o b v) -> adtype o = DPrim p false ->
  into_prim oc = Ok (p, ints (logical o), VNonNull) ->
  moff m = 0 -> mlen m = alen o - 1 -> length (mbuf m) = mlen m ->
  let L := map (vb_opt (ints (logical o)) b v) (set_indices (mbits m)) in
  varbin_filter u oc b v m = vbb_finish u (vnullable v) p (vb_st L) /\ in_range p (Z.of_nat (length (odata L))) /\ length (odata L) <= length b.
Proof.
    intros W W2 EO M1 M2 M3. cbv zeta.
    destruct (mbits_eq m M1 M3) as [EB EI]. pose proof W as W0. pose proof (idx_lt m _ M1 M2 M3) as HI.
    cbn [wf] in W. destruct W as (W1 & (p' & W2'' & W2') & W3 & W4 & W5 & W6 & W7 & W8 & W9 & W10 & W11 & W12).
    assert (p' = p) as -> by congruence. clear W2''.
    unfold varbin_filter. rewrite EO. cbn [bind].
    cbv beta iota zeta. rewrite EI. rewrite <- EB. set (idx := set_indices (mbits m)) in *. set (bits := mbits m) in *.
    pose proof (wf_in_range_ints_ f o p W1 W2) as RO.
    set (ol := ints (logical o)) in *. assert (length ol = alen o) as LO by (unfold ol; rewrite ints_length; apply logical_length).
    set (h := vb_opt ol b v).
    assert (length bits = alen o - 1) as LBt by (rewrite EB; lia).
    assert (forall i, i < length ol - 1 -> vb_bytes ol b i = Ok (vb_str ol b i)) as VB by (intros i Hi; apply vb_bytes_ok; auto).
    assert (forall pre post, idx = pre ++ post -> in_range p (Z.of_nat (length (odata (map h pre)))) /\ (length (odata (map h pre)) <= length b)) as BND.
    { intros pre post E. pose proof (set_indices_sorted bits) as SS. fold idx in SS. rewrite E, map_app in SS.
      pose proof HI as HI'. rewrite E in HI'. apply Forall_app in HI'. destruct HI' as [HI' _].
      assert (ssortedZ (map Z.of_nat pre)) as SP.
      { clear - SS. induction pre as [|x r IH]; [constructor|]. cbn [map app ssortedZ] in *. destruct SS as [S1 S2]. split; [|auto]. intros y Hy. apply S1. apply in_or_app. auto. }
      pose proof (vb_total ol b v W4 W5 pre (alen o - 1) SP HI' ltac:(lia) ltac:(lia)) as B. fold h in B.
      pose proof (Forall_nth_lt _ _ 0%Z (alen o - 1) RO ltac:(lia)) as Q. cbv beta in Q.
      pose proof (Forall_nth_lt _ _ 0%Z (alen o - 1) W5 ltac:(lia)) as Q2. cbv beta in Q2. split; [|lia].
      eapply in_range_le; [exact Q|]. fold h in B. lia. }
    set (Inv := fun pre st => st = vb_st (map h pre)).
    assert (forall pre i post, idx = pre ++ i :: post -> vvalid v i = true -> push_value p (vb_st (map h pre)) (vb_str ol b i) = Ok (vb_st (map h (pre ++ [i])))) as PV.
    { intros pre i post E Hv. rewrite push_value_st. assert (h i = Some (vb_str ol b i)) as HS by (unfold h, vb_opt; rewrite Hv; reflexivity).
      rewrite map_app. cbn [map]. rewrite <- HS. destruct (BND (pre ++ [i]) post) as [B _]; [rewrite <- app_assoc; exact E|].
      rewrite map_app in B. cbn [map] in B. rewrite (proj2 (in_rangeb_spec _ _) B). reflexivity. }
    assert (forall pre i, vvalid v i = false -> push_null (vb_st (map h pre)) = vb_st (map h (pre ++ [i]))) as PN.
    { intros pre i Hv. rewrite push_null_st, map_app. cbn [map]. assert (h i = None) as -> by (unfold h, vb_opt; rewrite Hv; reflexivity). reflexivity. }
    destruct (BND idx [] ltac:(rewrite app_nil_r; reflexivity)) as [B1 B2]. split; [|split; [exact B1|exact B2]].
    match goal with |- (do st <- ?e; _) = _ => assert (outc True e (Inv idx)) as HE; [|destruct e as [st| |]; [unfold Inv in HE; cbn in HE; subst st; reflexivity|contradiction (HE I)|contradiction (HE I)]] end.
    - destruct (mlen m <? mcount m * 2).
      + (* slices *)
        pose proof (set_slices_indices bits) as SI. fold idx in SI.
        pose proof (cover_bounds bits _ 0 (cover_set_slices bits)) as CB.
        rewrite <- SI. apply (foldM_outc _ _ (fun pre st => Inv (sidx pre) st)); [reflexivity|].
        intros pre [s e] post st Es HInv.
        assert (s < e /\ e <= alen o - 1) as [Hse He].
        { rewrite Es in CB. apply Forall_app in CB. destruct CB as [_ CB]. inversion CB as [|? ? Q _]; subst. cbn [fst snd] in Q. lia. }
        assert (idx = sidx pre ++ seq s (e - s) ++ sidx post) as EIdx.
        { rewrite <- SI, Es, sidx_app. f_equal. }
        assert (forall i, s <= i -> i < e -> i < length ol - 1) as RI by (intros; lia).
        unfold Inv in HInv. subst st. unfold Inv. rewrite sidx_app. replace (sidx [(s, e)]) with (seq s (e - s)) by (unfold sidx; cbn; rewrite app_nil_r; reflexivity).
        assert ((forall i, s <= i -> i < e -> vvalid v i = true) ->
          update_slice p ol b (vb_st (map h (sidx pre))) s e = Ok (vb_st (map h (sidx pre ++ seq s (e - s))))) as US.
        { intros AV. unfold update_slice. rewrite !(nth_error_nth' ol 0%Z) by lia.
          pose proof (sortedZ_nth ol s e W4 ltac:(lia) ltac:(lia)). pose proof (Forall_nth_lt _ _ 0%Z s W5 ltac:(lia)) as Q1. pose proof (Forall_nth_lt _ _ 0%Z e W5 ltac:(lia)) as Q2. cbv beta in Q1, Q2.
          destruct (Z.ltb_spec (nth s ol 0) 0)%Z; [lia|]. destruct (Z.ltb_spec (nth e ol 0) (nth s ol 0))%Z; [lia|]. destruct (Z.ltb_spec (Z.of_nat (length b)) (nth e ol 0))%Z; [lia|]. cbn [orb].
          destruct (slice_strs ol b W4 W5 s e ltac:(lia) ltac:(lia)) as [E1 E2]. rewrite <- E1, <- E2.
          assert (map h (seq s (e - s)) = map Some (map (vb_str ol b) (seq s (e - s)))) as EH.
          { rewrite map_map. apply map_ext_in. intros i Hi. apply in_seq in Hi. unfold h, vb_opt. rewrite AV by lia. reflexivity. }
          rewrite map_app, EH. apply push_values_st. rewrite <- EH, <- map_app. apply (BND _ (sidx post)). rewrite <- app_assoc. exact EIdx. }
        unfold vb_slice_step. cbn [fst snd].
        pose proof (null_buffer_spec v (length ol - 1) ltac:(rewrite LO; exact W6)) as NB.
        destruct (to_null_buffer (to_logical v (length ol - 1))) as [nb|].
        * subst nb.
          assert (length (lslice (vbits v (length ol - 1)) s e) = e - s) as LS by (rewrite lslice_length; [reflexivity|rewrite vbits_length; lia]).
          assert (forall k, k < e - s -> nth k (lslice (vbits v (length ol - 1)) s e) false = vvalid v (s + k)) as NS.
          { intros k Hk. rewrite nth_lslice by lia. apply nth_vbits. lia. }
          destruct (Nat.eqb_spec (count negb (lslice (vbits v (length ol - 1)) s e)) 0) as [E0|N0].
          { rewrite US; [reflexivity|]. intros i H1 H2. rewrite count_zero in E0.
            specialize (E0 (nth (i - s) (lslice (vbits v (length ol - 1)) s e) false) ltac:(apply nth_In; lia)). rewrite NS in E0 by lia.
            replace (s + (i - s)) with i in E0 by lia. destruct (vvalid v i); [reflexivity|discriminate]. }
          rewrite LS. set (sl := lslice (vbits v (length ol - 1)) s e) in *.
          assert (combine (seq 0 (e - s)) sl = map (fun k => (k, vvalid v (s + k))) (seq 0 (e - s))) as EC.
          { apply (nth_ext_len _ _ (0, false)); [rewrite combine_length, map_length, seq_length; lia|]. rewrite combine_length, seq_length, LS. intros k Hk.
            rewrite combine_nth by (rewrite seq_length; lia). rewrite seq_nth by lia. rewrite (map_nth_lt (fun k => (k, vvalid v (s + k))) _ 0) by (rewrite seq_length; lia).
            rewrite seq_nth by lia. rewrite NS by lia. reflexivity. }
          rewrite EC. clear EC.
          assert (forall n k0, k0 + n = e - s ->
            foldM (fun st iv => if snd iv : bool then do s0 <- vb_bytes ol b (fst iv + s); push_value p st s0 else Ok (push_null st))
              (vb_st (map h (sidx pre ++ seq s k0))) (map (fun k => (k, vvalid v (s + k))) (seq k0 n)) = Ok (vb_st (map h (sidx pre ++ seq s (e - s))))) as G.
          { induction n as [|n IHn]; intros k0 Hk0.
            - replace (e - s) with k0 by lia. reflexivity.
            - cbn [seq map foldM fst snd].
              assert (idx = (sidx pre ++ seq s k0) ++ (s + k0) :: (seq (S (s + k0)) n ++ sidx post)) as EX.
              { rewrite EIdx. rewrite <- app_assoc. f_equal. replace (e - s) with (k0 + S n) by lia. rewrite seq_app, <- app_assoc. reflexivity. }
              destruct (vvalid v (s + k0)) eqn:EV.
              + rewrite (Nat.add_comm k0 s). rewrite VB by lia. cbn [bind]. rewrite (PV _ _ _ EX EV). cbn [bind].
                rewrite <- app_assoc. change (seq s k0 ++ [s + k0]) with (seq s k0 ++ seq (s + k0) 1). rewrite <- seq_app, Nat.add_1_r. apply IHn. lia.
              + cbn [bind]. rewrite (PN _ _ EV). rewrite <- app_assoc. change (seq s k0 ++ [s + k0]) with (seq s k0 ++ seq (s + k0) 1). rewrite <- seq_app, Nat.add_1_r. apply IHn. lia. }
          specialize (G (e - s) 0 ltac:(lia)). cbn [seq] in G. rewrite app_nil_r in G. rewrite G. reflexivity.
        * rewrite US; [reflexivity|]. intros i H1 H2. apply NB. lia.
      + apply (foldM_outc _ _ Inv); [reflexivity|]. intros pre i post st E HInv. unfold Inv in *. subst st.
        assert (i < length ol - 1) as Hi. { rewrite Forall_forall in HI. rewrite LO. apply HI. rewrite E. apply in_or_app. right. left. reflexivity. }
        rewrite (vvalid_r_ok v (length ol - 1) i) by (rewrite ?LO; auto; lia). cbn [bind]. destruct (vvalid v i) eqn:EV.
        * rewrite VB by exact Hi. cbn [bind]. rewrite (PV _ _ _ E EV). reflexivity.
        * rewrite (PN _ _ EV). reflexivity.
Qed.
Lemma varbin_filter_core f u o b v p oc m : wf f (AVarBin u o b v) -> adtype o = DPrim p false ->
  into_prim oc = Ok (p, ints (logical o), VNonNull) ->
  moff m = 0 -> mlen m = alen o - 1 -> length (mbuf m) = mlen m ->
  exists r, varbin_filter u oc b v m = Ok r /\ filter_post f (AVarBin u o b v) m r.
Proof.
  intros W W2 EO M1 M2 M3. destruct (varbin_filter_st f u o b v p oc m W W2 EO M1 M2 M3) as (E & B1 & B2). rewrite E.
  pose proof (idx_lt m _ M1 M2 M3) as HI. pose proof W as W0.
  cbn [wf] in W. destruct W as (W1 & (p' & W2'' & W2') & W3 & W4 & W5 & W6 & W7 & W8 & W9 & W10 & W11 & W12).
  assert (p' = p) as -> by congruence.
  apply (vb_sel _ f u o b v p _ (fle_pF f) W0 W2 W2' HI B1).
  intros X. pose proof (fle_pF f) as (_ & _ & _ & _ & _ & _ & [(_ & _ & _ & X2 & _)|(_ & _ & _ & X2)]); [|congruence].
  rewrite X2 in X. specialize (W9 X). set (pm := pmax I32) in *. clearbody pm. lia.
Qed.

Section Step.
  Variable rec : array -> ops_t.
  Variable M : nat.
  Hypothesis Hrec : forall b, depth b < M -> ops_good (rec b) b.

  Lemma filter_varbin u o b v : depth (AVarBin u o b v) <= M -> filter_ok rec (AVarBin u o b v).
  Proof.
    intros D f m W C Ft Hl M1 M2 M3. cbn [alen] in *. cbn [ops_step o_filter]. unfold with_mask. cbn [alen]. rewrite M2, Nat.eqb_refl. cbn [depth] in D.
    pose proof W as W0. cbn [wf] in W. destruct W as (W1 & (p & W2 & W2') & _ & _ & _ & _ & _ & _ & _ & W10 & _).
    assert (outc (fC f = true) (into_prim (o_canon (rec o))) (fun x => x = (p, ints (logical o), VNonNull))) as H.
    { apply (into_prim_ok f o _ p); [|exact W2]. apply (g_canon _ _ (Hrec o ltac:(lia))); auto. }
    destruct (into_prim (o_canon (rec o))) as [x| |] eqn:E.
    2,3: unfold varbin_filter; rewrite E; cbn; cbn in H; auto.
    cbn in H. subst x. apply outc_ex. apply (varbin_filter_core f u o b v p); auto.
  Qed.
End Step.
