(** take of bit-packed and run-end arrays. *)
From Verif Require Import Base Spec SearchModel SearchProofs Arr ArrRead ArrWf ArrReadProofs ArrSearchProofs ArrSlice ArrSliceProofs ArrSliceMain
  ValidityModel PropValidity IntEnc PropIntEnc RunEnc PropRunEnc PropUnary PropDict ArrOps OpsBase OpsFlat OpsCanon OpsCanon2 OpsCanon3 OpsTake OpsVarBin OpsSparse.

Lemma group_by_nonempty {A} (key : A -> nat) l : l <> [] -> 1 <= length (group_by key l).
Proof.
  destruct l as [|x r]; [congruence|]. intros _. cbn [group_by]. destruct (group_by key r) as [|[k g] rest]; [cbn; lia|]. destruct (k =? key x); cbn; lia.
Qed.

Section Step.
  Variable rec : array -> ops_t.
  Variable M : nat.
  Hypothesis Hrec : forall b, depth b < M -> ops_good (rec b) b.

  Lemma take_bitpacked p l bw o n v q : depth (ABitPacked p l bw o n v q) <= M -> take_ok rec (ABitPacked p l bw o n v q).
  Proof.
    intros D f ip idx W C T Hl HI. pose proof (canon_bitpacked rec M Hrec p l bw o n v q D f W C) as CB.
    cbn [ops_step o_take o_canon alen] in *. unfold bp_take. match goal with |- context [into_prim ?c] => set (cs := c) in * end.
    pose proof W as W0. cbn [wf] in W. destruct W as (W1 & W2 & W3 & W4 & W5 & W6 & W7 & W8).
    assert (Ttake f ip idx -> fC f = true) as TC by (intros [H|(H & _)]; apply W8; auto).
    destruct (Nat.ltb_spec n (length idx * 8)) as [H8|H8].
    - eapply outc_bind.
      { eapply outc_weaken; [eapply (into_prim_ok_n f (ABitPacked p l bw o n v q) cs p (vnullable v)); [exact CB|reflexivity]|exact TC|intros b _ Hb; exact Hb]. }
      intros x _ (xl & xv & -> & X1 & X2 & X3 & X4 & X5). cbn [alen] in X4.
      destruct (prim_take_good f p xl xv idx) as (xs & w & E & Exs & R & V1 & V2 & V3); [cbn [wf]; auto|rewrite X4; exact HI|].
      rewrite E. apply outc_ok. rewrite X5 in V3.
      split; [cbn [wf]; auto|]. split; [exact V3|]. cbn [adtype depth derase erase]. rewrite V2, X1. split; [reflexivity|]. split; [reflexivity|]. lia.
    - destruct (vtake_ok v n idx W6 HI) as (w & E & V1 & V2 & V3 & V4). rewrite E. cbn [bind].
      assert (o + n <= length l) as HL by (rewrite W4; pose proof (Nat.div_mod (n + o + 1023) 1024 ltac:(lia)); pose proof (Nat.mod_upper_bound (n + o + 1023) 1024 ltac:(lia)); lia).
      assert (forall z, In z l -> in_range p z) as RP.
      { intros z Hz. rewrite Forall_forall in W5. specialize (W5 z Hz). cbv beta in W5. apply (in_range_unsigned_pow p bw); auto; lia. }
      set (pl := match q with Some a => logical a | None => [] end).
      assert (forall out, length out = length idx -> Forall (in_range p) out ->
        (forall k, k < length idx -> vvalid v (nth k idx 0) = true ->
          VInt (nth k out 0%Z) = match nth (nth k idx 0) pl VNull with VInt z => VInt z | _ => VInt (nth (o + nth k idx 0) l 0%Z) end) ->
        outc (Ttake f ip idx) (expect (try_prim p out w)) (take_post f (ABitPacked p l bw o n v q) idx)) as FIN.
      { intros out L R H. unfold try_prim. rewrite L, V4. cbn [expect]. apply outc_ok.
        split; [cbn [wf]; rewrite L; auto|]. split; [|cbn [adtype depth]; rewrite V2; split; [reflexivity|]; split; [reflexivity|lia]].
        change (logical (ABitPacked p l bw o n v q)) with (tab n (fun i => if vvalid v i then match nth i pl VNull with VInt z => VInt z | _ => VInt (nth (o + i) l 0%Z) end else VNull)).
        rewrite tab_pick by exact HI. change (logical (APrim p out w)) with (tab (length out) (fun i => if vvalid w i then VInt (nth i out 0%Z) else VNull)). rewrite L.
        apply tab_ext. intros k Hk. rewrite V3 by exact Hk. destruct (vvalid v (nth k idx 0)) eqn:EV; [|reflexivity]. apply H; auto. }
      destruct idx as [|i0 idx0]; [apply FIN; cbn; auto; intros; lia|]. set (idx := i0 :: idx0) in *.
      set (out := map (fun i => nth (o + i) l 0%Z) idx).
      assert (gather l (map (fun i => i + o) idx) = Ok out) as EG.
      { rewrite (gather_ok l _ 0%Z) by (apply Forall_map; eapply Forall_impl; [|exact HI]; intros i Hi; cbv beta in Hi; lia).
        f_equal. rewrite map_map. apply map_ext. intros i. f_equal. lia. }
      rewrite EG. cbn [bind]. assert (length out = length idx) as LO by apply map_length.
      assert (Forall (in_range p) out) as RO.
      { apply Forall_map. eapply Forall_impl; [|exact HI]. intros i Hi. cbv beta in Hi. apply RP. apply nth_In. lia. }
      assert (forall k, k < length idx -> nth k out 0%Z = nth (o + nth k idx 0) l 0%Z) as NO.
      { intros k Hk. apply (map_nth_lt (fun i => nth (o + i) l 0%Z) idx 0). exact Hk. }
      destruct q as [q|].
      2: { cbn [bind]. apply FIN; auto. intros k Hk _. rewrite NO by exact Hk. unfold pl. destruct (nth k idx 0); reflexivity. }
      destruct W7 as (Q1 & Q2 & Q3 & Q4 & Q5). destruct q as [| | | | | | | |qi qv qo qn qf| | | | | | |]; try contradiction.
      destruct Q5 as (-> & Q6 & Q7 & Q8). specialize (Q4 T). cbn [alen] in Q2. cbn [adtype] in Q3.
      cbn [depth] in D. change (S (Nat.max (depth qi) (depth qv))) with (depth (ASparse qi qv qo qn VNull)) in D.
      unfold bp_patch_take.
      pose proof (group_by_nonempty (fun i => i / 1024) (map (fun i => i + o) idx) ltac:(discriminate)) as GN.
      destruct (Nat.ltb_spec (length idx) (length (group_by (fun i => i / 1024) (map (fun i => i + o) idx)) * 64)) as [_|HX]; [|lia].
      set (sp := ASparse qi qv qo qn VNull) in *.
      assert (depth sp < M) as DS by lia.
      apply (outc_bind _ _ (fun out' => length out' = length idx /\ Forall (in_range p) out' /\ forall k, k < length idx ->
          VInt (nth k out' 0%Z) = match nth (nth k idx 0) pl VNull with VInt z => VInt z | _ => VInt (nth (o + nth k idx 0) l 0%Z) end)).
      2: { intros out' _ (L' & R' & H'). apply FIN; auto. }
      unfold inner_patch. eapply outc_bind.
      { apply (g_take _ _ (Hrec sp DS) f ip idx); auto. unfold sp. cbn [alen]. rewrite Q2. exact HI. }
      intros t Et Pt. pose proof (g_sparse _ _ (Hrec sp DS) ip idx t Et) as SH. unfold sp in SH. destruct SH as (ti & tv & ->).
      destruct Pt as (P1 & P2 & P3 & P4 & P5). clear P3. assert (adtype sp = DPrim p true) as Asp by exact Q3.
      assert (adtype (ASparse ti tv 0 (length idx) VNull) = adtype sp) as P4' by (apply P4; right; rewrite Asp; reflexivity). clear P4. rename P4' into P4. rewrite Asp in P4.
      change (adtype (ASparse ti tv 0 (length idx) VNull)) with (adtype tv) in P4.
      change (depth (ASparse ti tv 0 (length idx) VNull)) with (S (max (depth ti) (depth tv))) in P5.
      cbn [wf] in P1. rewrite sliceable_pf in P1. destruct P1 as (T1 & T2 & T3 & T4 & T5 & T6 & T7 & T8 & T9 & T10 & T11 & T12 & T13).
      assert (fc (pf f) = true) as C' by (destruct (fle_pf f) as (_ & _ & -> & _); exact C).
      assert (Ttake f ip idx -> fC (pf f) = true) as TC'.
      { intros H. specialize (TC H). unfold pf. destruct H as [H|(H & _)]; rewrite H, ?orb_true_r; exact TC. }
      assert (non_null (logical tv)) as NN.
      { destruct (T11 C') as [_ [[_ X]|[_ X]]]; [exact X|]. rewrite P4 in X. discriminate. }
      eapply outc_bind.
      { eapply outc_weaken; [eapply (into_prim_ok_n (pf f) tv _ p true); [apply (g_canon _ _ (Hrec tv ltac:(lia))); auto|exact P4]|exact TC'|intros b _ Hb; exact Hb]. }
      intros x _ (vs & vv & -> & X1 & X2 & X3 & X4 & X5). cbv beta iota.
      eapply outc_bind.
      { eapply outc_weaken; [eapply (resolved_ok (pf f) ti _ 0 (length idx)); [apply (g_canon _ _ (Hrec ti ltac:(lia))); auto|exact T3|exact T7]|exact TC'|intros b _ Hb; exact Hb]. }
      intros pos _ ->. rewrite LO, Nat.ltb_irrefl, Nat.sub_diag. change (map (fun k => 0 + k)) with (map (fun k : nat => k)). rewrite map_id.
      set (il := ints (logical ti)) in *.
      assert (length vs = length il) as LV by (unfold il; rewrite ints_length, logical_length, T4; exact X4).
      destruct (set_many_patch 0%Z out il 0 (length idx) vs LO T6 T7 LV) as (out' & ES & L' & N'). rewrite ES. apply outc_ok.
      assert (forall k, k < length vs -> nth k (logical tv) VNull = VInt (nth k vs 0%Z)) as NV.
      { intros k Hk. assert (nth k (logical tv) VNull <> VNull) as NZ by (apply (Forall_nth_lt _ _ VNull k NN); rewrite logical_length; lia).
        rewrite <- X5 in *. cbn [logical] in NZ |- *. rewrite nth_tab in NZ |- * by exact Hk. destruct (vvalid vv k); congruence. }
      split; [exact L'|]. split.
      + apply (Forall_nth _ out'). intros k d Hk. rewrite (nth_indep _ d 0%Z Hk). rewrite N' by lia.
        destruct (pos_of _ il) as [j|] eqn:EJ; [|apply (Forall_nth_lt _ _ 0%Z k RO); lia].
        apply pos_of_lt in EJ. apply (Forall_nth_lt _ _ 0%Z j X2). lia.
      + intros k Hk. rewrite N' by exact Hk.
        assert (nth (nth k idx 0) pl VNull = match pos_of (Z.of_nat (0 + k)) il with Some j => nth j (logical tv) VNull | None => VNull end) as EP.
        { unfold pl. fold sp. rewrite <- (nth_pick (logical sp) idx k Hk). rewrite <- P2.
          change (logical (ASparse ti tv 0 (length idx) VNull)) with (tab (length idx) (fun i => match pos_of (Z.of_nat (0 + i)) il with Some j => nth j (logical tv) VNull | None => VNull end)).
          rewrite nth_tab by exact Hk. reflexivity. }
        rewrite EP. destruct (pos_of _ il) as [j|] eqn:EJ.
        * apply pos_of_lt in EJ. rewrite NV by lia. reflexivity.
        * rewrite NO by exact Hk. reflexivity.
  Qed.
End Step.

(** search_sorted_u64_many agrees with search_sorted where both are exact. *)
Lemma many_eq f a p n v s : wf f a -> ss_ok a -> ss64_ok a -> adtype a = DPrim p n -> is_int p = true -> in_range p v ->
  search_sorted_u64_many_ a (reads a) v s = search_sorted_ a (reads a) v s.
Proof.
  intros W SS S6 D HI HR. unfold search_sorted_. rewrite D, HI. pose proof (proj2 (in_rangeb_spec p v) HR) as HB. rewrite HB. cbn [andb].
  unfold search_sorted_u64_many_.
  destruct a; cbn [ss_ok] in SS; try contradiction; cbn [reads r_ssf bool_reads const_reads null_reads prim_reads view_reads varbin_reads struct_reads ext_reads chunked_reads dict_reads runend_reads for_reads zz_reads bp_reads bytebool_reads];
    try (cbn [ss64_ok] in S6; unfold search_sorted_u64_; cbn [reads r_ssf bool_reads const_reads null_reads prim_reads view_reads varbin_reads struct_reads ext_reads chunked_reads dict_reads runend_reads for_reads zz_reads bp_reads bytebool_reads]; rewrite S6; reflexivity).
  - cbn [adtype] in D. injection D as -> _. unfold prim_search_u64. rewrite HB. reflexivity.
  - cbn [ss64_ok adtype] in S6. rewrite S6. reflexivity.
  - cbn [adtype] in D. injection D as -> _. unfold for_search_u64. rewrite HB. reflexivity.
  - cbn [ss64_ok] in S6. cbn [adtype] in D. injection D as -> _. subst. rewrite wrap_id by exact HR. reflexivity.
Qed.

Lemma pF_pf f : pF (pf f) = pf f.
Proof. unfold pF, pf. destruct f as [s0 n0 c0 C0 v0 t0 T0 N0 F0 k0]; cbn. destruct T0, N0, F0; reflexivity. Qed.
Lemma set_indices_sorted bs : ssortedZ (map Z.of_nat (set_indices bs)).
Proof.
  unfold set_indices. generalize (fun i => nth i bs false) as h. intros h. generalize 0 (length bs). intros s n. revert s; induction n as [|n IH]; intros s; [exact I|].
  cbn [seq filter]. destruct (h s); [|apply IH]. cbn [map ssortedZ]. split; [|apply IH]. intros y Hy. apply in_map_iff in Hy. destruct Hy as (i & <- & Hi).
  apply filter_In in Hi. destruct Hi as [Hi _]. apply in_seq in Hi. lia.
Qed.
Lemma pos_of_set_indices bs i : i < length bs ->
  match pos_of (Z.of_nat i) (map Z.of_nat (set_indices bs)) with Some k => nth i bs false = true /\ k < length (set_indices bs) /\ nth k (set_indices bs) 0 = i | None => nth i bs false = false end.
Proof.
  intros Hi. destruct (pos_of _ _) as [k|] eqn:E.
  - apply pos_of_some in E. rewrite map_length in E. destruct E as [E1 E2]. rewrite (map_nth_lt Z.of_nat _ 0) in E2 by exact E1. apply Nat2Z.inj in E2.
    destruct (set_indices_nth bs k E1) as [B _]. rewrite E2 in B. auto.
  - apply pos_of_none in E. destruct (nth i bs false) eqn:B; [|reflexivity]. exfalso. apply E. apply in_map. unfold set_indices. apply filter_In. split; [apply in_seq; lia|exact B].
Qed.

(** A sparse array of the elements at the set positions, null elsewhere. *)
Lemma sparse_scatter g p bs vals (T : Prop) : (Z.of_nat (length bs) <= pmax U64)%Z -> wf g vals -> fs g = false -> fn g = false ->
  adtype vals = DPrim p true -> alen vals = count id bs -> non_null (logical vals) ->
  (fT g = true \/ fN g = true \/ fF g = true -> fT g = true /\ fC g = true) ->
  exists b, try_sparse (APrim U64 (map Z.of_nat (set_indices bs)) VNonNull) vals (length bs) 0 VNull = Ok b /\ wf g b /\ adtype b = DPrim p true /\
    depth b = S (depth vals) /\
    logical b = tab (length bs) (fun i => if nth i bs false then nth (rank bs i) (logical vals) VNull else VNull).
Proof.
  intros HL W S1 S2 D AL NN HT. set (fi := map Z.of_nat (set_indices bs)).
  assert (length fi = alen vals) as LF by (unfold fi; rewrite map_length, set_indices_length, AL; reflexivity).
  assert (forall z, In z fi -> (0 <= z < Z.of_nat (length bs))%Z) as FB.
  { intros z Hz. unfold fi in Hz. apply in_map_iff in Hz. destruct Hz as (i & <- & Hi). pose proof (set_indices_lt bs) as Q. rewrite Forall_forall in Q. specialize (Q i Hi). cbv beta in Q. lia. }
  assert (Forall (in_range U64) fi) as FR.
  { apply Forall_forall. intros z Hz. specialize (FB z Hz). unfold in_range. change (pmin U64) with 0%Z. clear - FB HL. set (pm := pmax U64) in *. clearbody pm. lia. }
  assert (logical (APrim U64 fi VNonNull) = map VInt fi) as LP.
  { cbn [logical vvalid]. symmetry. apply (map_ext_nth_tab VInt fi 0%Z). }
  assert (ints (map VInt fi) = fi) as IO by (unfold ints; rewrite map_map; apply map_id).
  exists (ASparse (APrim U64 fi VNonNull) vals 0 (length bs) VNull). split.
  { unfold try_sparse. change (dtype_eqb (adtype (APrim U64 fi VNonNull)) (DPrim U64 false)) with true. rewrite D. change (instance_of VNull (DPrim p true)) with true. cbn [negb].
    change (alen (APrim U64 fi VNonNull)) with (length fi). rewrite LF, Nat.eqb_refl. cbn [negb].
    destruct (Nat.eqb_spec (alen vals) 0) as [E0|N0]; [reflexivity|].
    unfold scalar_at. rewrite (rd_scalar_at_ (APrim U64 fi VNonNull)) by (first [apply (reads_ok (APrim U64 fi VNonNull) f0); cbn [wf vwf]; auto|cbn [alen]; lia]).
    rewrite LP. cbn [bind]. rewrite (map_nth_lt VInt fi 0%Z) by lia. cbn [to_usize].
    assert (In (nth (alen vals - 1) fi 0%Z) fi) as HIn by (apply nth_In; lia). specialize (FB _ HIn).
    rewrite (proj2 (Z.leb_le _ _)) by lia. cbn [bind].
    destruct (Nat.ltb_spec (Z.to_nat (nth (alen vals - 1) fi 0%Z)) 0); [lia|]. rewrite Nat.sub_0_r.
    destruct (Nat.leb_spec (length bs) (Z.to_nat (nth (alen vals - 1) fi 0%Z))); [lia|]. reflexivity. }
  assert (sliceable g = g) as SG by (destruct g; cbn in *; subst; reflexivity).
  split.
  { cbn [wf]. rewrite SG, LP, IO, D. change (alen (APrim U64 fi VNonNull)) with (length fi). rewrite LF. cbn [adtype vnullable Nat.add is_bool is_prim orb nullable flat vtyped].
    split; [split; [exact FR|exact I]|]. split; [exact W|]. split; [reflexivity|]. split; [reflexivity|]. split; [split; [exact I|intros _ z; discriminate]|]. split; [apply set_indices_sorted|].
    split. { apply Forall_forall. intros z Hz. specialize (FB z Hz). lia. }
    split; [exact HL|]. split; [reflexivity|]. split; [reflexivity|]. split; [auto|]. split; [auto|].
    intros H. destruct (HT H). auto. }
  split; [exact D|]. split; [reflexivity|].
  change (logical (ASparse (APrim U64 fi VNonNull) vals 0 (length bs) VNull)) with
      (tab (length bs) (fun i => match pos_of (Z.of_nat (0 + i)) (ints (logical (APrim U64 fi VNonNull))) with Some k => nth k (logical vals) VNull | None => VNull end)).
  rewrite LP, IO. apply tab_ext. intros i Hi. cbn [Nat.add]. pose proof (pos_of_set_indices bs i Hi) as Q. fold fi in Q. destruct (pos_of (Z.of_nat i) fi) as [k|].
  - destruct Q as (B & K1 & K2). rewrite B. destruct (set_indices_nth bs k K1) as [_ R]. rewrite K2 in R. rewrite R. reflexivity.
  - rewrite Q. reflexivity.
Qed.

Section Step2.
  Variable rec : array -> ops_t.
  Variable M : nat.
  Hypothesis Hrec : forall b, depth b < M -> ops_good (rec b) b.

  Lemma take_runend e vs v o n : depth (ARunEnd e vs v o n) <= M -> take_ok rec (ARunEnd e vs v o n).
  Proof.
    intros D f ip idx W C T Hl HI. cbn [depth] in D. cbn [alen] in HI. cbn [ops_step o_take]. pose proof W as W0.
    assert (forall i, i < n -> run_index (ints (logical e)) (o + i) < length (logical vs)) as RI by (intros i Hi; eapply runend_idx_lt; eauto).
    cbn [wf] in W. destruct W as (W1 & W2 & (p & W3 & W3') & W4 & W5 & W6 & W7 & W8 & W9 & W10 & W11 & W12 & W13 & W14 & W15 & W16).
    specialize (W13 C). specialize (W14 T). set (el := ints (logical e)) in *.
    assert (length el = alen e) as LE by (unfold el; rewrite ints_length; apply logical_length). rewrite logical_length in RI.
    assert (Ttake f ip idx -> fT f = true /\ fF f = true /\ fC f = true) as HT by (intros [H|(H & _)]; apply W16; auto).
    unfold runend_take.
    assert (mapM (fun i => if n <=? i then Err else Ok tt) idx = Ok (map (fun _ => tt) idx)) as ->.
    { apply mapM_ok_map. intros i Hi. rewrite Forall_forall in HI. specialize (HI i Hi). cbv beta in HI. destruct (Nat.leb_spec n i); [lia|reflexivity]. }
    cbn [bind]. set (phys := map (fun i => run_index el (o + i)) idx).
    assert (runend_find_many e o idx = Ok phys) as ->.
    { unfold runend_find_many. unfold search_sorted_u64_many.
      destruct (Nat.eq_dec (alen e) 0) as [AE0|AE0].
      { assert (idx = []) as -> by (destruct idx as [|i0 idx']; [reflexivity|]; rewrite Forall_forall in HI; specialize (HI i0 (or_introl eq_refl)); cbv beta in HI; specialize (RI i0 HI); lia). reflexivity. }
      rewrite (mapM_ok_map _ (fun i => spec_search (map (fun z => Z.compare z (Z.of_nat (i + o))) el) Right)).
      - cbn [bind]. rewrite mapM_map. apply mapM_ok_map. intros i Hi. rewrite Forall_forall in HI. specialize (HI i Hi). cbv beta in HI.
        unfold to_ends_index. rewrite search_right_run. replace (i + o) with (o + i) by lia. fold (run_index el (o + i)).
        specialize (RI i HI). destruct (Nat.eqb_spec (run_index el (o + i)) (alen e)); [lia|reflexivity].
      - intros i Hi. rewrite Forall_forall in HI. specialize (HI i Hi). cbv beta in HI.
        assert (is_int p = true) as IP by (destruct p; auto; discriminate W3').
        assert (in_range p (Z.of_nat (i + o))) as IR.
        { destruct el as [|z0 el'] eqn:EE; [destruct W11; lia|]. destruct W11 as (L1 & L2 & L3).
          pose proof (nonnull_elem f e p (alen e - 1) W1 W3 ltac:(cbn in LE; lia)) as [_ R]. fold el in R. rewrite EE in R. rewrite (last_nth _ 0%Z) in L1. rewrite LE in L1.
          eapply in_range_le; [exact R|]. lia. }
        destruct (reads_ok e f W1) as [_ SE].
        rewrite (many_eq f e p false _ _ W1 W5 W14 W3 IP IR).
        apply (se_nonnull f e p W1 SE W5 W3 IP (ssorted_sorted _ W6)); [exact IR|left; exact AE0]. }
    cbn [bind]. assert (length phys = length idx) as LP by apply map_length.
    eapply outc_bind.
    { eapply outc_weaken with (P' := take_post f vs phys).
      - apply (g_take _ _ (Hrec vs ltac:(lia)) f U64 phys); auto; [rewrite LP; exact Hl|]. apply Forall_map. eapply Forall_impl; [|exact HI]. intros i Hi. apply RI. exact Hi.
      - intros H. left. apply HT. exact H.
      - auto. }
    intros dense _ Pd. pose proof (sel_alen _ _ _ _ _ Pd) as AD. rewrite LP in AD. destruct Pd as (P1 & P2 & P3 & P4 & P5).
    specialize (P4 (or_intror W13)).
    assert (logical (ARunEnd e vs v o n) = tab n (fun i => if vvalid v i then nth (run_index el (o + i)) (logical vs) VNull else VNull)) as EL by reflexivity.
    assert (forall k, k < length idx -> nth k (logical dense) VNull = nth (run_index el (o + nth k idx 0)) (logical vs) VNull) as ND.
    { intros k Hk. rewrite P2, nth_pick by lia. f_equal. unfold phys. apply (map_nth_lt (fun i => run_index el (o + i)) idx 0). exact Hk. }
    assert ((forall k, k < length idx -> vvalid v (nth k idx 0) = true) -> take_post f (ARunEnd e vs v o n) idx dense) as GD.
    { intros Hv. split; [exact P1|]. split; [|split; [rewrite P4; reflexivity|split; [intros _; exact P4|cbn [depth]; lia]]].
      rewrite EL, tab_pick by exact HI. apply (nth_ext_len _ _ VNull); [rewrite logical_length, tab_length; exact AD|]. intros k Hk. rewrite logical_length, AD in Hk.
      rewrite nth_tab by exact Hk. rewrite Hv by exact Hk. apply ND. exact Hk. }
    destruct v as [| | |vb].
    - apply outc_ok. apply GD. reflexivity.
    - apply outc_ok. apply GD. reflexivity.
    - apply outc_ok. split; [|split; [|split; [reflexivity|split; [reflexivity|cbn [depth]; lia]]]].
      + cbn [wf vtyped]. split; [exact W8|]. intros _. split; [exact W10|]. intros E. rewrite E in W13. discriminate.
      + rewrite EL. cbn [vvalid logical]. rewrite tab_const, pick_repeat by exact HI. reflexivity.
    - destruct (vtake_ok (VBits vb) n idx W9 HI) as (w & E & V1 & V2 & V3 & V4). rewrite E. cbn [bind].
      assert (exists bs, w = VBits bs) as (bs & ->).
      { cbn [vtake] in E. destruct (mapM _ idx); cbn [bind] in E; try discriminate. injection E as <-. eauto. }
      cbn [vwf] in V1. cbn [vvalid] in V3.
      assert (fc (pf f) = true /\ ft (pf f) = true) as [C' T'] by (destruct (fle_pf f) as (_ & _ & -> & _ & -> & _); auto).
      eapply outc_bind.
      { eapply outc_weaken with (P' := filter_post (pf f) dense (mask_of bs)).
        - apply (g_filter _ _ (Hrec dense ltac:(lia)) (pf f) (mask_of bs)); auto; [rewrite AD; exact Hl|]. cbn [mask_of mlen]. lia.
        - intros H. destruct (HT H) as (H1 & H2 & H3). unfold pf. rewrite H1. exact H2.
        - auto. }
      intros flt _ Pf. unfold filter_post in Pf. rewrite pF_pf in Pf. destruct (mbits_eq (mask_of bs) eq_refl eq_refl) as [MB _]. rewrite MB in Pf. cbn [mask_of mbuf] in Pf.
      pose proof (sel_alen _ _ _ _ _ Pf) as AF. destruct Pf as (F1 & F2 & F3 & F4 & F5). rewrite set_indices_length in AF.
      assert (adtype flt = adtype vs) as DF by (rewrite F4 by (right; rewrite P4; exact W13); exact P4).
      assert (exists pv, adtype vs = DPrim pv true) as (pv & EV).
      { cbn [vnullable] in W8. destruct (adtype vs) as [| |pv nv| | | |]; try discriminate W13. cbn [nullable] in W8. subst nv. eauto. }
      assert (Forall (fun i => i < length (logical dense)) (set_indices bs)) as SD.
      { rewrite logical_length, AD, <- V1. apply set_indices_lt. }
      destruct (sparse_scatter (pf f) pv bs flt True) as (b & EB & B1 & B2 & B3 & B4).
      + rewrite V1. exact Hl.
      + exact F1.
      + apply (fle_pf f).
      + apply (fle_pf f).
      + congruence.
      + exact AF.
      + rewrite F2. apply non_null_pick; [exact SD|]. rewrite P2. apply non_null_pick; [|exact W7]. rewrite logical_length. apply Forall_map. eapply Forall_impl; [|exact HI]. intros i Hi. apply RI. exact Hi.
      + intros H. destruct (fle_pf f) as (_ & _ & _ & _ & _ & _ & [(H1 & H2 & H3 & H4 & H5)|(H1 & H2 & H3 & H4)]).
        * rewrite H1, H2, H3 in H. destruct (W16 H) as (_ & X1 & X2 & X3). rewrite H1, H4. auto.
        * rewrite H1, H2, H3 in H. destruct H as [|[|]]; discriminate.
      + rewrite EB. apply outc_ok. split; [exact B1|]. split; [|split; [|split]].
        * rewrite B4, V1, EL, tab_pick by exact HI. apply tab_ext. intros k Hk. rewrite V3 by exact Hk. cbn [vvalid].
          destruct (nth (nth k idx 0) vb false) eqn:B; [|reflexivity]. rewrite F2.
          assert (nth k bs false = true) as Bk by (rewrite V3 by exact Hk; exact B).
          assert (rank bs k < length (set_indices bs)) as RK by (apply rank_bound; [lia|exact Bk]).
          rewrite nth_pick by exact RK. destruct (set_indices_nth bs (rank bs k) RK) as [X1 X2].
          assert (nth (rank bs k) (set_indices bs) 0 = k) as ->.
          { apply (rank_inj bs); auto; [|lia]. apply (Forall_nth_lt _ _ 0 _ (set_indices_lt bs) RK). }
          apply ND. exact Hk.
        * cbn [adtype]. rewrite B2, EV. reflexivity.
        * intros _. cbn [adtype]. congruence.
        * rewrite B3. cbn [depth]. lia.
  Qed.
End Step2.
