(** into_canonical, continued: VarBin, sparse, bit-packed, dictionary. *)
From Verif Require Import Base Spec SearchModel SearchProofs Arr ArrRead ArrWf ArrReadProofs ArrSearchProofs ArrSlice ArrSliceProofs ArrSliceMain
  ValidityModel PropValidity IntEnc PropIntEnc RunEnc PropRunEnc PropUnary PropDict ArrOps OpsBase OpsFlat OpsCanon.

Lemma make_view_ok bytes a b : a <= b -> b <= length bytes ->
  view_ok [bytes] (make_view (lslice bytes a b) 0 a) /\ view_bytes [bytes] (make_view (lslice bytes a b) 0 a) = lslice bytes a b.
Proof.
  intros H1 H2. unfold make_view. rewrite lslice_length by lia. destruct (Nat.leb_spec (b - a) 12).
  - cbn [view_ok view_bytes]. rewrite lslice_length by lia. auto.
  - cbn [view_ok view_bytes nth length]. replace (a + (b - a)) with b by lia. repeat split; lia.
Qed.
Lemma nth_nats l i : nth i (nats l) 0 = Z.to_nat (nth i l 0%Z).
Proof. unfold nats. change 0 with (Z.to_nat 0) at 1. apply map_nth. Qed.
Lemma vvalid_vfrom l i : i < length l -> vvalid (vfrom l) i = nth i l false.
Proof. intros H. rewrite <- (vfrom_bits l) at 2. rewrite nth_vbits by exact H. reflexivity. Qed.
Lemma vnullable_vfrom l : vnullable (vfrom l) = true.
Proof. apply validity_from_bits. Qed.

Lemma into_bool_ok f a r n : outc (fC f = true) r (canon_post f a) -> adtype a = DBool n ->
  outc (fC f = true) (into_bool r) (fun x => length (fst x) = alen a /\ vnullable (snd x) = n /\ vwf (snd x) (length (fst x)) /\
    logical a = tab (length (fst x)) (fun i => if vvalid (snd x) i then VBool (nth i (fst x) false) else VNull)).
Proof.
  intros H E. unfold into_bool. eapply outc_bind; [exact H|]. intros c _ (C & L & _ & D & W).
  rewrite E in D. specialize (D (or_intror eq_refl)). destruct (canon_bool c n C D) as (o & b & k & v & -> & V).
  destruct W as (W1 & W2 & W3). apply outc_ok. cbn [fst snd]. rewrite lslice_length by lia. replace (o + k - o) with k by lia.
  split; [apply (f_equal (@length value)) in L; rewrite !logical_length in L; exact L|]. split; [exact V|]. split; [exact W3|].
  rewrite <- L. cbn [logical]. apply tab_ext. intros i Hi. rewrite nth_lslice by lia. reflexivity.
Qed.

Lemma set_many_patch {A} (d : A) l0 il off len xs : length l0 = len -> ssortedZ il -> Forall (fun z => (Z.of_nat off <= z < Z.of_nat (off + len))%Z) il ->
  length xs = length il ->
  exists r, set_many l0 (rel_pos il off) xs = Ok r /\ length r = len /\
    forall i, i < len -> nth i r d = match pos_of (Z.of_nat (off + i)) il with Some k => nth k xs d | None => nth i l0 d end.
Proof.
  intros L0 S F L. destruct (rel_pos_facts il off len S F) as [ND LT].
  destruct (set_many_spec d (rel_pos il off) l0 xs) as (r & E & Lr & H1 & H2).
  { unfold rel_pos. rewrite map_length. lia. } { rewrite L0. exact LT. } { exact ND. }
  exists r. split; [exact E|]. split; [lia|]. intros i Hi.
  destruct (pos_of (Z.of_nat (off + i)) il) as [k|] eqn:P.
  - apply pos_of_some in P. destruct P as [Hk P]. rewrite <- H1 by (unfold rel_pos; rewrite map_length; exact Hk). f_equal. unfold rel_pos.
    rewrite (map_nth_lt (fun z => Z.to_nat (z - Z.of_nat off)) il 0%Z) by exact Hk. lia.
  - apply pos_of_none in P. rewrite H2; [reflexivity|]. intros Hin. unfold rel_pos in Hin. apply in_map_iff in Hin.
    destruct Hin as (z & Ez & Hz). apply P. rewrite Forall_forall in F. specialize (F z Hz). cbv beta in F.
    replace (Z.of_nat (off + i)) with z by lia. exact Hz.
Qed.
Lemma patch_is_set_many l pos xs : patch_values l pos xs = set_many l pos xs.
Proof. revert l xs; induction pos as [|i pos IH]; intros l [|x xs]; cbn [patch_values set_many]; auto. destruct (i <? length l); auto. Qed.

Lemma pos_of_lt z l k : pos_of z l = Some k -> k < length l.
Proof. intros H. apply pos_of_some in H. tauto. Qed.

Section Step.
  Variable rec : array -> ops_t.
  Variable M : nat.
  Hypothesis Hrec : forall b, depth b < M -> ops_good (rec b) b.
  Local Notation canon_ok := (canon_ok rec).

  Lemma canon_varbin u o b v : depth (AVarBin u o b v) <= M -> canon_ok (AVarBin u o b v).
  Proof.
    intros D f W C. cbn [ops_step o_canon]. cbn [depth] in D. pose proof W as W0. cbn [wf] in W.
    destruct W as (W1 & (p & Dp & Hp) & W3 & W4 & W5 & W6 & W7 & W8 & W9 & _). specialize (W8 C). subst u.
    unfold varbin_canon. eapply outc_bind; [apply (into_prim_ok f o _ p (g_canon _ _ (Hrec o ltac:(lia)) f W1 C) Dp)|].
    intros x _ ->. cbv beta iota zeta. set (ol := ints (logical o)) in *.
    assert (length ol = alen o) as Lo by (unfold ol; rewrite ints_length; apply logical_length).
    destruct (forallb (in_rangeb (match p with I32 => I32 | I64 | U64 => I64 | _ => I32 end)) ol) eqn:R; cbn [negb].
    2:{ cbn. intros HC. specialize (W9 HC). rewrite (proj2 (forallb_forall _ _)) in R; [discriminate|]. intros z Hz.
        rewrite Forall_forall in W5. specialize (W5 z Hz). cbv beta in W5. apply in_rangeb_spec. unfold in_range.
        assert (forall q, q = I32 \/ q = I64 -> (pmin q <= 0 /\ pmax I32 <= pmax q)%Z) as Q by (intros q [->| ->]; vm_compute; split; discriminate).
        assert (pmin (match p with I32 => I32 | I64 | U64 => I64 | _ => I32 end) <= 0 /\ pmax I32 <= pmax (match p with I32 => I32 | I64 | U64 => I64 | _ => I32 end))%Z as [Q1 Q2]
          by (apply Q; destruct p; auto).
        clear Q. set (pm := pmax I32) in *. clearbody pm. set (q := match p with I32 => I32 | I64 | U64 => I64 | _ => I32 end) in *. clearbody q.
        set (a := pmin q) in *. set (c := pmax q) in *. clearbody a c. lia. }
    clear R. rewrite Lo. set (n := alen o - 1) in *.
    pose proof (null_buffer_spec v n W6) as NB.
    destruct (arrow_nulls_ok (to_null_buffer (to_logical v n)) (vnullable v) (vbits v n)) as (w & E & V1 & V2 & V3).
    { destruct (to_null_buffer _); [exact NB|]. rewrite vbits_length. intros k Hk. rewrite nth_vbits by exact Hk. apply NB, Hk. }
    { destruct v; cbn; try discriminate. reflexivity. }
    rewrite vbits_length in *. rewrite E. cbn [bind]. apply outc_ok.
    set (views := tab n _). assert (length views = n) as Ln by apply tab_length.
    assert (forall i, i < n -> view_ok [b] (nth i views (VInl [])) /\
              view_bytes [b] (nth i views (VInl [])) = lslice b (Z.to_nat (nth i ol 0%Z)) (Z.to_nat (nth (i + 1) ol 0%Z))) as HV.
    { intros i Hi. unfold views. rewrite nth_tab by exact Hi.
      assert (nth i ol 0 <= nth (i + 1) ol 0)%Z by (apply sortedZ_nth; [exact W4|lia|lia]).
      pose proof (Forall_nth_lt _ _ 0%Z (i + 1) W5 ltac:(lia)) as B1. pose proof (Forall_nth_lt _ _ 0%Z i W5 ltac:(lia)) as B0. cbv beta in B0, B1.
      apply make_view_ok; lia. }
    assert (logical (AView true views [b] w) = logical (AVarBin true o b v)) as L.
    { cbn [logical]. fold ol. rewrite nats_length, Lo, Ln. apply tab_ext. intros i Hi. rewrite V3, nth_vbits by exact Hi.
      destruct (vvalid v i); [|reflexivity]. rewrite !nth_nats. rewrite (proj2 (HV i Hi)). reflexivity. }
    split; [reflexivity|]. split; [exact L|]. split; [cbn [adtype]; rewrite V2; reflexivity|]. split; [intros _; cbn [adtype]; rewrite V2; reflexivity|].
    apply wf_view_intro.
    - apply Forall_forall. intros y Hy. apply (In_nth _ _ (VInl [])) in Hy. destruct Hy as (i & Hi & <-). apply HV. lia.
    - rewrite Ln. exact V1.
    - intros _ s Hs. rewrite L in Hs. exact (W7 eq_refl s Hs).
    - discriminate.
  Qed.

  Lemma canon_sparse ix vs o n fl : depth (ASparse ix vs o n fl) <= M -> canon_ok (ASparse ix vs o n fl).
  Proof.
    intros D f W C. cbn [ops_step o_canon]. cbn [depth] in D. cbn [wf] in W.
    destruct W as (W1 & W2 & W3 & W4 & W5 & W6 & W7 & W8 & W9 & W10 & W11 & W12 & W13).
    specialize (W11 C). destruct W11 as [K1 K2].
    unfold sparse_canon. eapply outc_bind; [apply (resolved_ok (sliceable f) ix _ o n (g_canon _ _ (Hrec ix ltac:(lia)) (sliceable f) W1 C) W3 W7)|].
    intros pos _ ->. set (il := ints (logical ix)) in *.
    assert (length il = alen ix) as Li by (unfold il; rewrite ints_length; apply logical_length).
    assert (length (rel_pos il o) = alen ix) as Lp by (unfold rel_pos; rewrite map_length; exact Li).
    destruct (set_many_sparse false false il o n (repeat true (length (rel_pos il o))) W6 W7) as (vl & Ev & Lv & Nv).
    { rewrite repeat_length. lia. }
    assert (forall i, i < n -> nth i vl false = match pos_of (Z.of_nat (o + i)) il with Some _ => true | None => false end) as Nv'.
    { intros i Hi. rewrite Nv by exact Hi. destruct (pos_of _ _) as [k|] eqn:P; [|reflexivity]. apply pos_of_lt in P.
      apply nth_repeat_lt. lia. }
    destruct (adtype vs) as [|nl|p nl| | | |] eqn:Dv; try discriminate.
    - destruct K2 as [[-> NN]|[K2 _]]; [|discriminate].
      eapply outc_bind; [apply (into_bool_ok (sliceable f) vs _ nl (g_canon _ _ (Hrec vs ltac:(lia)) (sliceable f) W2 C) Dv)|].
      intros [bs w] _ (B1 & B2 & B3 & B4). cbn [fst snd] in *. cbv beta iota. cbn [bind].
      destruct (Nat.ltb_spec (length bs) (length (rel_pos il o))); [lia|]. rewrite firstn_all2 by lia.
      destruct (set_many_sparse false false il o n bs W6 W7) as (fl & Ef & Lf & Nf); [lia|]. rewrite Ef. cbn [bind]. rewrite Ev. cbn [bind].
      apply outc_ok. cbn [vtyped nullable] in W9. subst nl. split; [reflexivity|]. split.
      { cbn [logical]. fold il. apply tab_ext. intros i Hi. cbn [Nat.add]. rewrite vvalid_vfrom, Nv' by lia. rewrite Nf by exact Hi.
        destruct (pos_of _ _) as [k|] eqn:P; [|reflexivity]. apply pos_of_lt in P.
        assert (nth k (logical vs) VNull <> VNull) as X by (apply Forall_nth_lt; [exact NN|rewrite logical_length; lia]).
        rewrite B4 in *. rewrite nth_tab in * by lia. destruct (vvalid w k); [reflexivity|congruence]. }
      cbn [adtype]. rewrite Dv, vnullable_vfrom. split; [reflexivity|]. split; [reflexivity|]. cbn [wf]. split; [lia|]. split; [lia|]. rewrite <- Lv. apply vfrom_wf.
    - eapply outc_bind; [apply (into_prim_ok_n (sliceable f) vs _ p nl (g_canon _ _ (Hrec vs ltac:(lia)) (sliceable f) W2 C) Dv)|].
      intros x _ (l & w & -> & B1 & B2 & B3 & B4 & B5). cbv beta iota.
      assert (exists z, match fl with VNull => Ok 0%Z | VInt z => Ok z | _ => Err end = Ok z /\ in_range p z /\ (fl = VNull \/ fl = VInt z)) as (z0 & Ez & Rz & Fz).
      { destruct fl; cbn [vtyped] in W9; try contradiction.
        - exists 0%Z. split; [reflexivity|]. split; [apply in_range_zero|auto].
        - eauto. }
      rewrite Ez. cbn [bind].
      destruct (set_many_sparse 0%Z z0 il o n l W6 W7) as (res & Er & Lr & Nr); [lia|]. rewrite Er. cbn [bind]. rewrite Ev. cbn [bind].
      apply outc_ok.
      assert (Forall (in_range p) res) as RR.
      { apply Forall_forall. intros z Hz. apply (In_nth _ _ 0%Z) in Hz. destruct Hz as (i & Hi & <-). rewrite Nr by lia.
        destruct (pos_of _ _) as [k|] eqn:P; [|exact Rz]. apply pos_of_lt in P. apply Forall_nth_lt; [exact B2|lia]. }
      assert (forall k, k < length l -> nth k (logical vs) VNull <> VNull -> nth k (logical vs) VNull = VInt (nth k l 0%Z)) as NL.
      { intros k Hk X. rewrite <- B5 in *. change (logical (APrim p l w)) with (tab (length l) (fun i => if vvalid w i then VInt (nth i l 0%Z) else VNull)) in *.
        rewrite nth_tab in * by exact Hk. destruct (vvalid w k); [reflexivity|congruence]. }
      split; [reflexivity|]. split.
      { cbn [logical]. fold il. rewrite Lr. apply tab_ext. intros i Hi. rewrite Nr by exact Hi.
        destruct K2 as [[-> NN]|[_ NN]].
        - cbn [is_null]. rewrite vvalid_vfrom, Nv' by lia. destruct (pos_of _ _) as [k|] eqn:P; [|reflexivity]. apply pos_of_lt in P.
          symmetry. apply NL; [lia|]. apply Forall_nth_lt; [exact NN|rewrite logical_length; lia].
        - cbn [nullable] in NN. subst nl. destruct Fz as [->| ->]; [cbn in W9; discriminate|]. cbn [is_null vvalid].
          destruct (pos_of _ _) as [k|] eqn:P; [|reflexivity]. apply pos_of_lt in P. symmetry. apply NL; [lia|].
          apply (nth_nonnull_logical (sliceable f) vs p k W2 Dv). lia. }
      assert (vnullable (if is_null fl then vfrom vl else VNonNull) = nl) as EN.
      { destruct K2 as [[-> NN]|[_ NN]].
        - cbn [is_null]. rewrite vnullable_vfrom. cbn in W9. congruence.
        - cbn [nullable] in NN. subst nl. destruct Fz as [->| ->]; [cbn in W9; discriminate|]. reflexivity. }
      cbn [adtype]. rewrite Dv, EN. split; [reflexivity|]. split; [reflexivity|]. cbn [wf]. split; [exact RR|]. rewrite Lr.
      destruct (is_null fl); [|exact I]. rewrite <- Lv. apply vfrom_wf.
  Qed.

  Lemma canon_bitpacked p l bw o n v q : depth (ABitPacked p l bw o n v q) <= M -> canon_ok (ABitPacked p l bw o n v q).
  Proof.
    intros D f W C. cbn [ops_step o_canon]. cbn [depth] in D. cbn [wf] in W.
    destruct W as (Hp & Hb & Ho & Hl & Hr & Hw & Hq & _).
    pose proof (unpack_primitive_spec l bw o n Ho Hl Hr) as U.
    set (u := lslice l o (o + n)) in *.
    assert (o + n <= length l) as Hc by (rewrite Hl; clear; lia).
    assert (length u = n) as Lu by (unfold u; rewrite lslice_length; lia).
    assert (forall i, i < n -> nth i u 0%Z = nth (o + i) l 0%Z) as NU by (intros; unfold u; rewrite nth_lslice by lia; reflexivity).
    assert (Forall (in_range p) u) as Ru.
    { assert (Forall (fun z => (0 <= z < 2 ^ bw)%Z) u) as Fu by (apply Forall_lslice, Hr). eapply Forall_impl; [|exact Fu].
      intros z Hz. apply (in_range_unsigned_pow p bw); auto. lia. }
    assert (map (wrap p) u = u) as Wu.
    { rewrite <- (map_id u) at 2. apply map_ext_in. intros z Hz. apply wrap_id. rewrite Forall_forall in Ru. auto. }
    destruct q as [q|].
    2:{ cbn [bind]. unfold bp_unpack. rewrite U. cbn [bind]. rewrite Wu. apply outc_ok. split; [reflexivity|]. split.
        { cbn [logical]. rewrite Lu. apply tab_ext. intros i Hi. destruct (vvalid v i); [|reflexivity].
          replace (nth i [] VNull) with VNull by (destruct i; reflexivity). rewrite NU by exact Hi. reflexivity. }
        split; [reflexivity|]. split; [reflexivity|]. cbn [wf]. rewrite Lu. auto. }
    destruct Hq as (Wq & Aq & Dq & _ & Hs). destruct q as [| | | | | | | |qi qv qo qn qf| | | | | | |]; try contradiction.
    destruct Hs as (-> & Hne & NN & (w & Dv)). cbn [alen] in Aq. subst qn. cbn [depth] in D. cbn [wf] in Wq.
    destruct Wq as (W1 & W2 & W3 & W4 & W5 & W6 & W7 & W8 & W9 & W10 & W11 & W12 & W13).
    set (il := ints (logical qi)) in *.
    assert (length il = alen qi) as Li by (unfold il; rewrite ints_length; apply logical_length).
    eapply outc_bind with (P := fun x => exists vl, x = Some (rel_pos il qo, vl) /\ length vl = length il /\ Forall (in_range p) vl /\
       forall k, k < length vl -> nth k (logical qv) VNull = VInt (nth k vl 0%Z)).
    { eapply outc_bind; [apply (resolved_ok (sliceable f) qi _ qo n (g_canon _ _ (Hrec qi ltac:(lia)) (sliceable f) W1 C) W3 W7)|].
      intros pos _ ->. eapply outc_bind; [apply (into_prim_ok_n (sliceable f) qv _ p w (g_canon _ _ (Hrec qv ltac:(lia)) (sliceable f) W2 C) Dv)|].
      intros x _ (vl & vv & -> & B1 & B2 & B3 & B4 & B5). cbv beta iota. apply outc_ok. exists vl. split; [reflexivity|]. split; [lia|]. split; [exact B2|].
      intros k Hk. assert (nth k (logical qv) VNull <> VNull) as X by (apply Forall_nth_lt; [exact NN|rewrite logical_length; lia]).
      rewrite <- B5 in *. change (logical (APrim p vl vv)) with (tab (length vl) (fun i => if vvalid vv i then VInt (nth i vl 0%Z) else VNull)) in *.
      rewrite nth_tab in * by exact Hk. destruct (vvalid vv k); [reflexivity|congruence]. }
    intros x _ (vl & -> & Lvl & Rvl & Nvl). unfold bp_unpack. rewrite U. cbn [bind]. rewrite Wu, patch_is_set_many.
    destruct (set_many_patch 0%Z u il qo n vl Lu W6 W7 Lvl) as (r & E & Lr & Nr). rewrite E. cbn [bind]. apply outc_ok.
    split; [reflexivity|]. split.
    { change (logical (ABitPacked p l bw o n v (Some (ASparse qi qv qo n VNull)))) with
        (tab n (fun i => if vvalid v i then match nth i (logical (ASparse qi qv qo n VNull)) VNull with VInt z => VInt z | _ => VInt (nth (o + i) l 0%Z) end else VNull)).
      change (logical (APrim p r v)) with (tab (length r) (fun i => if vvalid v i then VInt (nth i r 0%Z) else VNull)). rewrite Lr.
      apply tab_ext. intros i Hi. destruct (vvalid v i); [|reflexivity].
      change (logical (ASparse qi qv qo n VNull)) with (tab n (fun i => match pos_of (Z.of_nat (qo + i)) il with Some k => nth k (logical qv) VNull | None => VNull end)).
      rewrite nth_tab by exact Hi. rewrite Nr by exact Hi. destruct (pos_of _ _) as [k|] eqn:P.
      - apply pos_of_lt in P. rewrite Nvl by lia. reflexivity.
      - rewrite NU by exact Hi. reflexivity. }
    split; [reflexivity|]. split; [reflexivity|]. cbn [wf]. rewrite Lr. split; [|exact Hw].
    apply Forall_forall. intros z Hz. apply (In_nth _ _ 0%Z) in Hz. destruct Hz as (i & Hi & <-). rewrite Nr by lia.
    destruct (pos_of _ _) as [k|] eqn:P; [apply pos_of_lt in P; apply Forall_nth_lt; [exact Rvl|lia]|apply Forall_nth_lt; [exact Ru|lia]].
  Qed.

  Lemma canon_dict c vs : depth (ADict c vs) <= M -> canon_ok (ADict c vs).
  Proof.
    intros D f W C. cbn [ops_step o_canon]. cbn [depth] in D. cbn [wf] in W.
    destruct W as (Wc & Wv & (p & Dc & Hu) & B & Fl & Hv & HF & HK).
    eapply outc_bind; [apply (g_canon _ _ (Hrec vs ltac:(lia)) f Wv C)|]. intros vc _ (C1 & L1 & E1 & K1 & V1).
    eapply outc_bind; [apply (into_prim_ok f c _ p (g_canon _ _ (Hrec c ltac:(lia)) f Wc C) Dc)|]. intros x _ ->. cbv beta iota.
    set (f1 := Flags false false true false true true false false false (fk f)).
    assert (flat (adtype vc) = true) as Fc by (rewrite (erase_flat _ _ E1); exact Fl).
    assert (wf f1 vc) as Wvc.
    { apply (flat_canon_wf f1 (cf f) vc C1 Fc V1). cbn [fk f1]. intros K S. rewrite (K1 (or_introl K)) in *. auto. }
    pose proof (flat_canon_depth vc C1 Fc) as Dvc.
    assert (alen vc = alen vs) as Avc by (rewrite <- !logical_length; congruence).
    destruct (g_retake _ _ (Hrec vc ltac:(lia)) f1 p (nats (ints (logical c))) Wvc C1 Fc) as (t & Et & Ct & Wt & Lt & Ert & Kt).
    { unfold nats. apply Forall_map. rewrite Avc. eapply Forall_impl; [|exact B]. intros z Hz. cbv beta in Hz. lia. }
    rewrite Et. cbn [bind].
    assert (flat (adtype t) = true) as Ft by (rewrite (erase_flat _ _ Ert); exact Fc).
    pose proof (flat_canon_depth t Ct Ft) as Dt.
    destruct (g_recanon _ _ (Hrec t ltac:(lia)) Ct) as (r & Er).
    pose proof (g_canon _ _ (Hrec t ltac:(lia)) f1 Wt eq_refl) as P. rewrite Er in *. cbn [outc] in P. destruct P as (Cr & Lr & E2 & K2 & W2).
    apply outc_ok. split; [exact Cr|]. split.
    { rewrite Lr, Lt, L1. change (logical (ADict c vs)) with (map (fun x => nth (Z.to_nat (vint x)) (logical vs) VNull) (logical c)).
      unfold pick, nats, ints. rewrite !map_map. reflexivity. }
    cbn [adtype]. split; [congruence|]. split.
    - intros K. rewrite <- (K1 K). destruct K as [K|K].
      + destruct (is_str (adtype vc)) eqn:S.
        * rewrite (K1 (or_introl K)) in *. rewrite K2 by (left; exact K). apply Kt. auto.
        * rewrite K2; [apply Kt; auto|]. right. rewrite (erase_str _ _ Ert). exact S.
      + assert (is_str (adtype vc) = false) as S by (rewrite (erase_str _ _ E1); exact K).
        rewrite K2; [apply Kt; auto|]. right. rewrite (erase_str _ _ Ert). exact S.
    - apply (flat_canon_wf (cf f) (cf f1) r Cr); [|exact W2|discriminate]. rewrite (erase_flat _ _ E2). exact Ft.
  Qed.
End Step.
