(** take on bit-packed arrays with patches, without the size restriction of the class [ft]: the per-block path of the code is
    the only wrong one, and it is only reached when at least 64 rows per 1024-row block are taken but at most an eighth of
    the array. *)
From Verif Require Import Base Spec SearchModel SearchProofs Arr ArrRead ArrWf ArrReadProofs ArrSearchProofs ArrSlice ArrSliceProofs ArrSliceMain
  ValidityModel PropValidity IntEnc PropIntEnc RunEnc PropRunEnc PropUnary PropDict ArrOps OpsBase OpsFlat OpsCanon OpsCanon2 OpsCanon3 OpsTake OpsVarBin OpsSparse OpsTake2 OpsMain StatsModel PropSlice PropRead PropOps.

Definition noft (f : flags) : flags := Flags (fs f) (fn f) (fc f) (fC f) (fv f) false (fT f) (fN f) (fF f) (fk f).

Section Step.
  Variable rec : array -> ops_t.
  Variable M : nat.
  Hypothesis Hrec : forall b, depth b < M -> ops_good (rec b) b.

  Lemma take_bitpacked_gen p l bw o n v q : depth (ABitPacked p l bw o n v q) <= M ->
    forall f ip idx, wf (noft f) (ABitPacked p l bw o n v q) -> fc f = true -> ft f = true ->
    match q with Some q' => wf f q' /\ (idx <> [] -> length idx < 64 * length (group_by (fun i => i / 1024) (map (fun i => i + o) idx)) \/ n < 8 * length idx) | None => True end ->
    (Z.of_nat (length idx) <= pmax U64)%Z -> Forall (fun i => i < n) idx ->
    outc (Ttake f ip idx) (o_take (ops_step rec (ABitPacked p l bw o n v q)) ip idx) (take_post f (ABitPacked p l bw o n v q) idx).
  Proof.
    intros D f ip idx W C T HQ Hl HI. pose proof (canon_bitpacked rec M Hrec p l bw o n v q D (noft f) W C) as CB.
    cbn [ops_step o_take o_canon alen] in *. unfold bp_take. match goal with |- context [into_prim ?c] => set (cs := c) in * end.
    pose proof W as W0. cbn [wf] in W. destruct W as (W1 & W2 & W3 & W4 & W5 & W6 & W7 & W8).
    assert (Ttake f ip idx -> fC f = true) as TC by (intros [H|(H & _)]; apply W8; auto).
    destruct (Nat.ltb_spec n (length idx * 8)) as [H8|H8].
    - eapply outc_bind.
      { eapply outc_weaken; [eapply (into_prim_ok_n (noft f) (ABitPacked p l bw o n v q) cs p (vnullable v)); [exact CB|reflexivity]|exact TC|intros b _ Hb; exact Hb]. }
      intros x _ (xl & xv & -> & X1 & X2 & X3 & X4 & X5). cbn [alen] in X4.
      destruct (prim_take_good f p xl xv idx) as (xs & w & E & Exs & R & V1 & V2 & V3); [cbn [wf]; auto|rewrite X4; exact HI|].
      rewrite E. apply outc_ok. rewrite X5 in V3.
      split; [cbn [wf]; auto|]. split; [exact V3|]. cbn [adtype depth derase erase]. rewrite V2, X1. split; [reflexivity|]. split; [reflexivity|]. lia.
    - destruct (vtake_ok v n idx W6 HI) as (w & E & V1 & V2 & V3 & V4). rewrite E. cbn [bind].
      assert (o + n <= length l) as HL by (rewrite W4; pose proof (Nat.div_mod (n + o + 1023) 1024 ltac:(lia)); pose proof (Nat.mod_upper_bound (n + o + 1023) 1024 ltac:(lia)); lia).
      assert (forall z, In z l -> in_range p z) as RP.
      { intros z Hz. rewrite Forall_forall in W5. specialize (W5 z Hz). cbv beta in W5. apply (in_range_unsigned_pow p bw); auto; lia. }
      set (pl := match q with Some a => logical a | None => [] end).
      assert (forall out, length out = length idx -> Forall (in_range p) out ->
        (forall k, k < length idx -> vvalid v (nth k idx 0) = true ->
          VInt (nth k out 0%Z) = match nth (nth k idx 0) pl VNull with VInt z => VInt z | _ => VInt (nth (o + nth k idx 0) l 0%Z) end) ->
        outc (Ttake f ip idx) (expect (try_prim p out w)) (take_post f (ABitPacked p l bw o n v q) idx)) as FIN.
      { intros out L R H. unfold try_prim. rewrite L, V4. cbn [expect]. apply outc_ok.
        split; [cbn [wf]; rewrite L; auto|]. split; [|cbn [adtype depth]; rewrite V2; split; [reflexivity|]; split; [reflexivity|lia]].
        change (logical (ABitPacked p l bw o n v q)) with (tab n (fun i => if vvalid v i then match nth i pl VNull with VInt z => VInt z | _ => VInt (nth (o + i) l 0%Z) end else VNull)).
        rewrite tab_pick by exact HI. change (logical (APrim p out w)) with (tab (length out) (fun i => if vvalid w i then VInt (nth i out 0%Z) else VNull)). rewrite L.
        apply tab_ext. intros k Hk. rewrite V3 by exact Hk. destruct (vvalid v (nth k idx 0)) eqn:EV; [|reflexivity]. apply H; auto. }
      destruct idx as [|i0 idx0]; [apply FIN; cbn; auto; intros; lia|]. set (idx := i0 :: idx0) in *.
      set (out := map (fun i => nth (o + i) l 0%Z) idx).
      assert (gather l (map (fun i => i + o) idx) = Ok out) as EG.
      { rewrite (gather_ok l _ 0%Z) by (apply Forall_map; eapply Forall_impl; [|exact HI]; intros i Hi; cbv beta in Hi; lia).
        f_equal. rewrite map_map. apply map_ext. intros i. f_equal. lia. }
      rewrite EG. cbn [bind]. assert (length out = length idx) as LO by apply map_length.
      assert (Forall (in_range p) out) as RO.
      { apply Forall_map. eapply Forall_impl; [|exact HI]. intros i Hi. cbv beta in Hi. apply RP. apply nth_In. lia. }
      assert (forall k, k < length idx -> nth k out 0%Z = nth (o + nth k idx 0) l 0%Z) as NO.
      { intros k Hk. apply (map_nth_lt (fun i => nth (o + i) l 0%Z) idx 0). exact Hk. }
      destruct q as [q|].
      2: { cbn [bind]. apply FIN; auto. intros k Hk _. rewrite NO by exact Hk. unfold pl. destruct (nth k idx 0); reflexivity. }
      destruct HQ as [HQ HB]. destruct W7 as (_ & Q2 & Q3 & _ & Q5). pose proof HQ as Q1. destruct q as [| | | | | | | |qi qv qo qn qf| | | | | | |]; try contradiction.
      destruct Q5 as (-> & Q6 & Q7 & Q8). cbn [alen] in Q2. cbn [adtype] in Q3.
      cbn [depth] in D. change (S (Nat.max (depth qi) (depth qv))) with (depth (ASparse qi qv qo qn VNull)) in D.
      unfold bp_patch_take. specialize (HB ltac:(discriminate)).
      destruct (Nat.ltb_spec (length idx) (length (group_by (fun i => i / 1024) (map (fun i => i + o) idx)) * 64)) as [_|HX]; [|lia].
      set (sp := ASparse qi qv qo qn VNull) in *.
      assert (depth sp < M) as DS by lia.
      apply (outc_bind _ _ (fun out' => length out' = length idx /\ Forall (in_range p) out' /\ forall k, k < length idx ->
          VInt (nth k out' 0%Z) = match nth (nth k idx 0) pl VNull with VInt z => VInt z | _ => VInt (nth (o + nth k idx 0) l 0%Z) end)).
      2: { intros out' _ (L' & R' & H'). apply FIN; auto. }
      unfold inner_patch. eapply outc_bind.
      { apply (g_take _ _ (Hrec sp DS) f ip idx); auto. unfold sp. cbn [alen]. rewrite Q2. exact HI. }
      intros t Et Pt. pose proof (g_sparse _ _ (Hrec sp DS) ip idx t Et) as SH. unfold sp in SH. destruct SH as (ti & tv & ->).
      destruct Pt as (P1 & P2 & P3 & P4 & P5). clear P3. assert (adtype sp = DPrim p true) as Asp by exact Q3.
      assert (adtype (ASparse ti tv 0 (length idx) VNull) = adtype sp) as P4' by (apply P4; right; rewrite Asp; reflexivity). clear P4. rename P4' into P4. rewrite Asp in P4.
      change (adtype (ASparse ti tv 0 (length idx) VNull)) with (adtype tv) in P4.
      change (depth (ASparse ti tv 0 (length idx) VNull)) with (S (max (depth ti) (depth tv))) in P5.
      cbn [wf] in P1. rewrite sliceable_pf in P1. destruct P1 as (T1 & T2 & T3 & T4 & T5 & T6 & T7 & T8 & T9 & T10 & T11 & T12 & T13).
      assert (fc (pf f) = true) as C' by (destruct (fle_pf f) as (_ & _ & -> & _); exact C).
      assert (Ttake f ip idx -> fC (pf f) = true) as TC'.
      { intros H. specialize (TC H). unfold pf. destruct H as [H|(H & _)]; rewrite H, ?orb_true_r; exact TC. }
      assert (non_null (logical tv)) as NN.
      { destruct (T11 C') as [_ [[_ X]|[_ X]]]; [exact X|]. rewrite P4 in X. discriminate. }
      eapply outc_bind.
      { eapply outc_weaken; [eapply (into_prim_ok_n (pf f) tv _ p true); [apply (g_canon _ _ (Hrec tv ltac:(lia))); auto|exact P4]|exact TC'|intros b _ Hb; exact Hb]. }
      intros x _ (vs & vv & -> & X1 & X2 & X3 & X4 & X5). cbv beta iota.
      eapply outc_bind.
      { eapply outc_weaken; [eapply (resolved_ok (pf f) ti _ 0 (length idx)); [apply (g_canon _ _ (Hrec ti ltac:(lia))); auto|exact T3|exact T7]|exact TC'|intros b _ Hb; exact Hb]. }
      intros pos _ ->. rewrite LO, Nat.ltb_irrefl, Nat.sub_diag. change (map (fun k => 0 + k)) with (map (fun k : nat => k)). rewrite map_id.
      set (il := ints (logical ti)) in *.
      assert (length vs = length il) as LV by (unfold il; rewrite ints_length, logical_length, T4; exact X4).
      destruct (set_many_patch 0%Z out il 0 (length idx) vs LO T6 T7 LV) as (out' & ES & L' & N'). rewrite ES. apply outc_ok.
      assert (forall k, k < length vs -> nth k (logical tv) VNull = VInt (nth k vs 0%Z)) as NV.
      { intros k Hk. assert (nth k (logical tv) VNull <> VNull) as NZ by (apply (Forall_nth_lt _ _ VNull k NN); rewrite logical_length; lia).
        rewrite <- X5 in *. cbn [logical] in NZ |- *. rewrite nth_tab in NZ |- * by exact Hk. destruct (vvalid vv k); congruence. }
      split; [exact L'|]. split.
      + apply (Forall_nth _ out'). intros k d Hk. rewrite (nth_indep _ d 0%Z Hk). rewrite N' by lia.
        destruct (pos_of _ il) as [j|] eqn:EJ; [|apply (Forall_nth_lt _ _ 0%Z k RO); lia].
        apply pos_of_lt in EJ. apply (Forall_nth_lt _ _ 0%Z j X2). lia.
      + intros k Hk. rewrite N' by exact Hk.
        assert (nth (nth k idx 0) pl VNull = match pos_of (Z.of_nat (0 + k)) il with Some j => nth j (logical tv) VNull | None => VNull end) as EP.
        { unfold pl. fold sp. rewrite <- (nth_pick (logical sp) idx k Hk). rewrite <- P2.
          change (logical (ASparse ti tv 0 (length idx) VNull)) with (tab (length idx) (fun i => match pos_of (Z.of_nat (0 + i)) il with Some j => nth j (logical tv) VNull | None => VNull end)).
          rewrite nth_tab by exact Hk. reflexivity. }
        rewrite EP. destruct (pos_of _ il) as [j|] eqn:EJ.
        * apply pos_of_lt in EJ. rewrite NV by lia. reflexivity.
        * rewrite NO by exact Hk. reflexivity.
  Qed.
End Step.

(** * C12 *)

(** A bit-packed array as the encoder and slicing produce it: packed values, offset into the first block, validity, and
    patches that are absent or sparse over primitive arrays. *)
Definition f_all : flags := Flags true true true true true true true true true false.
Definition bp_simple (a : array) : Prop :=
  wf f_dec a /\
  match a with
  | ABitPacked p _ _ _ _ _ None => True
  | ABitPacked p _ _ _ _ _ (Some (ASparse (APrim U64 _ _) (APrim p' _ _) _ _ _)) => p' = p
  | _ => False
  end.
Definition no_patches (a : array) : Prop := match a with ABitPacked _ _ _ _ _ _ None => True | _ => False end.

Lemma bp_simple_wf p l bw o n v q : bp_simple (ABitPacked p l bw o n v q) ->
  wf (noft f_all) (ABitPacked p l bw o n v q) /\ match q with Some q' => wf f_all q' | None => True end.
Proof.
  intros [W S]. cbn [wf] in W. destruct W as (W1 & W2 & W3 & W4 & W5 & W6 & W7 & W8).
  destruct q as [q|].
  - destruct q as [| | | | | | | |qi qv qo qn qf| | | | | | |]; try contradiction.
    destruct qi as [| |ip il iv| | | | | | | | | | | | |]; try contradiction. destruct ip; try contradiction.
    destruct qv as [| |vp vl vv| | | | | | | | | | | | |]; try contradiction.
    destruct W7 as (Q1 & Q2 & Q3 & Q4 & Q5). cbn [wf] in Q1. destruct Q1 as (A1 & A2 & A3 & A4 & A5 & A6 & A7 & A8 & A9 & A10 & A11 & A12 & A13).
    assert (forall f, fc f = true -> fv f = true -> fT f = true -> fC f = true -> wf f (ASparse (APrim U64 il iv) (APrim vp vl vv) qo qn qf)) as G.
    { intros f C V FT FC. cbn [wf]. do 10 (split; [assumption|]). split; [intros _; exact (A11 eq_refl)|]. split; [intros _; exact (A12 eq_refl)|].
      intros _. split; [exact FT|]. split; [exact FC|]. right. reflexivity. }
    split; [|apply G; reflexivity].
    cbn [wf]. do 6 (split; [assumption|]). split; [|intros _; reflexivity].
    split; [apply G; reflexivity|]. split; [exact Q2|]. split; [exact Q3|]. split; [discriminate|exact Q5].
  - split; [|exact I]. cbn [wf]. do 6 (split; [assumption|]). split; [exact I|]. intros _. reflexivity.
Qed.

Lemma slice_prim_shape p l v i j b : slice (APrim p l v) i j = Ok b -> exists l' v', b = APrim p l' v'.
Proof.
  cbn [slice]. destruct (slice_bad _ _ _); [discriminate|]. destruct (vslice v i j) as [w| |]; try discriminate. cbn [bind]. unfold try_prim.
  match goal with |- context [if ?c then _ else _] => destruct c end; try discriminate. intros [= <-]. eauto.
Qed.

Theorem bitpacked_slice :
  forall (a : array) (i j : nat), bp_simple a -> i <= j -> j <= length (logical a) ->
  exists b, slice a i j = Ok b /\ bp_simple b /\ adtype b = adtype a /\ logical b = spec_slice (logical a) i j.
Proof.
  intros a i j B Hij Hj. destruct (PropSlice.slice_commutes_with_decoding f_dec a i j (proj1 B) Hij Hj (or_introl eq_refl)) as (b & E & Wb & Db & Ab & Lb).
  exists b. split; [exact E|]. split; [|auto]. split; [exact Wb|].
  destruct a as [| | | | | | | | | | | | | |p l bw o n v q|]; try (destruct B as [_ []]; fail). destruct B as [_ B].
  cbn [slice] in E. destruct (slice_bad _ _ _); [discriminate|]. cbv zeta in E. match type of E with (if ?c then _ else _) = _ => destruct c; [discriminate|] end.
  destruct (vslice v i j) as [w| |]; try discriminate. cbn [bind] in E.
  match type of E with (do q' <- ?x; _) = _ => destruct x as [q'| |] eqn:Eq; try discriminate end. cbn [bind] in E.
  assert (exists l' o' w', b = ABitPacked p l' bw o' (j - i) w' q') as (l' & o' & w' & ->).
  { unfold try_bitpacked in E. repeat match type of E with (if ?c then _ else _) = _ => destruct c; try discriminate E end.
    destruct q' as [q'|]; [|injection E as <-; eauto].
    repeat match type of E with (if ?c then _ else _) = _ => destruct c; try discriminate E end.
    destruct q'; try discriminate E. repeat match type of E with (if ?c then _ else _) = _ => destruct c; try discriminate E end. injection E as <-. eauto. }
  destruct q as [q|]; [|injection Eq as <-; exact I].
  destruct q as [| | | | | | | |qi qv qo qn qf| | | | | | |]; try contradiction.
  destruct qi as [| |ip il iv| | | | | | | | | | | | |]; try contradiction. destruct ip; try contradiction.
  destruct qv as [| |vp vl vv| | | | | | | | | | | | |]; try contradiction. subst vp.
  destruct (slice (ASparse (APrim U64 il iv) (APrim p vl vv) qo qn qf) i j) as [b'| |] eqn:E'; try discriminate. cbn [bind] in Eq.
  destruct b' as [| | | | | | | |bi bv bo bn bf| | | | | | |]; try discriminate. destruct (alen bi =? 0); injection Eq as <-; [exact I|].
  change (slice (ASparse (APrim U64 il iv) (APrim p vl vv) qo qn qf) i j) with
    (if slice_bad qn i j then Err else do s <- sparse_search_index (APrim U64 il iv) (reads (APrim U64 il iv)) qo i;
      do e <- sparse_search_index (APrim U64 il iv) (reads (APrim U64 il iv)) qo j;
      do idx' <- slice (APrim U64 il iv) (to_index s) (to_index e);
      do vals' <- slice (APrim p vl vv) (to_index s) (to_index e);
      try_sparse idx' vals' (j - i) (qo + i) qf) in E'.
  destruct (slice_bad _ _ _); [discriminate|]. destruct (sparse_search_index _ _ _ i) as [s| |]; try discriminate. cbn [bind] in E'.
  destruct (sparse_search_index _ _ _ j) as [e| |]; try discriminate. cbn [bind] in E'.
  destruct (slice (APrim U64 il iv) _ _) as [x| |] eqn:Ex; try discriminate. cbn [bind] in E'.
  destruct (slice (APrim p vl vv) _ _) as [y| |] eqn:Ey; try discriminate. cbn [bind] in E'.
  destruct (slice_prim_shape _ _ _ _ _ _ Ex) as (xl & xv & ->). destruct (slice_prim_shape _ _ _ _ _ _ Ey) as (yl & yv & ->).
  unfold try_sparse in E'. repeat match type of E' with (if ?c then _ else _) = _ => destruct c; try discriminate E' end.
  - injection E' as <- <- <- <- <-. reflexivity.
  - destruct (scalar_at _ _) as [z| |]; try discriminate. cbn [bind] in E'. destruct (to_usize z) as [last| |]; try discriminate. cbn [bind] in E'.
    repeat match type of E' with (if ?c then _ else _) = _ => destruct c; try discriminate E' end. injection E' as <- <- <- <- <-. reflexivity.
Qed.
Print Assumptions bitpacked_slice.

Theorem bitpacked_unpack_and_access :
  forall (a : array), bp_simple a ->
  exists c, canon a = Ok c /\ logical c = logical a /\ adtype c = adtype a /\
    (forall i, scalar_at a i = scalar_at c i) /\
    (forall i, i < length (logical a) -> scalar_at a i = Ok (nth i (logical c) VNull)).
Proof.
  intros a [W S]. destruct (PropOps.canonical_is_lossless f_dec a W eq_refl) as [H1 H2]. destruct (H2 eq_refl) as (c & E). exists c. split; [exact E|].
  destruct (H1 c E) as (_ & L & _ & _ & K & _). split; [exact L|].
  split; [apply K; destruct a as [| | | | | | | | | | | | | |p l bw o n v q|]; try contradiction; reflexivity|].
  split; [intros i; symmetry; apply (PropOps.scalar_at_agrees_with_canonical f_dec a c i W eq_refl E)|].
  intros i Hi. rewrite L. apply (PropRead.scalar_at_is_the_element f_dec a W). exact Hi.
Qed.
Print Assumptions bitpacked_unpack_and_access.

(** take, unless the array has patches and between 64 rows per block and an eighth of the array is taken (there the code is
    wrong: [bitpacked_take_refuted]). *)
Theorem bitpacked_take :
  forall (a : array) (ip : ptype) (idx : list nat), bp_simple a -> is_int ip = true ->
  (Z.of_nat (length idx) <= pmax U64)%Z -> Forall (fun i => i < length (logical a)) idx ->
  (no_patches a \/ length idx < 64 \/ length (logical a) < 8 * length idx) ->
  exists b, take a ip idx = Ok b /\ spec_take (logical a) idx = Some (logical b) /\ adtype b = adtype a.
Proof.
  intros a ip idx B Ii Hl HI HC. rewrite PropOps.spec_take_pick by exact HI. rewrite logical_length in HI, HC.
  destruct a as [| | | | | | | | | | | | | |p l bw o n v q|]; try (destruct B as [_ []]; fail). destruct (bp_simple_wf _ _ _ _ _ _ _ B) as [W Q].
  unfold take. rewrite Ii. set (D := depth (ABitPacked p l bw o n v q)).
  assert (exists rec, ops D (ABitPacked p l bw o n v q) = ops_step rec (ABitPacked p l bw o n v q) /\ forall b, depth b < D -> ops_good (rec b) b) as (rec & -> & Hrec).
  { destruct D as [|D']; cbn [ops]; eexists; (split; [reflexivity|]); intros b Hb; [lia|apply ops_correct; lia]. }
  pose proof (take_bitpacked_gen rec D Hrec p l bw o n v q (le_n _) f_all ip idx W eq_refl eq_refl) as H. unfold outc in H.
  assert (match q with Some q' => wf f_all q' /\ (idx <> [] -> length idx < 64 * length (group_by (fun i => i / 1024) (map (fun i => i + o) idx)) \/ n < 8 * length idx) | None => True end) as HQ.
  { destruct q as [q|]; [|exact I]. split; [exact Q|]. intros Hne. cbn [alen] in HC.
    pose proof (group_by_nonempty (fun i => i / 1024) (map (fun i => i + o) idx) ltac:(destruct idx; [congruence|discriminate])) as GN.
    destruct HC as [[]|[HC|HC]]; [left; lia|right; exact HC]. }
  specialize (H HQ Hl HI). destruct (o_take _ ip idx) as [b| |]; [|contradiction H; left; reflexivity|contradiction H; left; reflexivity].
  exists b. split; [reflexivity|]. destruct H as (_ & L & _ & K & _). split; [rewrite L; reflexivity|]. apply K. right. reflexivity.
Qed.
Print Assumptions bitpacked_take.

(** The encoder's output is of this form. *)
Theorem bitpack_encode_is_simple :
  forall p l v bw r, is_unsigned p = true -> wf f0 (APrim p l v) -> (Z.of_nat (length l) <= pmax U64)%Z -> l <> [] -> bw < nbits p ->
  bitpack_encode p l v bw = Ok r -> bp_simple r /\ logical r = logical (APrim p l v).
Proof.
  intros p l v bw r Hp W Hl Hne Hbw E. destruct (bitpack_roundtrip p l v bw Hp W Hl Hne Hbw) as (r' & E' & L & _ & _ & Wr).
  rewrite E in E'. injection E' as <-. split; [|exact L]. split; [exact Wr|].
  unfold bitpack_encode in E. destruct (s_bw _); [|discriminate]. destruct (_ <=? bw); [discriminate|]. destruct (is_float p); [discriminate|].
  rewrite Hp in E. injection E as <-. destruct (0 <? _); [|exact I]. unfold gather_patches. destruct (patch_positions p l v bw); [exact I|]. reflexivity.
Qed.
Print Assumptions bitpack_encode_is_simple.

(** Non-vacuity: encode with one exception (300 does not fit in 8 bits), slice, then take. *)
Definition ex_bp : list Z := [1; 2; 300; 4; 5]%Z.
Example ex_bp_pipeline :
  exists a b, bitpack_encode U16 ex_bp (VBits [true; true; true; false; true]) 8 = Ok a /\ slice a 1 5 = Ok b /\
  bp_simple a /\ bp_simple b /\ logical b = [VInt 2; VInt 300; VNull; VInt 5] /\
  exists c, take b U64 [1; 3; 1; 2] = Ok c /\ logical c = [VInt 300; VInt 5; VInt 300; VNull].
Proof.
  assert (wf f0 (APrim U16 ex_bp (VBits [true; true; true; false; true]))) as W by (cbn [wf vwf length ex_bp]; split; [repeat constructor; cbn; lia|reflexivity]).
  destruct (bitpack_roundtrip U16 ex_bp (VBits [true; true; true; false; true]) 8 eq_refl W ltac:(vm_compute; discriminate) ltac:(discriminate) ltac:(cbn; lia)) as (a & E & L & _).
  destruct (bitpack_encode_is_simple U16 ex_bp _ 8 a eq_refl W ltac:(vm_compute; discriminate) ltac:(discriminate) ltac:(cbn; lia) E) as [B _].
  assert (logical a = [VInt 1; VInt 2; VInt 300; VNull; VInt 5]) as La by (rewrite L; reflexivity).
  destruct (bitpacked_slice a 1 5 B ltac:(lia) ltac:(rewrite La; cbn; lia)) as (b & Eb & Bb & _ & Lb). rewrite La in Lb.
  exists a, b. split; [exact E|]. split; [exact Eb|]. split; [exact B|]. split; [exact Bb|]. split; [exact Lb|].
  destruct (bitpacked_take b U64 [1; 3; 1; 2] Bb eq_refl ltac:(vm_compute; discriminate)) as (c & Ec & Lc & _).
  { rewrite Lb. repeat constructor; cbn; lia. }
  { right. left. cbn; lia. }
  exists c. split; [exact Ec|]. rewrite Lb in Lc. cbn in Lc. injection Lc as <-. reflexivity.
Qed.
