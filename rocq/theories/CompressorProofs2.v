(** Proofs about the sampling compressor: the integer encodings. *)
From Verif Require Import Base Spec SearchModel Arr ArrRead ArrWf ArrReadProofs ArrSlice ArrSliceProofs ValidityModel PropValidity StatsModel StatsProofs
  StatsProofs2 StatsProofs3 PropStats ArrOps OpsBase OpsFlat OpsSparse IntEnc RunEnc DictEnc PropIntEnc PropRunEnc PropDict PropRead Compressor CompressorSpec CompressorProofs.
Local Notation g := decodable.

(** * Frame of reference *)
Lemma min_least p l v n m : is_int p = true -> wf f0 (APrim p l v) -> s_min (stats_after KMin (APrim p l v)) = Some (n, VInt m) ->
  nn (logical (APrim p l v)) <> [] /\ forall i, i < length l -> vvalid v i = true -> (m <= nth i l 0)%Z.
Proof.
  intros Hi W E. pose proof (so_min _ _ _ (stats_sound _ f0 KMin W (int_nice p (vnullable v) _ Hi))) as S. rewrite E in S. cbn [oall snd] in S.
  unfold is_least in S. destruct (nn (logical (APrim p l v))) as [|y r] eqn:En; [discriminate S|]. rewrite <- En in *. split; [rewrite En; discriminate|].
  intros i Hl Hv. destruct S as [_ S]. specialize (S (VInt (nth i l 0%Z))). assert (is_float p = false) as Hf by (apply int_not_float, Hi).
  assert (In (VInt (nth i l 0%Z)) (nn (logical (APrim p l v)))) as Hin.
  { apply In_nn. split; [|discriminate]. cbn [logical]. apply In_tab. exists i. split; [exact Hl|]. rewrite Hv. reflexivity. }
  specialize (S Hin). unfold vle in S. cbn [vcmp adtype] in S. unfold zkey in S. rewrite Hf in S. destruct (Z.compare_spec m (nth i l 0%Z)); try lia. destruct S; discriminate.
Qed.
Lemma for_value_bound p m shift x : is_unsigned p = true -> in_range p m -> in_range p x -> (m <= x)%Z ->
  (for_compress_value p m shift x * 2 ^ Z.of_nat shift + m <= x)%Z.
Proof.
  intros Hp Rm Rx H. assert (to_unsigned p = p) as Hu by (destruct p; cbn in *; congruence).
  unfold for_compress_value. rewrite Hu. pose proof (unsigned_range p m Hp) as Um. apply Um in Rm. pose proof (unsigned_range p x Hp) as Ux. apply Ux in Rx.
  assert (in_range p (x - m)) as Rd by (apply (unsigned_range p _ Hp); lia). rewrite (wrap_id p (x - m)) by exact Rd.
  destruct (Nat.ltb_spec 0 shift) as [Hs|Hs].
  - rewrite Z.shiftr_div_pow2 by lia. pose proof (Z.pow_pos_nonneg 2 (Z.of_nat shift) ltac:(lia) ltac:(lia)).
    assert (0 <= (x - m) / 2 ^ Z.of_nat shift <= x - m)%Z by (split; [apply Z.div_pos; lia|apply Z.div_le_upper_bound; nia]).
    rewrite wrap_id by (apply (unsigned_range p _ Hp); apply (unsigned_range p _ Hp) in Rd; lia).
    pose proof (Z.mul_div_le (x - m) (2 ^ Z.of_nat shift) ltac:(lia)). lia.
  - assert (shift = 0) as -> by lia. rewrite wrap_id by exact Rd. change (2 ^ Z.of_nat 0)%Z with 1%Z. lia.
Qed.
Lemma good_for `{md : mode} f p l v : wf g (APrim p l v) -> (Z.of_nat (length l) < pmax U64)%Z -> ok_on (length l) f -> good (do_for f) (APrim p l v).
Proof.
  intros W Hn Hf. unfold good, do_for. destruct (for_applies p l v) eqn:Ap; [|apply good_keep, W].
  unfold for_applies in Ap. apply andb_true_iff in Ap. destruct Ap as [Hi Ap].
  destruct (s_min (stats_after KMin (APrim p l v))) as [[nl [| |m| |]]|] eqn:Em; try discriminate Ap. clear Ap.
  destruct (min_least p l v nl m Hi W Em) as [NN Least].
  destruct (for_roundtrip p l v Hi W ltac:(generalize dependent (pmax U64); intros; lia) NN) as (r & E & Lr & Dr & _ & Wr).
  rewrite E. cbn [bind]. pose proof Wr as Wd. apply (wf_fle _ _ _ fle_dec) in Wr. pose proof (int_not_float p Hi) as Fl.
  assert (alen r = length l) as Al by (rewrite <- logical_length, Lr, logical_length; reflexivity).
  assert (forall b, same r b -> (ixl (APrim p l v) -> ixl r) -> same (APrim p l v) b) as Tr.
  { intros b (B1 & B2 & B3 & B4 & _) X. split; [exact B1|]. split; [congruence|]. split; [congruence|]. split; [auto|exact I]. }
  assert ((Z.of_nat (sbytes r) <= pmax I32)%Z) as Sr by (apply (sbytes_prim0 g); [exact Wr|left; rewrite Dr; reflexivity]).
  unfold for_compress in E. rewrite Em, Hi in E. destruct (trailing_zeros (APrim p l v) =? nbits p) eqn:Ez.
  - destruct (to_logical v (length l)) as [n|n|mm] eqn:Et.
    + injection E as <-. destruct (Hf _ Wr I I ltac:(lia) Sr) as (b & Eb & Sb). exists b. split; [exact Eb|]. apply Tr; [exact Sb|]. intros _. split; exact I.
    + injection E as <-. destruct (Hf _ Wr I I ltac:(lia) Sr) as (b & Eb & Sb). exists b. split; [exact Eb|]. apply Tr; [exact Sb|]. intros _. split; exact I.
    + cbv zeta in E. destruct (match map Z.of_nat (set_indices mm) with [] => true | _ :: _ => (last (map Z.of_nat (set_indices mm)) 0 <? Z.of_nat (length l))%Z end); [|discriminate E].
      injection E as <-. assert (input_ok (ASparse (APrim U64 (map Z.of_nat (set_indices mm)) VNonNull) (AConst (DPrim p (vnullable v)) (VInt 0) (length (map Z.of_nat (set_indices mm)))) 0 (length l) VNull)) as Ci.
      { cbn [input_ok]. split; [reflexivity|]. split; [apply int_no_neg_zero; reflexivity|]. split; [exact I|]. intros _. exact Wd. }
      destruct (Hf _ Wr Ci I ltac:(lia) Sr) as (b & Eb & Sb). exists b. split; [exact Eb|]. apply Tr; [exact Sb|]. intros (_ & _ & [->| ->]); discriminate Et.
  - injection E as <-. pose proof Wr as Wr'. cbn [wf] in Wr. destruct Wr as (We & _ & (nu & De) & Rm & Sh).
    set (e := APrim (to_unsigned p) (map (for_compress_value p m (trailing_zeros (APrim p l v))) l) v) in *.
    destruct (Hf e We) as (e' & Ee & (E1 & E2 & E3 & E4 & _)).
    { cbn [e input_ok]. apply int_no_neg_zero, to_unsigned_not_float, Hi. }
    { exact I. }
    { cbn [e alen]. rewrite map_length. lia. }
    { apply (sbytes_prim0 g); [exact We|left; reflexivity]. }
    rewrite Ee. cbn [bind]. unfold try_for. eexists. split; [reflexivity|].
    destruct (same_for p e e' m _ Wr' E1 E2 E3) as (S1 & S2 & S3). split; [exact S1|]. split; [rewrite S2; exact Lr|]. split; [rewrite S3; exact Dr|]. split; [|exact I].
    intros (_ & Hp & Hv). cbn [ss_ok]. split; [right; exact Hp|]. split.
    + intros z Hz. rewrite E2 in Hz. unfold ints in Hz. apply in_map_iff in Hz. destruct Hz as (y & <- & Hy). cbn [e logical] in Hy. rewrite map_length in Hy. apply In_tab in Hy.
      destruct Hy as (i & Hl & ->). assert (vvalid v i = true) as Vi by (destruct Hv as [->| ->]; reflexivity). rewrite Vi. cbn [vint].
      rewrite (map_nth_lt _ l 0%Z) by exact Hl. destruct W as [R _]. pose proof (Forall_nth_lt _ _ 0%Z i R Hl) as Ri.
      pose proof (for_value_bound p m (trailing_zeros (APrim p l v)) (nth i l 0%Z) Hp Rm Ri (Least i Hl Vi)). destruct Ri. lia.
    + apply E4. split; [exact I|]. cbn [e]. split; [destruct p; cbn in *; congruence|exact Hv].
Qed.

(** * ZigZag *)
Lemma good_zigzag `{md : mode} f p l v : wf g (APrim p l v) -> ok_on (length l) f -> good (do_zigzag f) (APrim p l v).
Proof.
  intros W Hf. unfold good, do_zigzag. destruct (zigzag_applies p l v) eqn:Ap; [|apply good_keep, W].
  unfold zigzag_applies in Ap. apply andb_true_iff in Ap. destruct Ap as [Hs _].
  destruct (zigzag_roundtrip p l v Hs W) as (e & E & L & D & Wz & (l' & -> & _)).
  rewrite E. cbn [bind]. specialize (Wz g ltac:(cbn; intuition discriminate)). pose proof Wz as Wz'. cbn [wf] in Wz. destruct Wz as (We & Du & _).
  assert (length l' = length l) as Ll.
  { pose proof (f_equal (@length value) L) as X. rewrite !logical_length in X. exact X. }
  destruct (Hf (APrim (to_unsigned p) l' v) We) as (e' & Ee & (E1 & E2 & E3 & _)).
  { cbn [input_ok]. apply int_no_neg_zero, to_unsigned_not_float. destruct p; cbn in *; congruence. }
  { exact I. }
  { cbn [alen]. lia. }
  { apply (sbytes_prim0 g); [exact We|left; reflexivity]. }
  rewrite Ee. cbn [bind]. unfold try_zigzag. rewrite E3. destruct Du as (q & nq & Dq & Uq). cbn [adtype] in Dq. injection Dq as Dq _.
  cbn [adtype is_uint]. rewrite Dq, Uq. eexists. split; [reflexivity|].
  destruct (same_zigzag _ e' Wz' E1 E2 E3) as (S1 & S2 & S3). split; [exact S1|]. split; [rewrite S2; exact L|]. split; [rewrite S3; exact D|]. split; [|exact I].
  intros (_ & Hp & _). destruct p; discriminate.
Qed.

(** * Bit-packing *)
Lemma best_go_bound len bpe freq : forall bw np bc best n, best <= n -> bw + length freq <= S n -> best_go len bpe bw np bc best freq <= n.
Proof.
  induction freq as [|x freq IH]; intros bw np bc best n H1 H2; [exact H1|]. cbn [best_go length] in *. cbv zeta.
  destruct (_ <? bc); apply IH; lia.
Qed.
Lemma find_bit_width_bound allow p freq bw n : find_bit_width allow p freq = Ok bw -> length freq = S n -> bw <= n.
Proof.
  unfold find_bit_width. destruct allow.
  - unfold best_bit_width. destruct (255 <? length freq); [discriminate|]. intros [= <-] L. apply best_go_bound; lia.
  - unfold min_patchless_bit_width. destruct freq as [|x r] eqn:E; [discriminate|]. rewrite <- E. intros [= <-] L. apply list_max_le. apply Forall_forall.
    intros k Hk. apply filter_In in Hk. destruct Hk as [Hk _]. apply in_seq in Hk. lia.
Qed.
Lemma good_bit `{md : mode} allow f p l v : wf g (APrim p l v) -> l <> [] -> (Z.of_nat (length l) < pmax U64)%Z -> ok_on (length l) f -> good (do_bit allow f) (APrim p l v).
Proof.
  intros W Ne Hn Hf. unfold good, do_bit. destruct (is_unsigned p) eqn:Hp; [|apply good_keep, W].
  destruct (s_bw (stats_after KBw (APrim p l v))) as [freq|] eqn:Eb; [|apply good_keep, W].
  destruct (find_bit_width allow p freq) as [bw| |] eqn:Ew; [|apply good_keep, W|apply good_keep, W].
  destruct (Nat.eqb_spec bw (nbits p)) as [_|Nb]; [apply good_keep, W|].
  assert (is_int p = true) as Hi by (apply is_unsigned_int, Hp).
  assert (bw < nbits p) as Hb.
  { pose proof (so_bw _ _ _ (stats_sound (APrim p l v) f0 KBw W (int_nice p (vnullable v) _ Hi))) as S. rewrite Eb in S. cbn [oall adtype ptype_of] in S. destruct S as [S _].
    pose proof (find_bit_width_bound _ _ _ _ (nbits p) Ew ltac:(lia)). lia. }
  destruct (bitpack_roundtrip p l v bw Hp W ltac:(generalize dependent (pmax U64); intros; lia) Ne Hb) as (r & E & Lr & Dr & _ & Wr).
  pose proof Wr as Wd. apply (wf_fle _ _ _ fle_dec) in Wr. unfold bitpack_encode in E. rewrite Eb, (proj2 (Nat.leb_gt _ _) Hb), (unsigned_not_float p Hp), Hp in E. cbv zeta in E. injection E as <-.
  assert (negb allow && (0 <? count_exceptions bw freq) = false) as ->.
  { destruct allow; [reflexivity|]. cbn [find_bit_width] in Ew. destruct (patchless_width_has_no_patches p l v freq bw Hp W Eb Ew) as [-> _]. reflexivity. }
  cbv zeta. set (packed := bitpack_primitive _ _) in *.
  set (q := if 0 <? count_exceptions bw freq then gather_patches p l v bw else None) in *.
  pose proof Wr as Wr'. cbn [wf] in Wr. destruct Wr as (_ & Wb & _ & Wl & Wp & Wv & Wq & _).
  assert (forall q', try_bitpacked p packed (Z.of_nat bw) 0 (length l) v q' =
    match q' with None => Ok (ABitPacked p packed (Z.of_nat bw) 0 (length l) v q')
    | Some a => if negb (alen a =? length l) then Err else match a with ASparse idx _ _ _ _ => if alen idx =? 0 then Err else Ok (ABitPacked p packed (Z.of_nat bw) 0 (length l) v q') | _ => Err end end) as TB.
  { intros q'. unfold try_bitpacked. rewrite Hp. cbn [negb]. destruct (Z.ltb_spec 64 (Z.of_nat bw)) as [H64|_]; [pose proof (proj1 (Z.leb_le (bits p) 64) ltac:(destruct p; reflexivity)); lia|].
    change (1023 <? 0) with false. cbv iota. rewrite (proj2 (Nat.eqb_eq _ _) Wl). rewrite (proj2 (vfits_vwf v (length l)) Wv). cbn [negb]. destruct q' as [a|]; [|reflexivity].
    destruct (negb (alen a =? length l)); [reflexivity|]. destruct a; reflexivity. }
  destruct q as [a|] eqn:Eq.
  - assert (gather_patches p l v bw = Some a) as QG by (unfold q in Eq; destruct (0 <? _); [exact Eq|discriminate]).
    destruct Wq as (Wa & La & Da & _ & Wsh). destruct W as [R Hv].
    pose proof (fun i => patch_positions_In p l v bw i Hp R Hb) as PI.
    unfold gather_patches in QG. cbv zeta in QG. set (idx := patch_positions p l v bw) in *. clearbody idx. destruct idx as [|i0 r0] eqn:Ei; [discriminate|]. rewrite <- Ei in *. injection QG as <-.
    destruct Wsh as (_ & Ni & NNv & _).
    destruct (Hf _ Wa) as (b & Ebb & (B1 & B2 & B3 & _ & (i & x & -> & Xi & Xv & Xd & Xs))).
    { cbn [input_ok]. split; [reflexivity|]. split; [apply int_no_neg_zero; reflexivity|]. split; [apply int_no_neg_zero, unsigned_not_float, Hp|]. intros _. cbn [wf] in Wd. destruct Wd as (_ & _ & _ & _ & _ & _ & (Wd & _) & _). exact Wd. }
    { cbn [adtype]. exact I. }
    { rewrite La. lia. }
    { apply (sbytes_prim0 g); [exact Wa|left; rewrite Da; reflexivity]. }
    rewrite Ebb. cbn [bind]. rewrite TB. pose proof (same_alen_ _ _ Xi) as Ali. cbn [alen] in *. rewrite Nat.eqb_refl. cbn [negb]. rewrite Ali. rewrite (proj2 (Nat.eqb_neq _ _) Ni).
    eexists. split; [reflexivity|].
    assert (logical (ABitPacked p packed (Z.of_nat bw) 0 (length l) v (Some (ASparse i x 0 (length l) VNull))) = logical (APrim p l v)) as LL.
    { rewrite <- Lr. cbn [logical]. cbn [logical] in B2. rewrite B2. reflexivity. }
    split; [|split; [exact LL|split; [reflexivity|split; [|exact I]]]].
    + cbn [wf] in Wr' |- *. change (sliceable g) with g in *. cbv zeta in *. rewrite !Ali. rewrite Xi, Xd, Xv. cbn [wf] in B1. change (sliceable g) with g in B1. cbv zeta in B1. rewrite !Ali, Xi, Xd, Xv in B1.
      split; [exact Hp|]. split; [exact Wb|]. split; [lia|]. split; [exact Wl|]. split; [exact Wp|]. split; [exact Wv|]. split; [|cbn; intuition discriminate].
      split; [exact B1|]. split; [reflexivity|]. split; [cbn [adtype]; cbn [adtype] in Xd; rewrite Xd; reflexivity|]. split; [cbn; discriminate|]. split; [reflexivity|]. split; [exact Ni|]. split; [exact NNv|]. exists true. reflexivity.
    + intros _. cbn [ss_ok]. split.
      * unfold patches_exact. rewrite Xi, Xv. split.
        -- rewrite logical_allvalid. unfold ints. rewrite map_map. cbn [vint]. rewrite map_id, Forall_map. apply Forall_forall. intros k Hk. apply PI in Hk. lia.
        -- rewrite logical_nonnull_ints. rewrite Forall_map. apply Forall_forall. intros k Hk. apply PI in Hk. rewrite Nat2Z.id, Nat.sub_0_r. tauto.
      * apply Xs. split; [exact I|]. cbn. auto.
  - cbn [bind]. rewrite TB. eexists. split; [reflexivity|]. split; [exact Wr'|]. split; [exact Lr|]. split; [exact Dr|]. split; [intros _; exact I|exact I].
Qed.
