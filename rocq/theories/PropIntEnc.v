(** Properties C09 (frame of reference), C10 (ZigZag), C11 (bit-packing): encoders round-trip. *)
From Verif Require Import Base Spec Arr ArrRead ArrWf ArrReadProofs ArrSlice ValidityModel PropValidity StatsModel StatsProofs
  StatsProofs2 StatsProofs3 PropStats IntEnc.

(** Class of arrays on which slicing and decoding are total and faithful. *)
Definition f_dec : flags := Flags true true true true true false false false false false.

(** * C10: ZigZag *)
Open Scope Z_scope.
Lemma bits_to_signed p : bits (to_signed p) = bits p.
Proof. destruct p; reflexivity. Qed.
Lemma signed_cases p : is_signed p = true -> pmin p = - 2 ^ (bits p - 1) /\ pmax p = 2 ^ (bits p - 1) - 1 /\
  is_signed (to_unsigned p) = false /\ is_unsigned (to_unsigned p) = true /\ to_signed (to_unsigned p) = p.
Proof. intros H. unfold pmin, pmax. rewrite H. destruct p; try discriminate H; repeat split; reflexivity. Qed.
Lemma lxor_m1 a : Z.lxor a (-1) = - a - 1.
Proof. rewrite Z.lxor_m1_r. unfold Z.lnot. lia. Qed.
Lemma shiftr_sign w z : 0 < w -> - 2 ^ w <= z < 2 ^ w -> Z.shiftr z w = if 0 <=? z then 0 else -1.
Proof.
  intros Hw Hz. rewrite Z.shiftr_div_pow2 by lia. assert (0 < 2 ^ w) by (apply Z.pow_pos_nonneg; lia).
  destruct (Z.leb_spec 0 z).
  - apply Z.div_small; lia.
  - symmetry. apply Z.div_unique with (r := z + 2 ^ w); lia.
Qed.
Lemma zz_enc_spec p z : is_signed p = true -> in_range p z -> zz_enc p z = zz_encode z.
Proof.
  intros S R. destruct (signed_cases p S) as (E1 & E2 & E3 & _). unfold in_range in R. rewrite E1, E2 in R.
  pose proof (bits_pos p). pose proof (pow2_split (bits p) ltac:(lia)) as P2.
  unfold zz_enc, zz_encode. rewrite shiftr_sign by lia. rewrite Z.shiftl_mul_pow2 by lia. change (2 ^ 1) with 2.
  assert (forall a b, a mod 2 ^ bits p = b mod 2 ^ bits p -> 0 <= b < 2 ^ bits p -> wrap (to_unsigned p) a = b) as W.
  { intros a b Hab Hb. unfold wrap, wrapu. rewrite E3, bits_to_unsigned, Hab. apply Z.mod_small, Hb. }
  destruct (Z.leb_spec 0 z).
  - rewrite Z.lxor_0_r. apply W; [|lia]. rewrite wrap_mod. f_equal. lia.
  - rewrite lxor_m1. apply W; [|lia].
    replace (- wrap p (z * 2) - 1) with (-1 - wrap p (z * 2)) by lia.
    rewrite Zminus_mod, wrap_mod, <- Zminus_mod. f_equal. lia.
Qed.
Lemma zz_dec_spec p z : is_signed p = true -> 0 <= z < 2 ^ bits p -> zz_dec p z = zz_decode z.
Proof.
  intros S R. destruct (signed_cases p S) as (E1 & E2 & E3 & _).
  pose proof (bits_pos p). pose proof (pow2_split (bits p) ltac:(lia)) as P2.
  unfold zz_dec, zz_decode. rewrite Z.shiftr_div_pow2 by lia. change (2 ^ 1) with 2.
  assert (wrap p (z / 2) = z / 2) as -> by (apply wrap_id; unfold in_range; rewrite E1, E2; split; [lia|]; pose proof (Z.div_lt_upper_bound z 2 (2 ^ (bits p - 1))); lia).
  replace (Z.land z 1) with (z mod 2) by (symmetry; apply (Z.land_ones z 1); lia).
  rewrite Zmod_even. destruct (Z.even z).
  - change (- 0) with 0. rewrite wrap_id by (unfold in_range; rewrite E1, E2; lia). apply Z.lxor_0_r.
  - change (- (1)) with (-1). rewrite wrap_id by (unfold in_range; rewrite E1, E2; lia). apply lxor_m1.
Qed.
Lemma zz_inv z : zz_decode (zz_encode z) = z.
Proof.
  unfold zz_decode, zz_encode. destruct (Z.leb_spec 0 z).
  - replace (Z.even (2 * z)) with true by (rewrite Z.even_mul; reflexivity).
    rewrite Z.mul_comm, Z.div_mul by lia. reflexivity.
  - replace (Z.even (-2 * z - 1)) with false.
    + replace (-2 * z - 1) with (1 + (- z - 1) * 2) by lia. rewrite Z.div_add by lia. change (1 / 2) with 0. lia.
    + replace (-2 * z - 1) with (1 + 2 * (- z - 1)) by lia. rewrite Z.even_add_mul_2. reflexivity.
Qed.
Lemma zz_encode_range p z : is_signed p = true -> in_range p z -> 0 <= zz_encode z < 2 ^ bits p.
Proof.
  intros S R. destruct (signed_cases p S) as (E1 & E2 & _). unfold in_range in R. rewrite E1, E2 in R.
  pose proof (bits_pos p). pose proof (pow2_split (bits p) ltac:(lia)) as P2.
  unfold zz_encode. destruct (Z.leb_spec 0 z); lia.
Qed.
Close Scope Z_scope.

Lemma unsigned_of_signed_range p z : is_signed p = true -> (0 <= z < 2 ^ bits p)%Z -> in_range (to_unsigned p) z.
Proof.
  intros S R. destruct (signed_cases p S) as (_ & _ & E3 & _). unfold in_range, pmin, pmax.
  rewrite E3, bits_to_unsigned. lia.
Qed.

(** Logical contents of a primitive array after mapping its values. *)
Lemma logical_prim_map (h : value -> value) p q l v g :
  h VNull = VNull -> (forall z, In z l -> h (VInt (g z)) = VInt z) ->
  map h (logical (APrim q (map g l) v)) = logical (APrim p l v).
Proof.
  intros H0 H. cbn [logical]. rewrite map_length. unfold tab. rewrite map_map. apply map_ext_in. intros i Hi.
  apply in_seq in Hi. destruct (vvalid v i); [|exact H0].
  rewrite (map_nth_lt g l 0%Z) by lia. apply H. apply nth_In. lia.
Qed.

Theorem zigzag_roundtrip :
  forall p l v, is_signed p = true -> wf f0 (APrim p l v) ->
  exists e, zigzag_encode p l v = Ok (AZigZag e) /\
    logical (AZigZag e) = logical (APrim p l v) /\ adtype (AZigZag e) = adtype (APrim p l v) /\
    (forall f, (fT f = true \/ fN f = true \/ fF f = true -> fC f = true) -> wf f (AZigZag e)) /\
    exists l', e = APrim (to_unsigned p) l' v /\ zigzag_decode (to_unsigned p) l' v = Ok (APrim p l v).
Proof.
  intros p l v S [R Hw]. pose proof (signed_cases p S) as (_ & _ & E3 & E4 & E5).
  unfold zigzag_encode. rewrite S. eexists. split; [reflexivity|].
  rewrite Forall_forall in R.
  split; [|split; [|split]].
  - apply (logical_prim_map (fun x => match x with VInt z => VInt (zz_decode z) | _ => VNull end) p (to_unsigned p) l v (zz_enc p)).
    + reflexivity.
    + intros z Hz. rewrite zz_enc_spec, zz_inv by auto. reflexivity.
  - cbn [adtype]. rewrite E5. reflexivity.
  - intros f Hf. cbn [wf]. split; [split|split].
    + apply Forall_forall. intros y Hy. apply in_map_iff in Hy. destruct Hy as (z & <- & Hz).
      rewrite zz_enc_spec by auto. apply unsigned_of_signed_range; [exact S|]. apply zz_encode_range; auto.
    + rewrite map_length. exact Hw.
    + cbn [adtype]. eexists; eexists. split; [reflexivity|exact E4].
    + exact Hf.
  - eexists. split; [reflexivity|]. unfold zigzag_decode. rewrite E4, E5, map_map. do 2 f_equal.
    rewrite <- (map_id l) at 2. apply map_ext_in. intros z Hz.
    rewrite zz_enc_spec by auto. rewrite zz_dec_spec by (try apply zz_encode_range; auto). apply zz_inv.
Qed.
Print Assumptions zigzag_roundtrip.

(** The scalar codec at every value, extremes included: the encoding is injective and onto the unsigned range. *)
Theorem zigzag_bijective :
  forall p, is_signed p = true ->
  (forall z, in_range p z -> in_range (to_unsigned p) (zz_enc p z) /\ zz_dec p (zz_enc p z) = z) /\
  (forall u, in_range (to_unsigned p) u -> in_range p (zz_dec p u) /\ zz_enc p (zz_dec p u) = u).
Proof.
  intros p S. pose proof (signed_cases p S) as (E1 & E2 & E3 & E4 & E5). pose proof (bits_pos p).
  pose proof (pow2_split (bits p) ltac:(lia)) as P2. split.
  - intros z R. rewrite zz_enc_spec by auto. pose proof (zz_encode_range p z S R) as B.
    split; [apply unsigned_of_signed_range; auto|]. rewrite zz_dec_spec by auto. apply zz_inv.
  - intros u R. assert (0 <= u < 2 ^ bits p)%Z as B.
    { unfold in_range, pmin, pmax in R. rewrite E3, bits_to_unsigned in R. lia. }
    rewrite zz_dec_spec by auto.
    pose proof (zz_decode_range (to_unsigned p) u E4 R) as D. rewrite E5 in D. split; [exact D|].
    rewrite zz_enc_spec by auto. pose proof (Z.div_mod u 2 ltac:(lia)) as Du. rewrite Zmod_even in Du.
    assert (0 <= u / 2)%Z by (apply Z.div_pos; lia).
    unfold zz_decode, zz_encode. destruct (Z.even u) eqn:Ev.
    + destruct (Z.leb_spec 0 (u / 2)); lia.
    + destruct (Z.leb_spec 0 (- (u / 2) - 1)); lia.
Qed.
Print Assumptions zigzag_bijective.
Theorem zigzag_rejects_other_types :
  forall p l v, is_signed p = false -> zigzag_encode p l v = Err.
Proof. intros p l v S. unfold zigzag_encode. rewrite S. reflexivity. Qed.
Print Assumptions zigzag_rejects_other_types.
Example ex_zigzag : zigzag_encode I8 [-128; 127; 0; -1]%Z (VBits [true; true; false; true]) =
  Ok (AZigZag (APrim U8 [255; 254; 0; 1]%Z (VBits [true; true; false; true]))).
Proof. reflexivity. Qed.

(** * C09: frame of reference *)
Lemma int_not_float p : is_int p = true -> is_float p = false.
Proof. destruct p; cbn; congruence. Qed.
Lemma int_nice p n L : is_int p = true -> Forall (nice (DPrim p n)) L.
Proof.
  intros H. apply Forall_forall. intros x _. destruct x; cbn; auto. intros Hf. rewrite (int_not_float p H) in Hf. discriminate.
Qed.
Lemma first_pos_spec l :
  match first_pos l with
  | Some k => k < length l /\ forall j, j < k -> nth j l 0 = 0
  | None => True
  end.
Proof.
  induction l as [|x l IH]; [exact I|]. cbn [first_pos]. destruct (Nat.ltb_spec 0 x) as [Hx|Hx].
  - split; [cbn; lia|]. intros; lia.
  - destruct (first_pos l) as [k|]; [|exact I]. destruct IH as [IH1 IH2]. split; [cbn; lia|].
    intros [|j] Hj; cbn; [lia|]. apply IH2. lia.
Qed.
Lemma tz_divides p z : is_int p = true -> (2 ^ Z.of_nat (trailing_zeros_z p z) | z)%Z.
Proof.
  intros Hp. unfold trailing_zeros_z. rewrite (int_not_float p Hp). destruct z as [|q|q].
  - apply Z.divide_0_r.
  - apply ctz_pos_pow.
  - change (Z.neg q) with (- Z.pos q)%Z. apply Z.divide_opp_r, ctz_pos_pow.
Qed.
Lemma tz_full p z : is_int p = true -> in_range p z -> nbits p <= trailing_zeros_z p z -> z = 0%Z.
Proof.
  intros Hp R H. unfold trailing_zeros_z in H. rewrite (int_not_float p Hp) in H. unfold nbits in H.
  unfold in_range, pmin, pmax in R. pose proof (pow2_split (bits p)) as Hs. pose proof (bits_pos p).
  assert (0 < 2 ^ (bits p - 1))%Z by (apply Z.pow_pos_nonneg; lia).
  destruct z as [|q|q]; [reflexivity| |]; exfalso.
  - assert (Z.of_nat (ctz_pos q) < bits p)%Z by (apply ctz_le; [lia|]; destruct (is_signed p); lia). lia.
  - assert (Z.of_nat (ctz_pos q) < bits p)%Z by (apply ctz_le; [lia|]; destruct (is_signed p); lia). lia.
Qed.

(** The common shift divides every non-null value. *)
Lemma shift_spec p l v : is_int p = true -> Forall (in_range p) l -> vwf v (length l) ->
  trailing_zeros (APrim p l v) <= nbits p /\
  forall z, In (VInt z) (logical (APrim p l v)) -> trailing_zeros (APrim p l v) <= trailing_zeros_z p z.
Proof.
  intros Hp R Hw.
  assert (wf f0 (APrim p l v)) as Wf by (split; assumption).
  pose proof (stats_sound (APrim p l v) f0 KTz Wf (int_nice p _ _ Hp)) as S. apply so_tz in S.
  unfold trailing_zeros. destruct (s_tz (stats_after KTz (APrim p l v))) as [h|]; [|split; [lia|intros; lia]].
  cbn [oall ptype_of adtype] in S. destruct S as [HL HC]. pose proof (first_pos_spec h) as F.
  destruct (first_pos h) as [k|]; [|split; [lia|intros; lia]]. destruct F as [F1 F2]. split; [lia|].
  intros z Hz. destruct (Nat.le_gt_cases k (trailing_zeros_z p z)) as [|Hlt]; [assumption|exfalso].
  specialize (HC (trailing_zeros_z p z) ltac:(lia)). rewrite (F2 _ Hlt) in HC.
  assert (count (fun x => negb (is_null x) && (trailing_zeros_z p (vint x) =? trailing_zeros_z p z)) (logical (APrim p l v)) = 0) as C0 by lia.
  apply (count_zero _ _ C0) in Hz. cbn in Hz. rewrite Nat.eqb_refl in Hz. discriminate.
Qed.

Lemma for_value_roundtrip p z m s :
  is_int p = true -> in_range p z -> in_range p m -> (Z.of_nat s < bits p)%Z ->
  (2 ^ Z.of_nat s | z)%Z -> (2 ^ Z.of_nat s | m)%Z ->
  for_decode p m (Z.of_nat s) (for_compress_value p m s z) = z.
Proof.
  intros Hp Rz Rm Hs Dz Dm. unfold for_decode, for_compress_value.
  pose proof (bits_pos p) as Hb. set (b := bits p) in *. set (S := Z.of_nat s) in *.
  assert (0 < 2 ^ S)%Z as PS by (apply Z.pow_pos_nonneg; lia).
  assert (0 < 2 ^ b)%Z as PB by (apply Z.pow_pos_nonneg; lia).
  assert (2 ^ S | 2 ^ b)%Z as DB by (exists (2 ^ (b - S))%Z; rewrite <- Z.pow_add_r by lia; f_equal; lia).
  set (d := wrap p (z - m)).
  assert (2 ^ S | d)%Z as Dd.
  { pose proof (wrap_mod p (z - m)) as E. fold b in E. fold d in E.
    assert (2 ^ S | z - m)%Z as Dzm by (apply Z.divide_sub_r; assumption).
    pose proof (Z.div_mod d (2 ^ b) ltac:(lia)) as E2. pose proof (Z.div_mod (z - m) (2 ^ b) ltac:(lia)) as E3.
    replace d with (z - m + 2 ^ b * (d / 2 ^ b - (z - m) / 2 ^ b))%Z by lia.
    apply Z.divide_add_r; [exact Dzm|]. apply Z.divide_mul_l. exact DB. }
  set (e := if 0 <? s then Z.shiftr d S else d).
  assert (Z.shiftl e S = d) as Ed.
  { unfold e. destruct (Nat.ltb_spec 0 s).
    - rewrite Z.shiftr_div_pow2, Z.shiftl_mul_pow2 by lia. destruct Dd as [c ->]. rewrite Z.div_mul by lia. reflexivity.
    - replace S with 0%Z by lia. apply Z.shiftl_0_r. }
  transitivity (wrap p z); [|apply wrap_id; exact Rz]. apply wrap_eq. fold b.
  rewrite Zplus_mod, wrap_mod. fold b.
  assert (Z.shiftl (wrap (to_unsigned p) e) S mod 2 ^ b = d mod 2 ^ b)%Z as E1.
  { rewrite <- Ed. rewrite !Z.shiftl_mul_pow2 by lia. rewrite Zmult_mod.
    pose proof (wrap_mod (to_unsigned p) e) as W. rewrite bits_to_unsigned in W. fold b in W. rewrite W.
    rewrite <- Zmult_mod. reflexivity. }
  rewrite E1. unfold d. rewrite wrap_mod. fold b. rewrite <- Zplus_mod. f_equal. lia.
Qed.

Lemma in_logical_prim p l v i : i < length l -> vvalid v i = true -> In (VInt (nth i l 0%Z)) (logical (APrim p l v)).
Proof. intros Hi Hv. cbn [logical]. apply In_tab. exists i. rewrite Hv. auto. Qed.

Lemma for_min p l v : is_int p = true -> Forall (in_range p) l -> vwf v (length l) ->
  nn (logical (APrim p l v)) <> [] ->
  exists m, s_min (stats_after KMin (APrim p l v)) = Some (false, VInt m) /\ In (VInt m) (logical (APrim p l v)) /\
            in_range p m.
Proof.
  intros Hp R Hw NE. destruct (prim_stats_exact p l v R Hw NE) as (_ & _ & _ & _ & (m & E & L) & _).
  cbn [stats_after]. unfold is_least in L. destruct (nn (logical (APrim p l v))) as [|y r] eqn:En; [congruence|].
  destruct L as [L _]. rewrite <- En in L. apply In_nn in L. destruct L as [L1 L2].
  pose proof (vtyped_logical (APrim p l v) f0 (conj R Hw)) as T. rewrite Forall_forall in T. pose proof (T _ L1) as Tm.
  cbn [adtype] in Tm. apply vtyped_prim in Tm. destruct Tm as [|(z & -> & Rz)]; [congruence|].
  exists z. auto.
Qed.

Lemma nth_set_indices_nth_error m i : In i (set_indices m) <-> i < length m /\ nth i m false = true.
Proof. unfold set_indices. rewrite filter_In, in_seq. intuition lia. Qed.
Lemma ssorted_filter_seq (f : nat -> bool) a n : ssortedZ (map Z.of_nat (filter f (seq a n))).
Proof.
  revert a; induction n as [|n IH]; intros a; [exact I|]. cbn [seq filter]. destruct (f a); [|apply IH].
  cbn [map ssortedZ]. split; [|apply IH].
  intros y Hy. apply in_map_iff in Hy. destruct Hy as (k & <- & Hk). apply filter_In in Hk. destruct Hk as [Hk _].
  apply in_seq in Hk. lia.
Qed.
Lemma pos_of_In z l : In z l -> exists k, pos_of z l = Some k /\ k < length l.
Proof.
  intros H. destruct (pos_of z l) eqn:E; [apply pos_of_some in E; destruct E; eauto|].
  apply pos_of_none in E. contradiction.
Qed.

Lemma nth_repeat_lt {A} (x : A) n i d : i < n -> nth i (repeat x n) d = x.
Proof. revert i; induction n as [|n IH]; intros [|i] H; cbn; try lia; [reflexivity|]. apply IH. lia. Qed.
Lemma nn_all_null l : (forall x, In x l -> x = VNull) -> nn l = [].
Proof.
  intros H. unfold nn. induction l as [|x l IH]; [reflexivity|]. cbn [filter]. rewrite (H x) by (left; reflexivity). cbn.
  apply IH. intros y Hy. apply H. right. exact Hy.
Qed.
Lemma to_logical_bits v n m : to_logical v n = LBits m -> v = VBits m.
Proof.
  destruct v as [| | |l]; cbn; try discriminate. destruct l as [|b l]; [intros [= <-]; reflexivity|].
  destruct (forallb id (b :: l)); [discriminate|]. destruct (negb (existsb id (b :: l))); [discriminate|]. intros [= <-]. reflexivity.
Qed.
Lemma in_range_zero p : in_range p 0.
Proof.
  unfold in_range, pmin, pmax. pose proof (bits_pos p).
  assert (0 < 2 ^ (bits p - 1))%Z by (apply Z.pow_pos_nonneg; lia). pose proof (pow2_split (bits p)). destruct (is_signed p); lia.
Qed.

(** A patch-like sparse array: strictly increasing u64 positions inside the array, non-null primitive values, null fill. *)
Lemma wf_sparse_patch (f : flags) idx vals p w n :
  (fT f = false /\ fN f = false /\ fF f = false) ->
  ssortedZ idx -> Forall (fun z => (0 <= z < Z.of_nat n)%Z) idx -> (Z.of_nat n <= pmax U64)%Z ->
  length idx = alen vals -> wf (sliceable f) vals -> adtype vals = DPrim p w -> w = true -> non_null (logical vals) ->
  wf f (ASparse (APrim U64 idx VNonNull) vals 0 n VNull).
Proof.
  intros (F1 & F2 & F3) SI BI Hn Hl Wv Dv -> NN. cbn [wf].
  assert (ints (logical (APrim U64 idx VNonNull)) = idx) as EI.
  { unfold ints. cbn [logical vvalid]. unfold tab. rewrite map_map. cbn [vint].
    apply (nth_ext_len _ _ 0%Z); [rewrite map_length, seq_length; reflexivity|].
    rewrite map_length, seq_length. intros i Hi. rewrite (map_nth_lt _ _ 0) by (rewrite seq_length; lia).
    rewrite seq_nth by lia. reflexivity. }
  rewrite EI. split.
  { split; [|exact I]. eapply Forall_impl; [|exact BI]. intros z Hz. unfold in_range. change (pmin U64) with 0%Z.
    cbv beta in Hz. revert Hn. generalize (pmax U64). intros; lia. }
  split; [exact Wv|]. split; [reflexivity|]. split; [exact Hl|]. split; [split; [exact I|intros _ z; discriminate]|]. split; [exact SI|].
  split; [eapply Forall_impl; [|exact BI]; intros z Hz; cbv beta in Hz |- *; lia|].
  split; [exact Hn|]. rewrite Dv. split; [reflexivity|]. split; [reflexivity|].
  split; [intros _; split; [reflexivity|]; left; split; [reflexivity|exact NN]|].
  split; [intros _ _; split; [reflexivity|exact NN]|].
  rewrite F1, F2, F3. intros [H|[H|H]]; discriminate H.
Qed.

Theorem for_roundtrip :
  forall p l v, is_int p = true -> wf f0 (APrim p l v) -> (Z.of_nat (length l) <= pmax U64)%Z ->
  nn (logical (APrim p l v)) <> [] ->
  exists r, for_compress p l v = Ok r /\
    logical r = logical (APrim p l v) /\ adtype r = adtype (APrim p l v) /\ wf f0 r /\ wf f_dec r.
Proof.
  intros p l v Hp [R Hw] Hlen NE.
  destruct (for_min p l v Hp R Hw NE) as (m & Em & Im & Rm).
  destruct (shift_spec p l v Hp R Hw) as [S1 S2].
  set (A := APrim p l v) in *. set (s := trailing_zeros A) in *.
  unfold for_compress. fold A. fold s. rewrite Em, Hp.
  destruct (Nat.eqb_spec s (nbits p)) as [Es|Ns].
  - assert (forall z, In (VInt z) (logical A) -> z = 0%Z) as Z0.
    { intros z Hz. apply (tz_full p); [exact Hp| |rewrite <- Es; apply S2, Hz].
      pose proof (vtyped_logical A f0 (conj R Hw)) as T. rewrite Forall_forall in T. apply T in Hz. exact Hz. }
    pose proof (validity_to_logical v (length l) Hw) as [HL HB].
    destruct (to_logical v (length l)) as [n|n|ms] eqn:TL; cbn [llen lbuf] in HL, HB.
    + subst n. eexists. split; [reflexivity|]. split; [|split; [reflexivity|]].
      * cbn [logical]. change (repeat (VInt 0) (length l) = logical A).
        apply (nth_ext_len _ _ VNull); [rewrite repeat_length, logical_length; reflexivity|].
        rewrite repeat_length. intros i Hi. rewrite nth_repeat_lt by exact Hi.
        assert (vvalid v i = true) as Hv.
        { rewrite <- (nth_vbits v (length l) i false) by exact Hi. rewrite <- HB. rewrite nth_repeat_lt by exact Hi. reflexivity. }
        unfold A. cbn [logical]. rewrite nth_tab by exact Hi. rewrite Hv. f_equal. symmetry. apply Z0.
        apply in_logical_prim; assumption.
      * cbn [wf f0 f_dec fC vtyped]. assert (in_range p 0) by (unfold in_range, pmin, pmax; pose proof (bits_pos p);
          assert (0 < 2 ^ (bits p - 1))%Z by (apply Z.pow_pos_nonneg; lia); pose proof (pow2_split (bits p)); destruct (is_signed p); lia).
        split; (split; [assumption|]); [discriminate|]. intros _. split; [reflexivity|discriminate].
    + exfalso. subst n. apply NE. apply nn_all_null. intros x Hx. unfold A in Hx. cbn [logical] in Hx. apply In_tab in Hx.
      destruct Hx as (i & Hi & ->).
      assert (vvalid v i = false) as ->; [|reflexivity].
      rewrite <- (nth_vbits v (length l) i false) by exact Hi. rewrite <- HB. rewrite nth_repeat_lt by exact Hi. reflexivity.
    + set (idx := map Z.of_nat (set_indices ms)).
      assert (forall i, In (Z.of_nat i) idx <-> i < length l /\ vvalid v i = true) as II.
      { intros i. unfold idx. rewrite in_map_iff. split.
        - intros (j & E & Hj). apply nth_set_indices_nth_error in Hj. assert (j = i) by lia. subst j.
          split; [lia|]. destruct Hj as [Hj1 Hj2]. rewrite <- (nth_vbits v (length l) i false) by lia. rewrite <- HB. exact Hj2.
        - intros [Hi Hv]. exists i. split; [reflexivity|]. apply nth_set_indices_nth_error. split; [lia|].
          rewrite HB, nth_vbits by lia. exact Hv. }
      assert (ssortedZ idx) as SI by apply ssorted_filter_seq.
      assert (Forall (fun z => (0 <= z < Z.of_nat (length l))%Z) idx) as BI.
      { apply Forall_forall. intros z Hz. unfold idx in Hz. apply in_map_iff in Hz. destruct Hz as (j & <- & Hj).
        apply nth_set_indices_nth_error in Hj. lia. }
      assert ((match idx with [] => true | _ => (last idx 0 <? Z.of_nat (length l))%Z end) = true) as ->.
      { destruct idx as [|z0 r0] eqn:Ei; [reflexivity|]. rewrite <- Ei in *. apply Z.ltb_lt.
        rewrite last_nth. rewrite Forall_forall in BI. apply BI. apply nth_In. rewrite Ei. cbn. lia. }
      eexists. split; [reflexivity|].
      assert (vnullable v = true) as Nv by (rewrite (to_logical_bits _ _ _ TL); reflexivity).
      rewrite Nv. split; [|split; [cbn [adtype]; unfold A; cbn [adtype]; rewrite Nv; reflexivity|]].
      * cbn [logical]. assert (ints (logical (APrim U64 idx VNonNull)) = idx) as EI.
        { unfold ints. cbn [logical vvalid]. unfold tab. rewrite map_map. cbn [vint].
          apply (nth_ext_len _ _ 0%Z); [rewrite map_length, seq_length; reflexivity|].
          rewrite map_length, seq_length. intros i Hi. rewrite (map_nth_lt _ _ 0) by (rewrite seq_length; lia).
          rewrite seq_nth by lia. reflexivity. }
        cbn [logical] in EI. rewrite EI. unfold A. cbn [logical]. apply tab_ext. intros i Hi. cbn [Nat.add].
        destruct (vvalid v i) eqn:Hv.
        -- destruct (pos_of_In (Z.of_nat i) idx) as (k & -> & Hk); [apply II; auto|].
           rewrite nth_repeat_lt by exact Hk. f_equal. symmetry. apply Z0. apply in_logical_prim; assumption.
        -- assert (pos_of (Z.of_nat i) idx = None) as ->; [|reflexivity]. apply pos_of_none. rewrite II. intros [_ E]. congruence.
      * split; apply (wf_sparse_patch _ idx _ p true); auto;
          try (split; [|split]; reflexivity);
          try (cbn [wf vtyped]; split; [apply in_range_zero|intros _; split; [reflexivity|discriminate]]);
          try (unfold non_null; cbn [logical]; apply Forall_forall; intros x Hx; apply repeat_spec in Hx; subst x; discriminate).
  - assert (forall z, In (VInt z) (logical A) -> (2 ^ Z.of_nat s | z)%Z) as DV.
    { intros z Hz. eapply Z.divide_trans; [|apply (tz_divides p z Hp)]. specialize (S2 z Hz).
      exists (2 ^ (Z.of_nat (trailing_zeros_z p z) - Z.of_nat s))%Z. rewrite <- Z.pow_add_r by lia. f_equal. lia. }
    assert (Z.of_nat s < bits p)%Z as Hs by (pose proof (bits_pos p); unfold nbits in *; lia).
    eexists. split; [reflexivity|]. split; [|split; [reflexivity|]].
    + unfold A. cbn [logical]. rewrite map_length. unfold tab. rewrite map_map. apply map_ext_in. intros i Hi. apply in_seq in Hi.
      destruct (vvalid v i) eqn:Hv; [|reflexivity]. rewrite (map_nth_lt _ l 0%Z) by lia. f_equal.
      rewrite Forall_forall in R. apply for_value_roundtrip; auto.
      * apply R, nth_In. lia.
      * apply DV. apply in_logical_prim; [lia|exact Hv].
    + assert (Forall (in_range (to_unsigned p)) (map (for_compress_value p m s) l)) as RU.
      { apply Forall_forall. intros y Hy. apply in_map_iff in Hy. destruct Hy as (z & <- & _). apply wrap_in_range. }
      split; (cbn [wf]; split; [split; [exact RU|rewrite map_length; exact Hw]|]; split; [exact Hp|];
        split; [exists (vnullable v); reflexivity|]; split; [exact Rm|lia]).
Qed.
Print Assumptions for_roundtrip.

(** The decompressor computes the meaning of a frame-of-reference array, for any child values. *)
Theorem for_decompress_is_logical :
  forall p enc v ref s,
  logical (for_decompress p enc v ref s) = logical (AFoR p (APrim (to_unsigned p) enc v) ref (Z.of_nat s)) /\
  adtype (for_decompress p enc v ref s) = adtype (AFoR p (APrim (to_unsigned p) enc v) ref (Z.of_nat s)).
Proof.
  intros p enc v ref s. split; [|reflexivity].
  assert (for_decompress p enc v ref s = APrim p (map (for_decode p ref (Z.of_nat s)) enc) v) as ->.
  { unfold for_decompress. f_equal. destruct (Nat.ltb_spec 0 s); rewrite !map_map; apply map_ext; intros z; unfold for_decode.
    - f_equal. f_equal. apply wrap_eq. rewrite !Z.shiftl_mul_pow2 by lia. rewrite Zmult_mod, wrap_mod, <- Zmult_mod. reflexivity.
    - replace s with 0 by lia. change (Z.of_nat 0) with 0%Z. rewrite Z.shiftl_0_r. reflexivity. }
  cbn [logical]. rewrite map_length. unfold tab. rewrite map_map. apply map_ext_in. intros i Hi. apply in_seq in Hi.
  destruct (vvalid v i); [|reflexivity]. rewrite (map_nth_lt _ enc 0%Z) by lia. reflexivity.
Qed.
Print Assumptions for_decompress_is_logical.

(** Empty and all-null arrays are rejected. *)
Theorem for_compress_without_values :
  forall p l v, is_int p = true -> wf f0 (APrim p l v) -> nn (logical (APrim p l v)) = [] -> for_compress p l v = Err.
Proof.
  intros p l v Hp [R Hw] N. unfold for_compress. rewrite Hp.
  destruct (prim_stats_cases p l v R Hw) as [[E1 _]|[[[n E1] L]|(c & Hc & E1)]].
  - cbn [stats_after]. rewrite E1. reflexivity.
  - unfold trailing_zeros. cbn [stats_after]. rewrite E1. cbn [nulls_stats s_min s_tz].
    assert (first_pos (repeat (nbits p) (nbits p + 1)) = Some 0) as -> by (destruct p; reflexivity).
    assert (0 =? nbits p = false) as -> by (destruct p; reflexivity). reflexivity.
  - destruct Hc as [[[pre K] _ _ _ _ _] _ _ _ _ _ _ _]. rewrite N in K. destruct pre; discriminate.
Qed.
Print Assumptions for_compress_without_values.

(** Full signed range with a shift, a null with garbage underneath. *)
Example ex_for : for_compress I8 [-128; 124; 3; 0]%Z (VBits [true; true; false; true]) =
  Ok (AFoR I8 (APrim U8 [0; 255; 224; 224]%Z (VBits [true; true; false; true])) (-128) 2).
Proof. vm_compute. reflexivity. Qed.
Example ex_for_hyps : wf f0 (APrim I8 [-128; 124; 3; 0]%Z (VBits [true; true; false; true])) /\
  nn (logical (APrim I8 [-128; 124; 3; 0]%Z (VBits [true; true; false; true]))) <> [].
Proof. split; [cbn; split; [repeat constructor; cbn; lia|reflexivity]|discriminate]. Qed.
Example ex_for_zero : for_compress U16 [0; 7; 0]%Z (VBits [true; false; true]) =
  Ok (ASparse (APrim U64 [0; 2]%Z VNonNull) (AConst (DPrim U16 true) (VInt 0) 2) 0 3 VNull).
Proof. vm_compute. reflexivity. Qed.

(** * C11: bit-packing *)
Lemma firstn_plus {A} n m (x : list A) : firstn (n + m) x = firstn n x ++ firstn m (skipn n x).
Proof.
  revert x; induction n as [|n IH]; intros x; [reflexivity|]. destruct x as [|y x]; cbn [Nat.add firstn skipn app].
  - rewrite firstn_nil. reflexivity.
  - rewrite IH. reflexivity.
Qed.
Lemma skipn_plus {A} n m (x : list A) : skipn m (skipn n x) = skipn (n + m) x.
Proof.
  revert x; induction n as [|n IH]; intros x; [reflexivity|]. destruct x as [|y x]; cbn [Nat.add skipn]; [apply skipn_nil|apply IH].
Qed.
Lemma lslice_cat {A} (l : list A) a b c : a <= b -> b <= c -> lslice l a b ++ lslice l b c = lslice l a c.
Proof.
  intros H1 H2. unfold lslice. replace (c - a) with ((b - a) + (c - b)) by lia. rewrite firstn_plus, skipn_plus.
  replace (a + (b - a)) with b by lia. reflexivity.
Qed.
Lemma concat_blocks {A} (l : list A) B a n :
  concat (map (fun i => lslice l (i * B) (i * B + B)) (seq a n)) = lslice l (a * B) ((a + n) * B).
Proof.
  revert a; induction n as [|n IH]; intros a.
  - cbn [seq map concat]. rewrite lslice_nil by nia. reflexivity.
  - cbn [seq map concat]. rewrite IH. replace (S a * B) with (a * B + B) by lia.
    rewrite lslice_cat by nia. f_equal. lia.
Qed.
Lemma pack_block_app bw l1 l2 : pack_block bw (l1 ++ l2) = pack_block bw l1 ++ pack_block bw l2.
Proof. apply map_app. Qed.

(** Packing keeps the low bits of every value, padded with zeros to whole blocks of 1024. *)
Lemma bitpack_primitive_spec l bw : (0 <= bw)%Z ->
  bitpack_primitive l bw =
  pack_block bw (l ++ repeat 0%Z (1024 * ((length l + 1023) / 1024) - length l)).
Proof.
  intros Hbw. unfold bitpack_primitive. set (n := length l).
  destruct (Z.eqb_spec bw 0) as [->|Hne].
  - apply (nth_ext_len _ _ 0%Z).
    + unfold pack_block. rewrite map_length, app_length, !repeat_length. fold n. lia.
    + rewrite repeat_length. intros i Hi. rewrite nth_repeat_lt by exact Hi.
      unfold pack_block. rewrite (map_nth_lt _ _ 0%Z) by (rewrite app_length, repeat_length; fold n; lia).
      change (2 ^ 0)%Z with 1%Z. rewrite Z.mod_1_r. reflexivity.
  - assert (concat (map (fun i => pack_block bw (lslice l (i * 1024) (i * 1024 + 1024))) (seq 0 (n / 1024))) =
            pack_block bw (lslice l 0 (n / 1024 * 1024))) as ->.
    { change (lslice l 0 (n / 1024 * 1024)) with (lslice l (0 * 1024) ((0 + n / 1024) * 1024)).
      rewrite <- (concat_blocks l 1024 0 (n / 1024)). unfold pack_block at 2. rewrite concat_map, map_map. reflexivity. }
    pose proof (Nat.div_mod n 1024 ltac:(lia)) as Dn. pose proof (Nat.mod_upper_bound n 1024 ltac:(lia)) as Bn.
    destruct (Nat.eqb_spec ((n + 1023) / 1024) (n / 1024)) as [E|E].
    + rewrite E, app_nil_r. assert (n mod 1024 = 0) as M0 by lia.
      replace (1024 * (n / 1024) - n) with 0 by lia. cbn [repeat]. rewrite app_nil_r. f_equal.
      replace (n / 1024 * 1024) with (length l) by (fold n; lia). apply lslice_full.
    + rewrite <- pack_block_app. f_equal. rewrite app_assoc.
      replace (n - n mod 1024) with (n / 1024 * 1024) by lia. rewrite lslice_cat by lia.
      unfold n at 1. rewrite lslice_full. do 2 f_equal. lia.
Qed.

(** The unpacker returns the fields between the offset and the end. *)
Lemma unpack_primitive_spec packed bw off len :
  off < 1024 -> length packed = 1024 * ((len + off + 1023) / 1024) -> Forall (fun z => (0 <= z < 2 ^ bw)%Z) packed ->
  unpack_primitive packed bw off len = Ok (lslice packed off (off + len)).
Proof.
  intros Ho Hl Hr. unfold unpack_primitive. replace (off + len + 1023) with (len + off + 1023) by lia.
  set (nc := (len + off + 1023) / 1024) in *. assert (off + len <= 1024 * nc) as Hc by lia.
  destruct (Z.eqb_spec bw 0) as [->|Hne].
  - f_equal. apply (nth_ext_len _ _ 0%Z); [rewrite repeat_length, lslice_length; lia|].
    rewrite repeat_length. intros i Hi. rewrite nth_repeat_lt by exact Hi. rewrite nth_lslice by lia.
    rewrite Forall_forall in Hr. assert (In (nth (off + i) packed 0%Z) packed) as Hin by (apply nth_In; lia).
    apply Hr in Hin. change (2 ^ 0)%Z with 1%Z in Hin. lia.
  - rewrite (proj2 (Nat.eqb_eq _ _)) by lia. cbn [negb].
    assert (negb (off =? 0) && (nc =? 0) = false) as ->.
    { destruct (Nat.eqb_spec off 0); [reflexivity|]. destruct (Nat.eqb_spec nc 0); [|reflexivity]. lia. }
    assert ((if off =? 0 then [] else lslice (lslice packed 0 1024) off 1024) ++
      concat (map (fun i => lslice packed (i * 1024) (i * 1024 + 1024)) (seq (if off =? 0 then 0 else 1) (nc - (if off =? 0 then 0 else 1)))) =
      lslice packed off (nc * 1024)) as ->.
    { rewrite concat_blocks. destruct (Nat.eqb_spec off 0) as [->|].
      - cbn [app]. f_equal; lia.
      - rewrite lslice_lslice by lia. cbn [Nat.add]. rewrite lslice_cat by lia. f_equal. lia. }
    assert (firstn len (lslice packed off (nc * 1024)) = lslice packed off (off + len)) as ->.
    { unfold lslice. rewrite firstn_firstn. f_equal. lia. }
    rewrite lslice_length by lia. rewrite (proj2 (Nat.eqb_eq _ _)) by lia. reflexivity.
Qed.

Lemma unsigned_range p z : is_unsigned p = true -> in_range p z <-> (0 <= z < 2 ^ bits p)%Z.
Proof. intros H. unfold in_range, pmin, pmax. assert (is_signed p = false) as -> by (destruct p; cbn in *; congruence). lia. Qed.
Lemma bit_width_small p z bw : is_unsigned p = true -> in_range p z ->
  (bit_width p z <= bw <-> (z < 2 ^ Z.of_nat bw)%Z).
Proof.
  intros Hp R. apply unsigned_range in R; [|exact Hp]. unfold bit_width.
  assert (is_float p = false) as -> by (destruct p; cbn in *; congruence).
  destruct (Z.ltb_spec z 0); [lia|]. destruct (Z.eqb_spec z 0) as [->|].
  - split; [intros; apply Z.pow_pos_nonneg; lia|lia].
  - assert (0 < z)%Z as Hz by lia. pose proof (Z.log2_nonneg z).
    rewrite (Z.log2_lt_pow2 z (Z.of_nat bw)) by lia. lia.
Qed.
Lemma list_sum_zero l : list_sum l = 0 -> forall k, nth k l 0 = 0.
Proof.
  induction l as [|x l IH]; intros H k; [destruct k; reflexivity|]. change (list_sum (x :: l)) with (x + list_sum l) in H.
  destruct k; cbn; [lia|]. apply IH. lia.
Qed.
Lemma patch_positions_In p l v bw i : is_unsigned p = true -> Forall (in_range p) l -> bw < nbits p ->
  In i (patch_positions p l v bw) <-> i < length l /\ vvalid v i = true /\ (2 ^ Z.of_nat bw <= nth i l 0)%Z.
Proof.
  intros Hp R Hb. unfold patch_positions. rewrite filter_In, in_seq, andb_true_iff, Nat.ltb_lt. unfold leading_zeros.
  split.
  - intros ((_ & Hi) & Hw & Hv). split; [lia|]. split; [exact Hv|].
    assert (in_range p (nth i l 0%Z)) as Ri by (rewrite Forall_forall in R; apply R, nth_In; lia).
    pose proof (bit_width_bound p _ Ri). pose proof (bit_width_small p _ bw Hp Ri). lia.
  - intros (Hi & Hv & Hz). split; [lia|]. split; [|exact Hv].
    assert (in_range p (nth i l 0%Z)) as Ri by (rewrite Forall_forall in R; apply R, nth_In; lia).
    pose proof (bit_width_bound p _ Ri). pose proof (bit_width_small p _ bw Hp Ri). lia.
Qed.
Lemma logical_nonnull_ints p l : ints (logical (APrim p l VNonNull)) = l.
Proof.
  unfold ints. cbn [logical vvalid]. unfold tab. rewrite map_map. cbn [vint].
  apply (nth_ext_len _ _ 0%Z); [rewrite map_length, seq_length; reflexivity|].
  rewrite map_length, seq_length. intros i Hi. rewrite (map_nth_lt _ _ 0) by (rewrite seq_length; lia).
  rewrite seq_nth by lia. reflexivity.
Qed.
Lemma logical_allvalid p l : logical (APrim p l VAllValid) = map VInt l.
Proof.
  cbn [logical vvalid]. apply (nth_ext_len _ _ VNull); [rewrite tab_length, map_length; reflexivity|].
  rewrite tab_length. intros i Hi. rewrite nth_tab by exact Hi. rewrite (map_nth_lt _ _ 0%Z) by exact Hi. reflexivity.
Qed.

Lemma gather_patches_logical p l v bw q : is_unsigned p = true -> Forall (in_range p) l -> bw < nbits p ->
  gather_patches p l v bw = Some q ->
  forall i, i < length l -> nth i (logical q) VNull =
    if vvalid v i && (2 ^ Z.of_nat bw <=? nth i l 0)%Z then VInt (nth i l 0%Z) else VNull.
Proof.
  intros Hp R Hb. unfold gather_patches. set (idx := patch_positions p l v bw).
  pose proof (fun i => patch_positions_In p l v bw i Hp R Hb) as PI. fold idx in PI. clearbody idx.
  destruct idx as [|i0 r0] eqn:Ei; [discriminate|]. rewrite <- Ei in *. intros [= <-] i Hi.
  change (logical (ASparse (APrim U64 (map Z.of_nat idx) VNonNull) (APrim p (map (fun i => nth i l 0%Z) idx) VAllValid) 0 (length l) VNull))
    with (tab (length l) (fun i => match pos_of (Z.of_nat (0 + i)) (ints (logical (APrim U64 (map Z.of_nat idx) VNonNull))) with
      Some k => nth k (logical (APrim p (map (fun i => nth i l 0%Z) idx) VAllValid)) VNull | None => VNull end)).
  rewrite nth_tab by exact Hi. rewrite logical_nonnull_ints, logical_allvalid. cbn [Nat.add].
  destruct (pos_of (Z.of_nat i) (map Z.of_nat idx)) as [k|] eqn:Ek.
  - apply pos_of_some in Ek. destruct Ek as [Hk1 Hk2]. rewrite map_length in Hk1.
    rewrite (map_nth_lt _ _ 0) in Hk2 by exact Hk1. apply Nat2Z.inj in Hk2.
    rewrite (map_nth_lt VInt _ 0%Z) by (rewrite map_length; exact Hk1).
    rewrite (map_nth_lt _ _ 0) by exact Hk1. rewrite Hk2.
    assert (In i idx) as Hin by (rewrite <- Hk2; apply nth_In; exact Hk1). apply PI in Hin. destruct Hin as (_ & Hv & Hz).
    rewrite Hv. apply Z.leb_le in Hz. rewrite Hz. reflexivity.
  - apply pos_of_none in Ek.
    destruct (vvalid v i && _) eqn:E; [|reflexivity]. exfalso. apply Ek. apply in_map. apply PI.
    apply andb_true_iff in E. destruct E as [E1 E2]. apply Z.leb_le in E2. auto.
Qed.

Theorem bitpack_roundtrip :
  forall p l v bw, is_unsigned p = true -> wf f0 (APrim p l v) -> (Z.of_nat (length l) <= pmax U64)%Z ->
  l <> [] -> bw < nbits p ->
  exists r, bitpack_encode p l v bw = Ok r /\
    logical r = logical (APrim p l v) /\ adtype r = adtype (APrim p l v) /\ wf f0 r /\ wf f_dec r.
Proof.
  intros p l v bw Hp [R Hw] Hlen Hne Hbw.
  assert (is_float p = false) as Hf by (destruct p; cbn in *; congruence).
  assert (is_int p = true) as Hi by (apply is_unsigned_int, Hp).
  assert (to_unsigned p = p) as Hu by (destruct p; cbn in *; congruence).
  set (A := APrim p l v).
  assert (wf f0 A) as WA by (split; assumption).
  assert (exists h, s_bw (stats_after KBw A) = Some h) as [h Eh].
  { cbn [stats_after]. unfold A. destruct (prim_stats_cases p l v R Hw) as [[_ E]|[[[n E] _]|(c & _ & E)]]; [contradiction| |];
      cbn [stats_after]; rewrite E; eexists; reflexivity. }
  pose proof (stats_sound A f0 KBw WA (int_nice p _ _ Hi)) as S. apply so_bw in S. rewrite Eh in S.
  cbn [oall ptype_of adtype A] in S. destruct S as [HL HC].
  unfold bitpack_encode. fold A. rewrite Eh. rewrite (proj2 (Nat.leb_gt _ _)) by lia. rewrite Hf, Hp.
  assert (map (wrap (to_unsigned p)) l = l) as ->.
  { rewrite Hu. rewrite <- (map_id l) at 2. apply map_ext_in. intros z Hz. apply wrap_id. rewrite Forall_forall in R. auto. }
  set (packed := bitpack_primitive l (Z.of_nat bw)).
  set (q := if 0 <? count_exceptions bw h then gather_patches p l v bw else None).
  assert (forall i, i < length l -> vvalid v i = true -> (2 ^ Z.of_nat bw <= nth i l 0)%Z -> q <> None) as EX.
  { intros i Hi2 Hv Hz. unfold q.
    assert (in_range p (nth i l 0%Z)) as Ri by (rewrite Forall_forall in R; apply R, nth_In; exact Hi2).
    pose proof (bit_width_bound p _ Ri) as Bw. pose proof (bit_width_small p _ bw Hp Ri) as Sm.
    destruct (Nat.ltb_spec 0 (count_exceptions bw h)) as [C|C].
    - unfold gather_patches. destruct (patch_positions p l v bw) eqn:Ep; [|discriminate].
      assert (In i (patch_positions p l v bw)) as Hin by (apply patch_positions_In; auto). rewrite Ep in Hin. destruct Hin.
    - exfalso. unfold count_exceptions in C. rewrite (proj2 (Nat.leb_gt _ _)) in C by lia.
      assert (list_sum (skipn (bw + 1) h) = 0) as C0 by lia.
      pose proof (list_sum_zero _ C0 (bit_width p (nth i l 0%Z) - (bw + 1))) as N0. rewrite nth_skipn in N0.
      replace (bw + 1 + (bit_width p (nth i l 0%Z) - (bw + 1))) with (bit_width p (nth i l 0%Z)) in N0 by lia.
      rewrite HC in N0 by lia. pose proof (in_logical_prim p l v i Hi2 Hv) as Hin.
      apply (count_zero _ _ N0) in Hin. cbn [is_null negb vint andb] in Hin. rewrite Nat.eqb_refl in Hin. discriminate. }
  assert (forall q', q = Some q' -> gather_patches p l v bw = Some q') as QG by (unfold q; intros q' E; destruct (0 <? _); [exact E|discriminate]).
  assert (forall i, i < length l -> nth i packed 0%Z = (nth i l 0 mod 2 ^ Z.of_nat bw)%Z) as NP.
  { intros i Hi2. unfold packed. rewrite bitpack_primitive_spec by lia. unfold pack_block.
    rewrite (map_nth_lt _ _ 0%Z) by (rewrite app_length; lia). rewrite app_nth1 by exact Hi2. reflexivity. }
  eexists. split; [reflexivity|]. split; [|split; [reflexivity|]].
  - unfold A. cbn [logical]. apply tab_ext. intros i Hi2. destruct (vvalid v i) eqn:Hv; [|reflexivity]. cbn [Nat.add].
    rewrite NP by exact Hi2.
    assert (in_range p (nth i l 0%Z)) as Ri by (rewrite Forall_forall in R; apply R, nth_In; exact Hi2).
    apply unsigned_range in Ri; [|exact Hp].
    destruct (Z.leb_spec (2 ^ Z.of_nat bw) (nth i l 0%Z)) as [Hz|Hz].
    + destruct q as [q'|] eqn:Eq; [|destruct (EX i Hi2 Hv Hz eq_refl)].
      rewrite (gather_patches_logical p l v bw q' Hp R Hbw (QG q' eq_refl) i Hi2). rewrite Hv.
      apply Z.leb_le in Hz. rewrite Hz. reflexivity.
    + assert (nth i (match q with Some q0 => logical q0 | None => [] end) VNull = VNull) as ->.
      { destruct q as [q'|] eqn:Eq; [|destruct i; reflexivity].
        rewrite (gather_patches_logical p l v bw q' Hp R Hbw (QG q' eq_refl) i Hi2). rewrite Hv.
        apply Z.leb_gt in Hz. rewrite Hz. reflexivity. }
      f_equal. apply Z.mod_small. lia.
  - assert (forall f, fT f = false /\ fN f = false /\ fF f = false /\ ft f = false -> wf f (ABitPacked p packed (Z.of_nat bw) 0 (length l) v q)) as G; [|split; apply G; repeat split].
    intros f (F1 & F2 & F3 & F4). cbn [wf]. split; [exact Hp|]. split; [unfold nbits in Hbw; pose proof (bits_pos p); lia|]. split; [lia|].
    assert (length packed = 1024 * ((length l + 1023) / 1024)) as Lp.
    { unfold packed. rewrite bitpack_primitive_spec by lia. unfold pack_block. rewrite map_length, app_length, repeat_length. lia. }
    split; [rewrite Nat.add_0_r; exact Lp|].
    split; [unfold packed; rewrite bitpack_primitive_spec by lia; unfold pack_block; apply Forall_forall; intros z Hz;
      apply in_map_iff in Hz; destruct Hz as (y & <- & _); apply Z.mod_pos_bound; apply Z.pow_pos_nonneg; lia|].
    split; [exact Hw|]. split; [|rewrite F1, F2, F3; intros [H|[H|H]]; discriminate H].
    destruct q as [q'|] eqn:Eq; [|exact I]. specialize (QG q' eq_refl). unfold gather_patches in QG.
    pose proof (fun i => patch_positions_In p l v bw i Hp R Hbw) as PI.
    assert (ssortedZ (map Z.of_nat (patch_positions p l v bw))) as SI by apply ssorted_filter_seq.
    set (idx := patch_positions p l v bw) in *. clearbody idx.
    destruct idx as [|i0 r0] eqn:Ei; [discriminate|]. rewrite <- Ei in *.
    injection QG as <-.
    assert (non_null (logical (APrim p (map (fun i => nth i l 0%Z) idx) VAllValid))) as NN.
    { rewrite logical_allvalid. apply Forall_forall. intros x Hx. apply in_map_iff in Hx. destruct Hx as (? & <- & _). discriminate. }
    split.
    { apply (wf_sparse_patch _ (map Z.of_nat idx) _ p true); auto.
      - apply Forall_forall. intros z Hz. apply in_map_iff in Hz. destruct Hz as (i & <- & Hi2). apply PI in Hi2. lia.
      - cbn [alen]. rewrite !map_length. reflexivity.
      - cbn [wf]. split; [|exact I]. apply Forall_forall. intros z Hz. apply in_map_iff in Hz. destruct Hz as (i & <- & Hi2).
        apply PI in Hi2. rewrite Forall_forall in R. apply R, nth_In. lia. }
    split; [reflexivity|]. split; [reflexivity|]. split; [rewrite F4; discriminate|].
    split; [reflexivity|]. split; [cbn [alen]; rewrite map_length, Ei; cbn; lia|]. split; [exact NN|]. exists true. reflexivity.
Qed.
Print Assumptions bitpack_roundtrip.

(** Patching. *)
Lemma list_set_length {A} (l : list A) i x : length (list_set l i x) = length l.
Proof. revert i; induction l as [|y l IH]; intros [|i]; cbn; auto. Qed.
Lemma nth_list_set {A} (l : list A) i x j d : i < length l -> nth j (list_set l i x) d = if j =? i then x else nth j l d.
Proof.
  revert i j; induction l as [|y l IH]; intros [|i] [|j] H; cbn in *; try lia; auto. rewrite IH by lia. reflexivity.
Qed.
Lemma patch_values_spec pos : forall l vals, length pos = length vals -> Forall (fun i => i < length l) pos -> NoDup pos ->
  exists r, patch_values l pos vals = Ok r /\ length r = length l /\
    (forall k, k < length pos -> nth (nth k pos 0) r 0%Z = nth k vals 0%Z) /\
    (forall i, ~ In i pos -> nth i r 0%Z = nth i l 0%Z).
Proof.
  induction pos as [|i pos IH]; intros l [|x vals] HL HB HN; cbn in HL; try discriminate.
  - exists l. cbn. repeat split; auto. intros; lia.
  - inversion HB as [|? ? Hi HB']; subst. inversion HN as [|? ? Hni HN']; subst. cbn [patch_values].
    rewrite (proj2 (Nat.ltb_lt _ _) Hi).
    destruct (IH (list_set l i x) vals) as (r & E & L & H1 & H2); [lia| |exact HN'|].
    { rewrite list_set_length. exact HB'. }
    exists r. split; [exact E|]. split; [rewrite L; apply list_set_length|]. split.
    + intros [|k] Hk; cbn [nth].
      * rewrite H2 by exact Hni. rewrite nth_list_set by exact Hi. rewrite Nat.eqb_refl. reflexivity.
      * apply H1. cbn in Hk. lia.
    + intros j Hj. cbn in Hj. rewrite H2 by tauto. rewrite nth_list_set by exact Hi.
      destruct (Nat.eqb_spec j i); [subst; tauto|reflexivity].
Qed.

(** The unpacker computes the meaning of a (possibly sliced, possibly patched) bit-packed array. The positions given to
    it are those of the sparse patches relative to their offset. *)
Theorem bitpack_unpack_is_logical :
  forall f p packed bw off len v idx vals soff,
  wf f (ABitPacked p packed bw off len v None) ->
  ssortedZ idx -> Forall (fun z => (Z.of_nat soff <= z < Z.of_nat (soff + len))%Z) idx ->
  length vals = length idx ->
  let pos := map (fun z => Z.to_nat z - soff) idx in
  let patches := ASparse (APrim U64 idx VNonNull) (APrim p vals VAllValid) soff len VNull in
  (exists r, bp_unpack p packed bw off len v (Some (pos, vals)) = Ok r /\
     logical r = logical (ABitPacked p packed bw off len v (Some patches)) /\
     adtype r = adtype (ABitPacked p packed bw off len v (Some patches))) /\
  (exists r, bp_unpack p packed bw off len v None = Ok r /\
     logical r = logical (ABitPacked p packed bw off len v None)).
Proof.
  intros f p packed bw off len v idx vals soff Wf SI BI LV pos patches.
  cbn [wf] in Wf. destruct Wf as (Hp & Hb & Ho & Hl & Hr & Hw & _).
  pose proof (unpack_primitive_spec packed bw off len Ho Hl Hr) as U.
  set (u := lslice packed off (off + len)) in *.
  assert (length u = len) as Lu by (unfold u; rewrite lslice_length; lia).
  assert (forall i, i < len -> nth i u 0%Z = nth (off + i) packed 0%Z) as NU by (intros; unfold u; rewrite nth_lslice by lia; reflexivity).
  assert (map (wrap p) u = u) as Wu.
  { rewrite <- (map_id u) at 2. apply map_ext_in. intros z Hz. apply wrap_id.
    assert (Forall (fun z => (0 <= z < 2 ^ bw)%Z) u) as Fu by (apply Forall_lslice, Hr). rewrite Forall_forall in Fu.
    apply (in_range_unsigned_pow p bw); auto. lia. }
  unfold bp_unpack. rewrite U. cbn [bind]. rewrite Wu. split.
  - assert (NoDup pos) as ND.
    { unfold pos. clear LV. apply (NoDup_nth _ 0). rewrite map_length. intros i j Hi Hj E.
      rewrite !(map_nth_lt _ idx 0%Z) in E by assumption.
      rewrite Forall_forall in BI. pose proof (BI _ (nth_In idx 0%Z Hi)). pose proof (BI _ (nth_In idx 0%Z Hj)).
      destruct (Nat.lt_trichotomy i j) as [Hlt|[|Hlt]]; [|assumption|].
      - pose proof (ssortedZ_nth idx i j SI Hlt Hj). lia.
      - pose proof (ssortedZ_nth idx j i SI Hlt Hi). lia. }
    destruct (patch_values_spec pos u vals) as (r & E & Lr & H1 & H2); [unfold pos; rewrite map_length; lia| |exact ND|].
    { apply Forall_forall. intros i Hi. unfold pos in Hi. apply in_map_iff in Hi. destruct Hi as (z & <- & Hz).
      rewrite Forall_forall in BI. specialize (BI z Hz). cbv beta in BI. lia. }
    rewrite E. cbn [bind]. eexists. split; [reflexivity|]. split; [|reflexivity].
    change (logical (ABitPacked p packed bw off len v (Some patches))) with
      (tab len (fun i => if vvalid v i then match nth i (logical patches) VNull with VInt z => VInt z | _ => VInt (nth (off + i) packed 0%Z) end else VNull)).
    cbn [logical]. rewrite Lr, Lu. apply tab_ext. intros i Hi. destruct (vvalid v i); [|reflexivity].
    change (logical patches) with (tab len (fun i => match pos_of (Z.of_nat (soff + i)) (ints (logical (APrim U64 idx VNonNull))) with
      Some k => nth k (logical (APrim p vals VAllValid)) VNull | None => VNull end)).
    rewrite nth_tab by exact Hi. rewrite logical_nonnull_ints, logical_allvalid.
    destruct (pos_of (Z.of_nat (soff + i)) idx) as [k|] eqn:Ek.
    + apply pos_of_some in Ek. destruct Ek as [Hk1 Hk2]. rewrite (map_nth_lt VInt _ 0%Z) by lia.
      f_equal. rewrite <- H1 by (unfold pos; rewrite map_length; exact Hk1). f_equal. unfold pos.
      rewrite (map_nth_lt _ idx 0%Z) by exact Hk1. lia.
    + apply pos_of_none in Ek. f_equal. rewrite H2; [apply NU, Hi|].
      unfold pos. intros Hin. apply in_map_iff in Hin. destruct Hin as (z & Ez & Hz). apply Ek.
      rewrite Forall_forall in BI. pose proof (BI z Hz) as Bz. cbv beta in Bz. replace (Z.of_nat (soff + i)) with z by lia. exact Hz.
  - eexists. split; [reflexivity|]. cbn [logical]. rewrite Lu. apply tab_ext. intros i Hi. destruct (vvalid v i); [|reflexivity].
    rewrite NU by exact Hi. destruct i; reflexivity.
Qed.
Print Assumptions bitpack_unpack_is_logical.

(** Other inputs are rejected: widths that do not save anything, empty arrays, signed types. *)
Theorem bitpack_rejects :
  forall p l v bw, wf f0 (APrim p l v) -> is_float p = false ->
  (nbits p <= bw \/ (l = [] /\ v <> VAllInvalid) \/ is_unsigned p = false) -> bitpack_encode p l v bw = Err.
Proof.
  intros p l v bw [R Hw] Hf H. unfold bitpack_encode. destruct (s_bw (stats_after KBw (APrim p l v))) eqn:E; [|reflexivity].
  destruct (Nat.leb_spec (nbits p) bw); [reflexivity|]. rewrite Hf.
  destruct H as [H|[[-> Hv]|H]]; [lia| |rewrite H; reflexivity].
  exfalso. cbn [stats_after] in E. unfold prim_stats in E. destruct v as [| | |lv]; cbn in E; try discriminate; [congruence|].
  cbn in Hw. destruct lv; discriminate.
Qed.
Print Assumptions bitpack_rejects.

(** At the patchless width no value needs a patch. *)
Theorem patchless_width_has_no_patches :
  forall p l v freq bw, is_unsigned p = true -> wf f0 (APrim p l v) ->
  s_bw (stats_after KBw (APrim p l v)) = Some freq -> min_patchless_bit_width freq = Ok bw ->
  count_exceptions bw freq = 0 /\ forall z, In (VInt z) (logical (APrim p l v)) -> (z < 2 ^ Z.of_nat bw)%Z.
Proof.
  intros p l v freq bw Hp [R Hw] Ef Eb.
  assert (is_int p = true) as Hi by (apply is_unsigned_int, Hp).
  pose proof (stats_sound (APrim p l v) f0 KBw (conj R Hw) (int_nice p _ _ Hi)) as S. apply so_bw in S. rewrite Ef in S.
  cbn [oall ptype_of adtype] in S. destruct S as [HL HC].
  assert (forall k, bw < k -> nth k freq 0 = 0) as Z0.
  { intros k Hk. unfold min_patchless_bit_width in Eb. destruct freq as [|f0' r0] eqn:Efr; [discriminate|].
    rewrite <- Efr in *. injection Eb as <-.
    destruct (Nat.le_gt_cases (length freq) k) as [|Hlt]; [apply nth_overflow; assumption|].
    destruct (Nat.eq_dec (nth k freq 0) 0) as [|Hne]; [assumption|exfalso].
    assert (In k (filter (fun k => 0 <? nth k freq 0) (seq 0 (length freq)))) as Hin.
    { apply filter_In. split; [apply in_seq; lia|]. apply Nat.ltb_lt. lia. }
    pose proof (proj1 (list_max_le (filter (fun k => 0 <? nth k freq 0) (seq 0 (length freq)))
      (list_max (filter (fun k => 0 <? nth k freq 0) (seq 0 (length freq))))) (Nat.le_refl _)) as F.
    rewrite Forall_forall in F. apply F in Hin. lia. }
  split.
  - unfold count_exceptions. destruct (length freq <=? bw); [reflexivity|].
    assert (forall l' : list nat, (forall k, nth k l' 0 = 0) -> list_sum l' = 0) as G.
    { induction l' as [|x l' IH]; intros Hk; [reflexivity|]. change (list_sum (x :: l')) with (x + list_sum l').
      rewrite IH by (intros k; apply (Hk (S k))). specialize (Hk 0). cbn in Hk. lia. }
    apply G. intros k. rewrite nth_skipn. apply Z0. lia.
  - intros z Hz. pose proof (vtyped_logical (APrim p l v) f0 (conj R Hw)) as T. rewrite Forall_forall in T.
    pose proof (T _ Hz) as Rz. cbn [adtype vtyped] in Rz.
    apply (bit_width_small p z bw Hp Rz). destruct (Nat.le_gt_cases (bit_width p z) bw) as [|Hgt]; [assumption|exfalso].
    pose proof (bit_width_bound p z Rz). specialize (Z0 _ Hgt). rewrite HC in Z0 by lia.
    apply (count_zero _ _ Z0) in Hz. cbn [is_null negb vint andb] in Hz. rewrite Nat.eqb_refl in Hz. discriminate.
Qed.
Print Assumptions patchless_width_has_no_patches.

(** Non-vacuity: width 4 with one patch and a null whose slot is too wide. *)
Definition ex_bp_in : array := APrim U8 [3; 200; 15; 250]%Z (VBits [true; true; true; false]).
Example ex_bitpack :
  wf f0 ex_bp_in /\
  match bitpack_encode U8 [3; 200; 15; 250]%Z (VBits [true; true; true; false]) 4 with
  | Ok (ABitPacked _ packed _ _ _ _ (Some q)) => firstn 4 packed = [3; 8; 15; 10]%Z /\ logical q = [VNull; VInt 200; VNull; VNull]
  | _ => False
  end.
Proof. split; [cbn; split; [repeat constructor; cbn; lia|reflexivity]|]. vm_compute. split; reflexivity. Qed.
