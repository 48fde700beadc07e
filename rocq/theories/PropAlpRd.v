(** C24: ALP-RD float compression is lossless; operations on ALP-RD arrays. *)
From Verif Require Import Base Spec Scalars CmpSpec SearchModel SearchProofs Arr ArrRead ArrWf ArrReadProofs ArrSearchProofs ArrSlice ArrSliceProofs ArrSliceMain
  ValidityModel PropValidity IntEnc PropIntEnc RunEnc PropRunEnc PropUnary PropDict ArrOps OpsBase OpsFlat OpsCanon OpsCanon2 OpsCanon3 OpsSparse OpsTake OpsTake2 OpsVarBin OpsFilter
  OpsChunked OpsMain PropRead PropSlice PropOps DateTime Alp PropAlp AlpRd.

(** * Bits *)

(** Left and right bits put together again. *)
Lemma combine_split p rbw z : (0 <= rbw < bits p)%Z -> (bits p - 16 <= rbw)%Z -> (0 <= z < 2 ^ bits p)%Z ->
  combine p rbw (left_part rbw z) (Z.land z (2 ^ rbw - 1)) = z.
Proof.
  intros R C Rz. unfold combine, left_part.
  assert (2 ^ rbw - 1 = Z.ones rbw)%Z as -> by (rewrite Z.ones_equiv; lia).
  assert (Z.shiftr z rbw mod 65536 = Z.shiftr z rbw)%Z as ->.
  { apply Z.mod_small. rewrite Z.shiftr_div_pow2 by lia. split; [apply Z.div_pos; [lia|apply Z.pow_pos_nonneg; lia]|]. apply Z.div_lt_upper_bound; [apply Z.pow_pos_nonneg; lia|].
    change 65536%Z with (2 ^ 16)%Z. rewrite <- Z.pow_add_r by lia. eapply Z.lt_le_trans; [apply Rz|]. apply Z.pow_le_mono_r; lia. }
  rewrite Z.mod_small.
  2: { rewrite Z.shiftl_mul_pow2, Z.shiftr_div_pow2 by lia. assert (0 < 2 ^ rbw)%Z by (apply Z.pow_pos_nonneg; lia). pose proof (Z.div_mod z (2 ^ rbw) ltac:(lia)). pose proof (Z.mod_pos_bound z (2 ^ rbw) ltac:(lia)).
       pose proof (Z.div_pos z (2 ^ rbw) ltac:(lia) ltac:(lia)). nia. }
  apply Z.bits_inj'. intros k Hk. rewrite Z.lor_spec, Z.land_spec, Z.shiftl_spec by exact Hk.
  destruct (Z.ltb_spec k rbw).
  - rewrite Z.ones_spec_low by lia. rewrite Z.testbit_neg_r by lia. rewrite andb_true_r. reflexivity.
  - rewrite Z.ones_spec_high by lia. rewrite Z.shiftr_spec by lia. replace (k - rbw + rbw)%Z with k by lia. rewrite andb_false_r, orb_false_r. reflexivity.
Qed.
Lemma bwidth_bound n m : (0 <= m <= n)%Z -> (m < 2 ^ bwidth n)%Z.
Proof.
  intros H. unfold bwidth. destruct (Z.eqb_spec n 0); [change (2 ^ 1)%Z with 2%Z; lia|]. pose proof (Z.log2_spec n ltac:(lia)). replace (Z.log2 n + 1)%Z with (Z.succ (Z.log2 n)) by lia. lia.
Qed.

(** * Bit-packing without patches *)

Lemma bitpack_unchecked_ok g p l v bw : is_unsigned p = true -> Forall (in_range p) l -> vwf v (length l) -> Forall (fun z => (0 <= z < 2 ^ bw)%Z) l -> (0 <= bw <= bits p)%Z ->
  (fT g = true \/ fN g = true \/ fF g = true -> fC g = true) ->
  exists packed, let b := ABitPacked p packed bw 0 (length l) v None in
    bitpack_unchecked p l v bw = Ok b /\ wf g b /\ adtype b = DPrim p (vnullable v) /\ logical b = logical (APrim p l v) /\ lslice packed 0 (0 + length l) = l.
Proof.
  intros Hp R V B Hb HT. unfold bitpack_unchecked.
  assert (to_unsigned p = p) as Hu by (destruct p; cbn in *; congruence).
  assert (map (wrap (to_unsigned p)) l = l) as ->.
  { rewrite Hu. rewrite <- (map_id l) at 2. apply map_ext_in. intros z Hz. apply wrap_id. rewrite Forall_forall in R. auto. }
  set (packed := bitpack_primitive l bw). exists packed. cbv zeta.
  assert (length packed = 1024 * ((length l + 0 + 1023) / 1024)) as Lp.
  { unfold packed. rewrite bitpack_primitive_spec by lia. unfold pack_block. rewrite map_length, app_length, repeat_length, Nat.add_0_r. lia. }
  assert (forall i, i < length l -> nth i packed 0%Z = nth i l 0%Z) as NP.
  { intros i Hi. unfold packed. rewrite bitpack_primitive_spec by lia. unfold pack_block. rewrite (map_nth_lt _ _ 0%Z) by (rewrite app_length; lia). rewrite app_nth1 by exact Hi.
    apply Z.mod_small. apply (Forall_nth_lt _ _ 0%Z i B Hi). }
  assert (bits p <= 64)%Z as B64 by (destruct p; cbn; lia).
  split; [|split; [|split; [reflexivity|split]]].
  - unfold try_bitpacked. rewrite Hp. cbn [negb]. rewrite (proj2 (Z.ltb_ge _ _)) by lia. cbn [Nat.ltb Nat.leb]. rewrite Lp, Nat.eqb_refl. cbn [negb].
    rewrite (proj2 (vfits_vwf _ _)) by exact V. reflexivity.
  - cbn [wf]. split; [exact Hp|]. split; [exact Hb|]. split; [lia|]. split; [exact Lp|]. split; [|split; [exact V|split; [exact I|exact HT]]].
    unfold packed. rewrite bitpack_primitive_spec by lia. unfold pack_block. apply Forall_forall. intros z Hz. apply in_map_iff in Hz. destruct Hz as (y & <- & _). apply Z.mod_pos_bound. apply Z.pow_pos_nonneg; lia.
  - cbn [logical]. apply tab_ext. intros i Hi. cbn [Nat.add]. rewrite NP by exact Hi. destruct (vvalid v i); [|reflexivity]. replace (nth i [] VNull) with VNull by (destruct i; reflexivity). reflexivity.
  - apply (nth_ext_len _ _ 0%Z); [rewrite lslice_length by lia; lia|]. intros i Hi. rewrite lslice_length in Hi by lia. rewrite nth_lslice by lia. cbn [Nat.add]. apply NP. lia.
Qed.

(** * The left parts *)

Lemma left_form g D a n : wf g a -> adtype a = DPrim U16 n -> codes_in D a ->
  exists l v, into_prim (canon a) = Ok (U16, l, v) /\ Forall (fun z => (0 <= z < Z.of_nat D)%Z) l /\ vwf v (length l) /\ vnullable v = n /\
    logical (APrim U16 l v) = logical a /\ logical_validity a = Ok (to_logical v (length l)).
Proof.
  intros W T C. destruct a as [|? ? ? ?|p l v|u ? ? ?| | | | | | | | | | |p packed bw off len v q|]; try contradiction.
  - cbn [adtype] in T. injection T as -> <-. destruct W as [W1 W2]. exists l, v. split; [reflexivity|]. split; [exact C|]. split; [exact W2|]. auto.
  - destruct q; [contradiction|]. cbn [adtype] in T. injection T as -> <-. cbn [wf] in W. destruct W as (Hp & Hb & Ho & Hl & Hr & Hw & _).
    pose proof (unpack_primitive_spec packed bw off len Ho Hl Hr) as U. set (u := lslice packed off (off + len)) in *.
    assert (off + len <= length packed) as Hc by (rewrite Hl; clear; lia). assert (length u = len) as Lu by (unfold u; rewrite lslice_length; lia).
    assert (map (wrap U16) u = u) as Wu.
    { rewrite <- (map_id u) at 2. apply map_ext_in. intros z Hz. apply wrap_id. assert (Forall (fun z => (0 <= z < 2 ^ bw)%Z) u) as Fu by (apply Forall_lslice, Hr). rewrite Forall_forall in Fu.
      apply (in_range_unsigned_pow U16 bw); auto. lia. }
    exists u, v. split.
    { unfold canon. cbn [depth ops ops_step o_canon bind]. unfold bp_unpack. rewrite U. cbn [bind]. rewrite Wu. reflexivity. }
    split; [exact C|]. rewrite Lu. split; [exact Hw|]. split; [reflexivity|]. split; [|reflexivity].
    cbn [logical]. rewrite Lu. apply tab_ext. intros i Hi. destruct (vvalid v i); [|reflexivity]. replace (nth i [] VNull) with VNull by (destruct i; reflexivity). unfold u. rewrite nth_lslice by lia. reflexivity.
Qed.
Lemma to_logical_valid v n : vwf v n -> vwf (into_validity (to_logical v n)) n /\ forall i, i < n -> vvalid (into_validity (to_logical v n)) i = vvalid v i.
Proof.
  intros W. destruct (validity_to_logical v n W) as [L B]. destruct (to_logical v n) as [k|k|l]; cbn [into_validity vwf vvalid llen lbuf] in *; (split; [auto|]); intros i Hi.
  all: assert (vvalid v i = nth i (vbits v n) false) as -> by (unfold vbits; rewrite nth_tab by exact Hi; reflexivity); rewrite <- B; try reflexivity; rewrite nth_repeat_lt by lia; reflexivity.
Qed.

(** * Decoding *)

Lemma dict_all dict l : Forall (fun z => (0 <= z < Z.of_nat (length dict))%Z) l -> mapM (dict_at dict) l = Ok (map (fun c => nth (Z.to_nat c) dict 0%Z) l).
Proof.
  induction l as [|c l IH]; intros F; [reflexivity|]. inversion F as [|? ? H1 H2]; subst. cbn [mapM map]. unfold dict_at at 1. rewrite (proj2 (Z.leb_gt _ _)) by lia. cbn [bind]. rewrite IH by exact H2. reflexivity.
Qed.

(** Decoding gives the rows. The result is nullable even if the array was not (see rd_decode_type_refuted). *)
Theorem rd_decodes_to_the_rows :
  forall (g : flags) (a : alprd) (rows : list value), rd_holds g a rows -> fc g = true -> fC g = true ->
  exists r, rd_decode a = Ok r /\ logical r = rows /\ adtype r = DPrim (d_type a) true.
Proof.
  intros g a rows (P & R & D8 & W & T & CI & L & WR & TR & LR & HQ & HR) C CC. unfold rd_decode.
  destruct (left_form g _ _ _ W T CI) as (ll & v & E1 & F1 & V1 & N1 & L1 & LV). rewrite E1. cbn [bind].
  destruct (canon_prim g _ _ _ WR C CC TR) as (rl & w & E2 & N2 & _ & V2 & L2). rewrite E2. cbn [bind].
  assert (length ll = length rows) as LL by (rewrite <- L, <- L1; symmetry; apply prim_len). assert (length rl = length rows) as RL by (rewrite <- LR, <- L2; symmetry; apply prim_len).
  assert (ptype_eqb (rd_uint (d_type a)) (rd_uint (d_type a)) = true) as ER by (destruct P as [-> | ->]; reflexivity).
  set (d := map (fun c => nth (Z.to_nat c) (d_dict a) 0%Z) ll). assert (length d = length rows) as Ld by (unfold d; rewrite map_length; exact LL).
  assert (exists pos xs d', (match d_exc a with
                   | None => Ok ([], [])
                   | Some (ASparse qi qv qo _ _) =>
                       do pos <- resolved_indices (canon qi) qo;
                       do (r, xs, _) <- into_prim (canon qv);
                       if ptype_eqb r U16 then Ok (pos, xs) else Panic
                   | Some _ => Panic
                   end) = Ok (pos, xs) /\ length pos = length xs /\ set_many d pos xs = Ok d' /\ length d' = length rows /\
          forall i, i < length rows -> nth i d' 0%Z = match exc_at a i with VInt z => z | _ => nth i d 0%Z end) as (pos & xs & d' & E3 & L3 & E4 & L4 & N4).
  { unfold exc_at. destruct (d_exc a) as [q|]; [|exists [], [], d; auto 10].
    destruct (sparse_patches g U16 _ q HQ C CC) as (qi & qv & qo & xs & w' & Q1 & Q2 & Q3 & Q4 & Q5 & Q6 & Q7). rewrite Q1. cbv iota. rewrite Q2, Q3. cbn [bind]. change (ptype_eqb U16 U16) with true. cbv iota.
    destruct (set_many_patch 0%Z d (ints (logical qi)) qo (length rows) xs Ld Q5 Q6 Q4) as (d' & E4 & L4 & N4). exists (rel_pos (ints (logical qi)) qo), xs, d'. split; [reflexivity|].
    split; [unfold rel_pos; rewrite map_length; congruence|]. split; [exact E4|]. split; [exact L4|]. intros i Hi. rewrite N4 by exact Hi. rewrite <- Q1, (Q7 i Hi). destruct (pos_of _ _); reflexivity. }
  rewrite E3. cbn [bind]. change (ptype_eqb U16 U16) with true. rewrite ER. cbn [negb orb]. unfold rd_decode_slices. rewrite LL, RL, L3, !Nat.eqb_refl. cbn [negb].
  rewrite (dict_all _ _ F1). cbn [bind]. fold d. rewrite E4. cbn [bind]. rewrite (proj2 (Z.leb_gt _ _)) by apply R. cbn [andb bind]. rewrite LV. cbn [bind].
  set (out := map (fun xr => combine (d_type a) (d_rbw a) (fst xr) (snd xr)) (List.combine d' rl)).
  assert (length out = length rows) as LO by (unfold out; rewrite map_length, combine_length; lia).
  destruct (to_logical_valid v (length ll) V1) as [V3 V4]. unfold try_prim. rewrite (proj2 (vfits_vwf _ _)) by (rewrite LO, <- LL; exact V3). cbn [expect]. eexists. split; [reflexivity|]. split.
  - apply (nth_ext _ _ VNull VNull); [rewrite prim_len; exact LO|]. intros i Hi. rewrite prim_len, LO in Hi. rewrite nth_prim by lia. rewrite V4 by lia. rewrite (HR i Hi). rewrite <- L1, <- L2. rewrite !nth_prim by lia.
    assert (vvalid w i = true) as Vw. { destruct w; cbn [vnullable] in N2; try discriminate; reflexivity. } rewrite Vw. destruct (vvalid v i); [|reflexivity]. cbn [rd_row].
    f_equal. unfold out. rewrite (map_nth_lt _ (List.combine d' rl) (0%Z, 0%Z)) by (rewrite combine_length; lia). rewrite combine_nth by lia. cbn [fst snd]. rewrite N4 by exact Hi. f_equal.
    destruct (exc_at a i); try reflexivity; unfold d; rewrite (map_nth_lt _ ll 0%Z) by lia; reflexivity.
  - cbn [adtype]. f_equal. destruct (to_logical v (length ll)); reflexivity.
Qed.
Print Assumptions rd_decodes_to_the_rows.

(** scalar_at. *)
Theorem rd_scalar_at_is_the_row :
  forall (g : flags) (a : alprd) (rows : list value) (i : nat), rd_holds g a rows ->
  (i < length rows -> rd_scalar_at a i = Ok (nth i rows VNull)) /\ (length rows <= i -> rd_scalar_at a i = Err).
Proof.
  intros g a rows i (P & R & D8 & W & T & CI & L & WR & TR & LR & HQ & HR). unfold rd_scalar_at. rewrite <- logical_length, L. split; intros Hi.
  2: { rewrite (proj2 (Nat.leb_le _ _)) by exact Hi. reflexivity. }
  rewrite (proj2 (Nat.leb_gt _ _)) by exact Hi.
  destruct (left_form g _ _ _ W T CI) as (ll & v & _ & F1 & V1 & N1 & L1 & _). assert (length ll = length rows) as LL by (rewrite <- L, <- L1; symmetry; apply prim_len).
  destruct (reads_ok _ _ W) as [(R1 & _) _]. assert (i < alen (d_left a)) as Hi' by (rewrite <- logical_length; lia). unfold is_valid. rewrite R1 by exact Hi'. cbn [bind].
  assert (forall h x n, wf h x -> length (logical x) = n -> i < n -> scalar_at x i = Ok (nth i (logical x) VNull)) as SA.
  { intros h x n Wx Lx Hx. unfold scalar_at. apply rd_scalar_at_; [apply (reads_ok x h Wx)|rewrite <- logical_length; lia]. }
  rewrite (HR i Hi).
  pose proof (Forall_nth_lt _ _ VNull i (vtyped_logical _ _ WR) ltac:(lia)) as VR. cbv beta in VR. rewrite TR in VR.
  rewrite (SA _ _ _ W L Hi), (SA _ _ _ WR LR Hi).
  assert (forall k, nth i (logical (d_left a)) VNull = VInt k -> dict_at (d_dict a) k = Ok (nth (Z.to_nat k) (d_dict a) 0%Z)) as DA.
  { intros k Ek. unfold dict_at. pose proof (Forall_nth_lt _ _ 0%Z i F1 ltac:(lia)) as B. cbv beta in B. rewrite <- L1, nth_prim in Ek by lia. destruct (vvalid v i); [|discriminate Ek]. injection Ek as Ek. rewrite Ek in B.
    rewrite (proj2 (Z.leb_gt _ _)) by lia. reflexivity. }
  pose proof (Forall_nth_lt _ _ VNull i (vtyped_logical _ _ W) ltac:(lia)) as VT. cbv beta in VT. rewrite T in VT.
  destruct (nth i (logical (d_left a)) VNull) as [|b|k|s|fs] eqn:EN; cbn [vtyped] in VT; try contradiction; [reflexivity|]. cbn [is_null negb rd_row bind].
  destruct (nth i (logical (d_right a)) VNull) as [|b|y|s|fs] eqn:EY; cbn [vtyped] in VR; try contradiction; [discriminate VR|]. cbn [bind]. rewrite (DA k eq_refl).
  unfold exc_at. destruct (d_exc a) as [q|].
  - destruct HQ as (WQ & TQ & qi & qv & qo & EQ). destruct (reads_ok _ _ WQ) as [(S1 & _) _]. assert (alen q = length rows) as LQ by (rewrite EQ; reflexivity). rewrite S1 by lia. cbn [bind].
    rewrite (SA _ _ (length rows) WQ) by (rewrite ?logical_length; auto).
    pose proof (Forall_nth_lt _ _ VNull i (vtyped_logical _ _ WQ) ltac:(rewrite logical_length; lia)) as VQ. cbv beta in VQ. rewrite TQ in VQ.
    destruct (nth i (logical q) VNull) as [|b|z|s|fs] eqn:EM; cbn [vtyped] in VQ; try contradiction; cbn [is_null negb bind]; rewrite (proj2 (Z.leb_gt _ _)) by apply R; reflexivity.
  - cbn [bind]. rewrite (proj2 (Z.leb_gt _ _)) by apply R. reflexivity.
Qed.
Print Assumptions rd_scalar_at_is_the_row.

(** * Selecting rows *)

Lemma opt_slice g p n y i j : match y with Some q => patches_ok g p n q | None => True end -> i <= j -> j <= n -> (fs g = true \/ (fn g = true /\ i < j)) ->
  exists q, opt_map (fun x => slice x i j) y = Ok q /\ match q, y with Some x, Some y => logical x = spec_slice (logical y) i j /\ patches_ok g p (j - i) x | None, None => True | _, _ => False end.
Proof.
  intros HQ Hij Hj FS. destruct y as [y|]; cbn [opt_map]; [|eauto]. destruct HQ as (WQ & TQ & qi & qv & qo & EQ).
  assert (alen y = n) as LQ by (rewrite EQ; reflexivity).
  destruct (slice_commutes_with_decoding g y i j WQ Hij ltac:(rewrite logical_length; lia) FS) as (x & E3 & W3 & T3 & L3 & D3). rewrite E3. cbn [bind]. eexists. split; [reflexivity|].
  cbv beta iota. split; [exact D3|]. split; [exact W3|]. split; [congruence|]. rewrite EQ in E3. destruct (sparse_slice_shape qi qv qo n VNull i j x E3) as (si & sv & so & ->). eauto.
Qed.
Lemma opt_take g p n y ip idx : match y with Some q => patches_ok g p n q | None => True end -> fc g = true -> ft g = true -> is_int ip = true -> (Z.of_nat (length idx) <= pmax U64)%Z ->
  Forall (fun i => i < n) idx -> fT g = true \/ (fN g = true /\ idx <> [] /\ ip = U64) ->
  exists q, opt_map (fun x => take x ip idx) y = Ok q /\ match q, y with Some x, Some y => logical x = pick (logical y) idx /\ patches_ok (pf g) p (length idx) x | None, None => True | _, _ => False end.
Proof.
  intros HQ C FT Ii LI B TT. destruct y as [y|]; cbn [opt_map]; [|eauto]. destruct HQ as (WQ & TQ & qi & qv & qo & EQ).
  assert (Forall (fun i => i < length (logical y)) idx) as BQ by (rewrite logical_length, EQ; exact B).
  destruct (take_commutes_with_decoding g y ip idx WQ C FT Ii LI BQ) as [K1 K2]. destruct (K2 TT) as (x & E3). destruct (K1 x E3) as (R1 & _ & _ & R4 & R5). rewrite spec_take_pick in R1 by exact BQ. injection R1 as R1.
  rewrite E3. cbn [bind]. eexists. split; [reflexivity|]. cbv beta iota. split; [congruence|]. split; [exact R5|]. split; [rewrite R4 by (right; rewrite TQ; reflexivity); exact TQ|].
  rewrite EQ in E3. unfold take in E3. rewrite Ii in E3. cbn [depth ops] in E3. apply sparse_take_shape in E3. destruct E3 as (si & sv & ->). eauto.
Qed.
Lemma opt_filter g p n y m : match y with Some q => patches_ok g p n q | None => True end -> fc g = true -> ft g = true -> fF g = true -> (Z.of_nat (length m) <= pmax U64)%Z -> length m = n ->
  exists q, opt_map (fun x => filter_array x (mask_of m)) y = Ok q /\ match q, y with Some x, Some y => logical x = spec_filter (logical y) m /\ patches_ok (pF g) p (count id m) x | None, None => True | _, _ => False end.
Proof.
  intros HQ C FT FF LM LR. destruct y as [y|]; cbn [opt_map]; [|eauto]. destruct HQ as (WQ & TQ & qi & qv & qo & EQ).
  assert (length m = length (logical y)) as BQ by (rewrite logical_length, EQ; exact LR).
  destruct (filter_commutes_with_decoding g y m WQ C FT LM BQ) as [K1 K2]. destruct (K2 FF) as (x & E3). destruct (K1 x E3) as (R1 & _ & R4 & R5).
  rewrite E3. cbn [bind]. eexists. split; [reflexivity|]. cbv beta iota. split; [exact R1|]. split; [exact R5|]. split; [rewrite R4 by (right; rewrite TQ; reflexivity); exact TQ|].
  rewrite EQ in E3. apply sparse_filter_shape in E3. replace (mbits (mask_of m)) with m in E3 by (symmetry; apply mbits_eq; reflexivity). exact E3.
Qed.

Lemma sub_codes (P : Z -> Prop) packed off len i j o' be : o' <= i + off -> j + off <= be -> be <= length packed -> i <= j -> j <= len -> off + len <= length packed ->
  Forall P (lslice packed off (off + len)) -> Forall P (lslice (lslice packed (i + off - o') be) o' (o' + (j - i))).
Proof.
  intros OL JB BL Hij Hj Hc C. apply Forall_forall. intros z Hz. rewrite Forall_forall in C. apply C. apply (In_nth _ _ 0%Z) in Hz. destruct Hz as (k & Hk & <-).
  assert (length (lslice packed (i + off - o') be) = be - (i + off - o')) as LB by (apply lslice_length; lia).
  rewrite lslice_length in Hk by lia. rewrite nth_lslice by lia. rewrite nth_lslice by lia.
  replace (i + off - o' + (o' + k)) with (off + (i + k)) by lia. rewrite <- (nth_lslice packed off (off + len) (i + k) 0%Z) by lia. apply nth_In. rewrite lslice_length; lia.
Qed.
(** The stored codes stay in the dictionary, those of null rows too. *)
Lemma slice_codes g D a p n i j c : wf g a -> adtype a = DPrim p n -> codes_in D a -> i <= j -> j <= alen a -> slice a i j = Ok c -> codes_in D c.
Proof.
  intros W T C Hij Hj E. destruct a as [|? ? ? ?|q l v|u ? ? ?| | | | | | | | | | |q packed bw off len v y|]; try contradiction.
  - cbn [slice] in E. unfold slice_bad in E. destruct (_ || _) in E; [discriminate E|]. destruct (vslice v i j) as [w| |]; cbn [bind] in E; try discriminate E. unfold try_prim in E. destruct (vfits _ _) in E; [|discriminate E]. injection E as <-.
    apply Forall_lslice. exact C.
  - destruct y; [contradiction|]. cbn [slice] in E. cbv zeta in E.
    assert ((i + off) mod 1024 <= i + off) as OL by (apply Nat.mod_le; lia). assert (j + off <= (j + off + 1023) / 1024 * 1024) as JB by (clear; lia).
    set (o' := (i + off) mod 1024) in *. set (be := (j + off + 1023) / 1024 * 1024) in *. clearbody o' be. cbn [wf] in W. destruct W as (Hp & Hb & Ho & Hl & Hr & Hw & _). cbn [alen] in Hj.
    destruct (slice_bad _ _ _) in E; [discriminate E|]. destruct ((_ <? _) || _) eqn:Q in E; [discriminate E|]. apply orb_false_iff in Q. destruct Q as [Q1 Q2]. apply Nat.ltb_ge in Q1, Q2.
    destruct (vslice v i j) as [w| |]; cbn [bind] in E; try discriminate E. unfold try_bitpacked in E.
    destruct (negb _) in E; [discriminate E|]. destruct (_ <? _)%Z in E; [discriminate E|]. destruct (1023 <? _) in E; [discriminate E|]. destruct (negb _) eqn:Q3 in E; [discriminate E|]. destruct (negb _) in E; [discriminate E|]. injection E as <-.
    assert (off + len <= length packed) as Hc by (rewrite Hl; clear; lia). clear Hl Q3.
    cbn [codes_in] in *. apply (sub_codes (fun z => (0 <= z < Z.of_nat D)%Z) packed off len i j); auto.
Qed.
Lemma gather_forall {A} (P : A -> Prop) (l : list A) : forall idx x, Forall P l -> gather l idx = Ok x -> Forall P x.
Proof.
  induction idx as [|i idx IH]; intros x F E; cbn [gather mapM] in E; [injection E as <-; constructor|]. unfold gather in *. cbn [mapM] in E. destruct (nth_error l i) as [y|] eqn:N; cbn [bind] in E; [|discriminate E].
  destruct (mapM _ idx) as [r| |] eqn:E'; cbn [bind] in E; try discriminate E. injection E as <-. constructor; [|apply IH; auto]. rewrite Forall_forall in F. apply F. eapply nth_error_In. exact N.
Qed.
Lemma take_codes g D a n ip idx c : wf g a -> adtype a = DPrim U16 n -> codes_in D a -> Forall (fun i => i < alen a) idx -> take a ip idx = Ok c -> codes_in D c.
Proof.
  intros W T C B E. unfold take in E. destruct (is_int ip); [|discriminate E]. destruct (left_form g D a n W T C) as (l & v & EC & F & _).
  assert (forall q y w x, Forall (fun z => (0 <= z < Z.of_nat D)%Z) y -> prim_take q y w idx = Ok x -> codes_in D x) as PT.
  { intros q y w x Fy H. unfold prim_take in H. destruct (gather y idx) as [xs| |] eqn:G; cbn [bind] in H; try discriminate H. destruct (vtake w idx); cbn [bind] in H; try discriminate H. unfold try_prim in H.
    destruct (vfits _ _); [|discriminate H]. injection H as <-. eapply gather_forall; eauto. }
  destruct a as [|? ? ? ?|q l' v'|u ? ? ?| | | | | | | | | | |q packed bw off len v' y|]; try contradiction.
  - cbn [depth ops ops_step o_take] in E. eapply PT; [|exact E]. exact C.
  - destruct y; [contradiction|]. unfold canon in EC. cbn [depth ops ops_step o_take o_canon] in E, EC. unfold bp_take in E. cbn [alen] in B. destruct (len <? _) in E.
    + rewrite EC in E. cbn [bind] in E. eapply PT; [|exact E]. exact F.
    + destruct (vtake v' idx) as [w| |]; cbn [bind] in E; try discriminate E.
      match type of E with bind ?r _ = _ => destruct r as [out| |] eqn:G; cbn [bind] in E; try discriminate E end. unfold try_prim in E. destruct (vfits _ _); [|discriminate E]. injection E as <-. cbn [codes_in] in *.
      destruct idx as [|i0 idx]; [injection G as <-; constructor|]. set (ix := i0 :: idx) in *. clearbody ix.
      destruct (gather packed _) as [o| |] eqn:G' in G; cbn [bind] in G; try discriminate G. injection G as <-.
      cbn [wf] in W. destruct W as (_ & _ & _ & Hl & _). assert (off + len <= length packed) as Hc by (rewrite Hl; clear; lia). clear Hl.
      rewrite (gather_ok packed _ 0%Z) in G' by (apply Forall_map; eapply Forall_impl; [|exact B]; intros i Hi; cbv beta in *; lia). injection G' as <-. rewrite map_map. apply Forall_map. eapply Forall_impl; [|exact B].
      intros i Hi. cbv beta in *. rewrite Forall_forall in C. apply C. replace (i + off) with (off + i) by lia. rewrite <- (nth_lslice packed off (off + len) i 0%Z) by lia. apply nth_In. rewrite lslice_length; lia.
Qed.
Lemma bfilter_forall {A} (P : A -> Prop) (l : list A) m : Forall P l -> Forall P (bfilter l m).
Proof. intros F; revert m; induction F as [|x l Px F IH]; intros [|b m]; cbn [bfilter]; try constructor; destruct b; auto. Qed.
Lemma filter_codes g D a n m c : wf g a -> adtype a = DPrim U16 n -> codes_in D a -> filter_array a m = Ok c -> codes_in D c.
Proof.
  intros W T C E. destruct (left_form g D a n W T C) as (l & v & EC & F & _).
  assert (forall x nl bs y, into_prim x = Ok (U16, l, v) -> (do c <- x; canon_filter c nl bs) = Ok y -> codes_in D y) as CF.
  { intros x nl bs y H1 H2. destruct x as [x| |]; try discriminate H1. cbn [bind into_prim] in *. destruct x; try discriminate H1. injection H1 as -> -> ->. cbn [canon_filter] in H2.
    destruct (filter_validity _ _ _ _); cbn [bind] in H2; try discriminate H2. injection H2 as <-. cbn [codes_in]. apply bfilter_forall. exact F. }
  unfold filter_array in E. unfold canon in EC.
  destruct a as [|? ? ? ?|q l' v'|u ? ? ?| | | | | | | | | | |q packed bw off len v' y|]; try contradiction.
  - cbn [depth ops ops_step o_filter o_canon] in E, EC. unfold with_mask in E. destruct (_ =? _) in E; try discriminate E. unfold default_filter in E. eapply CF; [exact EC|exact E].
  - destruct y; [contradiction|]. cbn [depth ops ops_step o_filter o_canon] in E, EC. unfold with_mask in E. destruct (_ =? _) in E; try discriminate E. unfold default_filter in E. eapply CF; [exact EC|exact E].
Qed.

Lemma rd_holds_sel g h a rows rows' (ix : nat -> nat) l r q : rd_holds g a rows ->
  (forall k, k < length rows' -> ix k < length rows /\ nth k rows' VNull = nth (ix k) rows VNull /\
     nth k (logical l) VNull = nth (ix k) (logical (d_left a)) VNull /\ nth k (logical r) VNull = nth (ix k) (logical (d_right a)) VNull /\
     match q, d_exc a with Some x, Some y => nth k (logical x) VNull = nth (ix k) (logical y) VNull | None, None => True | _, _ => False end) ->
  length (logical l) = length rows' -> wf h l -> adtype l = DPrim U16 (d_null a) -> codes_in (length (d_dict a)) l ->
  length (logical r) = length rows' -> wf h r -> adtype r = DPrim (rd_uint (d_type a)) false ->
  match q with Some x => patches_ok h U16 (length rows') x | None => d_exc a = None end ->
  exists b, try_rd (d_type a) (d_null a) l (d_dict a) r (d_rbw a) q = Ok b /\ rd_holds h b rows' /\ d_type b = d_type a /\ d_null b = d_null a.
Proof.
  intros (P & R & D8 & W & T & CI & L & WR & TR & LR & HQ & HR) HS Ll Wl Tl Cl Lr Wr Tr WQ. unfold try_rd.
  assert (is_float (d_type a) = true) as -> by (destruct P as [-> | ->]; reflexivity). cbn [negb]. rewrite <- !logical_length, Lr, Ll, Nat.eqb_refl. cbn [negb]. rewrite Tl, Tr. cbn [nullable is_unsigned negb]. rewrite Bool.eqb_reflx.
  assert (is_unsigned (rd_uint (d_type a)) = true) as -> by (destruct P as [-> | ->]; reflexivity). cbn [negb].
  assert (match q with Some x => is_sparse x | None => true end = true) as -> by (destruct q as [x|]; [destruct WQ as (_ & _ & ? & ? & ? & ->)|]; reflexivity). cbn [negb].
  rewrite (proj2 (Nat.ltb_ge _ _)) by exact D8. eexists. split; [reflexivity|]. split; [|auto].
  unfold rd_holds. cbn [d_type d_null d_left d_dict d_right d_rbw d_exc]. do 10 (split; [assumption|]). split; [destruct q; [exact WQ|exact I]|].
  intros k Hk. destruct (HS k Hk) as (H1 & H2 & H3 & H4 & H5). rewrite H2, (HR _ H1), H3, H4. f_equal. unfold exc_at. cbn [d_exc]. destruct q, (d_exc a); try contradiction; congruence.
Qed.

Theorem rd_slice_the_rows :
  forall (g : flags) (a : alprd) (rows : list value) (i j : nat), rd_holds g a rows ->
  i <= j -> j <= length rows -> (fs g = true \/ (fn g = true /\ i < j)) ->
  exists b, rd_slice a i j = Ok b /\ rd_holds g b (spec_slice rows i j) /\ d_type b = d_type a /\ d_null b = d_null a.
Proof.
  intros g a rows i j H Hij Hj FS. pose proof H as (P & R & D8 & W & T & CI & L & WR & TR & LR & HQ & HR).
  unfold rd_slice, slice_bad. rewrite <- logical_length, L. rewrite !(proj2 (Nat.ltb_ge _ _)) by lia. cbn [orb].
  destruct (opt_slice g U16 _ _ i j HQ Hij Hj FS) as (q & E2 & H2). rewrite E2. cbn [bind].
  destruct (slice_commutes_with_decoding g _ i j W Hij ltac:(lia) FS) as (l & E1 & W1 & T1 & _ & D1). rewrite E1. cbn [bind].
  destruct (slice_commutes_with_decoding g _ i j WR Hij ltac:(lia) FS) as (r & E3 & W3 & T3 & _ & D3). rewrite E3. cbn [bind].
  assert (forall A (r : list A), length r = length rows -> length (spec_slice r i j) = j - i) as LS by (intros A y Hr; unfold spec_slice; rewrite firstn_length, skipn_length; lia).
  assert (forall A (d : A) (r : list A) k, k < j - i -> nth k (spec_slice r i j) d = nth (i + k) r d) as NS by (intros A d y k Hk; unfold spec_slice; rewrite nth_firstn by exact Hk; apply nth_skipn).
  apply (rd_holds_sel g g a rows (spec_slice rows i j) (fun k => i + k) l r q H); try assumption; try congruence.
  - rewrite (LS _ rows eq_refl). intros k Hk. split; [lia|]. rewrite D1, D3, !NS by exact Hk. do 3 (split; [reflexivity|]).
    destruct q, (d_exc a); try contradiction; [|exact I]. destruct H2 as [-> _]. apply NS. exact Hk.
  - rewrite D1, !LS; auto.
  - apply (slice_codes g _ _ U16 (d_null a) i j l W T CI Hij); [rewrite <- logical_length; lia|exact E1].
  - rewrite D3, !LS; auto.
  - rewrite (LS _ rows eq_refl). destruct q, (d_exc a); try contradiction; [apply H2|reflexivity].
Qed.
Print Assumptions rd_slice_the_rows.

Theorem rd_take_the_rows :
  forall (g : flags) (a : alprd) (rows : list value) (ip : ptype) (idx : list nat), rd_holds g a rows ->
  fc g = true -> ft g = true -> is_int ip = true -> (Z.of_nat (length idx) <= pmax U64)%Z ->
  Forall (fun i => i < length rows) idx -> fT g = true \/ (fN g = true /\ idx <> [] /\ ip = U64) ->
  exists b rows', rd_take a ip idx = Ok b /\ spec_take rows idx = Some rows' /\ rd_holds (pf g) b rows' /\ d_type b = d_type a /\ d_null b = d_null a.
Proof.
  intros g a rows ip idx H C FT Ii LI B TT. pose proof H as (P & R & D8 & W & T & CI & L & WR & TR & LR & HQ & HR).
  assert (forall x p n, wf g x -> adtype x = DPrim p n -> length (logical x) = length rows ->
    exists y, take x ip idx = Ok y /\ logical y = pick (logical x) idx /\ wf (pf g) y /\ adtype y = DPrim p n) as TK.
  { intros x p n Wx Tx Lx. assert (Forall (fun i => i < length (logical x)) idx) as BC by (rewrite Lx; exact B).
    destruct (take_commutes_with_decoding g x ip idx Wx C FT Ii LI BC) as [G1 G2]. destruct (G2 TT) as (c & E1). destruct (G1 c E1) as (Q1 & _ & _ & Q4 & Q5). rewrite spec_take_pick in Q1 by exact BC.
    exists c. split; [exact E1|]. split; [congruence|]. split; [exact Q5|]. rewrite Q4 by (right; rewrite Tx; reflexivity). exact Tx. }
  unfold rd_take. destruct (opt_take g U16 _ _ ip idx HQ C FT Ii LI B TT) as (q & E2 & H2). rewrite E2. cbn [bind].
  destruct (TK _ _ _ W T L) as (l & E1 & D1 & W1 & T1). rewrite E1. cbn [bind]. destruct (TK _ _ _ WR TR LR) as (r & E3 & D3 & W3 & T3). rewrite E3. cbn [bind].
  destruct (rd_holds_sel g (pf g) a rows (pick rows idx) (fun k => nth k idx 0) l r q H) as (b & Eb & Hb & Hb'); try assumption.
  - rewrite pick_length. intros k Hk. split; [apply (Forall_nth_lt _ _ 0 k B Hk)|]. rewrite D1, D3, !nth_pick by exact Hk. do 3 (split; [reflexivity|]).
    destruct q, (d_exc a); try contradiction; [|exact I]. destruct H2 as [-> _]. apply nth_pick. exact Hk.
  - rewrite D1, !pick_length. reflexivity.
  - apply (take_codes g _ _ (d_null a) ip idx l W T CI); [rewrite <- logical_length, L; exact B|exact E1].
  - rewrite D3, !pick_length. reflexivity.
  - rewrite pick_length. destruct q, (d_exc a); try contradiction; [apply H2|reflexivity].
  - exists b, (pick rows idx). split; [exact Eb|]. split; [apply spec_take_pick; exact B|]. auto.
Qed.
Print Assumptions rd_take_the_rows.

Theorem rd_filter_the_rows :
  forall (g : flags) (a : alprd) (rows : list value) (m : list bool), rd_holds g a rows ->
  fc g = true -> ft g = true -> fF g = true -> (Z.of_nat (length m) <= pmax U64)%Z -> length m = length rows ->
  exists b, rd_filter a (mask_of m) = Ok b /\ rd_holds (pF g) b (spec_filter rows m) /\ d_type b = d_type a /\ d_null b = d_null a.
Proof.
  intros g a rows m H C FT FF LM LEN. pose proof H as (P & R & D8 & W & T & CI & L & WR & TR & LR & HQ & HR).
  assert (forall x p n, wf g x -> adtype x = DPrim p n -> length (logical x) = length rows ->
    exists y, filter_array x (mask_of m) = Ok y /\ logical y = spec_filter (logical x) m /\ wf (pF g) y /\ adtype y = DPrim p n) as TK.
  { intros x p n Wx Tx Lx. destruct (filter_commutes_with_decoding g x m Wx C FT LM ltac:(congruence)) as [G1 G2]. destruct (G2 FF) as (c & E1). destruct (G1 c E1) as (Q1 & _ & Q4 & Q5).
    exists c. split; [exact E1|]. split; [exact Q1|]. split; [exact Q5|]. rewrite Q4 by (right; rewrite Tx; reflexivity). exact Tx. }
  assert (forall A (d : A) (r : list A), length r = length rows -> spec_filter r m = map (fun i => nth i r d) (set_indices m)) as SF by (intros A d y Hr; apply spec_filter_gather; congruence).
  assert (forall A (r : list A), length r = length rows -> length (spec_filter r m) = count id m) as LF by (intros A y Hr; apply spec_filter_length; congruence).
  unfold rd_filter. destruct (opt_filter g U16 _ _ m HQ C FT FF LM LEN) as (q & E2 & H2). rewrite E2. cbn [bind].
  destruct (TK _ _ _ W T L) as (l & E1 & D1 & W1 & T1). rewrite E1. cbn [bind]. destruct (TK _ _ _ WR TR LR) as (r & E3 & D3 & W3 & T3). rewrite E3. cbn [bind].
  apply (rd_holds_sel g (pF g) a rows (spec_filter rows m) (fun k => nth k (set_indices m) 0) l r q H); try assumption.
  - rewrite (LF _ rows eq_refl). intros k Hk. rewrite <- set_indices_length in Hk. pose proof (Forall_nth_lt _ _ 0 k (set_indices_lt m) Hk) as X. cbv beta in X. rewrite LEN in X. split; [exact X|].
    rewrite D1, D3. rewrite !(SF _ VNull) by congruence. rewrite !(map_nth_lt _ (set_indices m) 0) by exact Hk. do 3 (split; [reflexivity|]).
    destruct q as [x|], (d_exc a) as [y|]; try contradiction; [|exact I]. destruct H2 as [-> _]. destruct HQ as (_ & _ & qi & qv & qo & EQ).
    rewrite (SF _ VNull) by (rewrite logical_length, EQ; reflexivity). rewrite (map_nth_lt _ (set_indices m) 0) by exact Hk. reflexivity.
  - rewrite D1, (LF _ _ L), (LF _ rows eq_refl). reflexivity.
  - exact (filter_codes g _ _ _ _ _ W T CI E1).
  - rewrite D3, (LF _ _ LR), (LF _ rows eq_refl). reflexivity.
  - rewrite (LF _ rows eq_refl). destruct q, (d_exc a); try contradiction; [apply H2|reflexivity].
Qed.
Print Assumptions rd_filter_the_rows.

(** * Encoding *)

(** A sparse array of the values at the set positions, null elsewhere; the positions may be encoded. *)
Lemma exc_scatter g ix p bs vals : is_prim (DPrim p true) = true -> (Z.of_nat (length bs) <= pmax U64)%Z -> wf (sliceable g) ix -> adtype ix = DPrim U64 false -> ix_ok ix 0 (length bs) ->
  logical ix = map (fun i => VInt (Z.of_nat i)) (set_indices bs) ->
  Forall (in_range p) vals -> length vals = count id bs ->
  (fT g = true \/ fN g = true \/ fF g = true -> fT g = true /\ fC g = true) ->
  let b := ASparse ix (APrim p vals VAllValid) 0 (length bs) VNull in
    try_sparse ix (APrim p vals VAllValid) (length bs) 0 VNull = Ok b /\ wf g b /\ adtype b = DPrim p true /\
    logical b = tab (length bs) (fun i => if nth i bs false then VInt (nth (rank bs i) vals 0%Z) else VNull).
Proof.
  intros P HL WI TI SI LI W AL HT. cbv zeta. set (fi := map Z.of_nat (set_indices bs)).
  assert (length fi = length vals) as LF by (unfold fi; rewrite map_length, set_indices_length, AL; reflexivity).
  assert (forall z, In z fi -> (0 <= z < Z.of_nat (length bs))%Z) as FB.
  { intros z Hz. unfold fi in Hz. apply in_map_iff in Hz. destruct Hz as (i & <- & Hi). pose proof (set_indices_lt bs) as Q. rewrite Forall_forall in Q. specialize (Q i Hi). cbv beta in Q. lia. }
  assert (logical ix = map VInt fi) as LP by (rewrite LI; unfold fi; rewrite map_map; reflexivity).
  assert (ints (map VInt fi) = fi) as IO by (unfold ints; rewrite map_map; apply map_id).
  assert (alen ix = length fi) as LX by (rewrite <- logical_length, LP; apply map_length).
  split.
  { unfold try_sparse. rewrite TI. change (dtype_eqb (DPrim U64 false) (DPrim U64 false)) with true. change (instance_of VNull (adtype (APrim p vals VAllValid))) with true. cbn [negb].
    rewrite LX. change (alen (APrim p vals VAllValid)) with (length vals). rewrite LF, Nat.eqb_refl. cbn [negb].
    destruct (Nat.eqb_spec (length vals) 0) as [E0|N0]; [reflexivity|].
    unfold scalar_at. rewrite (rd_scalar_at_ ix) by (first [apply (reads_ok ix (sliceable g)); exact WI|lia]).
    rewrite LP. cbn [bind]. rewrite (map_nth_lt VInt fi 0%Z) by lia. cbn [to_usize].
    assert (In (nth (length vals - 1) fi 0%Z) fi) as HIn by (apply nth_In; lia). specialize (FB _ HIn).
    rewrite (proj2 (Z.leb_le _ _)) by lia. cbn [bind].
    destruct (Nat.ltb_spec (Z.to_nat (nth (length vals - 1) fi 0%Z)) 0); [lia|]. rewrite Nat.sub_0_r.
    destruct (Nat.leb_spec (length bs) (Z.to_nat (nth (length vals - 1) fi 0%Z))); [lia|]. reflexivity. }
  assert (non_null (logical (APrim p vals VAllValid))) as NN.
  { cbn [logical vvalid]. apply Forall_forall. intros x Hx. unfold tab in Hx. apply in_map_iff in Hx. destruct Hx as (k & <- & _). discriminate. }
  split.
  { cbn [wf]. rewrite LP, IO, TI, LX. change (alen (APrim p vals VAllValid)) with (length vals). rewrite LF.
    cbn [adtype vnullable Nat.add is_bool is_prim orb nullable flat vtyped].
    split; [exact WI|]. split; [split; [exact W|exact I]|]. split; [reflexivity|]. split; [reflexivity|]. split; [exact SI|]. split; [apply set_indices_sorted|].
    split. { apply Forall_forall. intros z Hz. specialize (FB z Hz). lia. }
    split; [exact HL|]. split; [reflexivity|]. split; [reflexivity|]. split; [auto|]. split; [auto|].
    intros HTT. destruct (HT HTT). auto. }
  split; [reflexivity|].
  change (logical (ASparse ix (APrim p vals VAllValid) 0 (length bs) VNull)) with
      (tab (length bs) (fun i => match pos_of (Z.of_nat (0 + i)) (ints (logical ix)) with Some k => nth k (logical (APrim p vals VAllValid)) VNull | None => VNull end)).
  rewrite LP, IO. apply tab_ext. intros i Hi. cbn [Nat.add]. pose proof (pos_of_set_indices bs i Hi) as Q. fold fi in Q. destruct (pos_of (Z.of_nat i) fi) as [k|].
  - destruct Q as (B & K1 & K2). rewrite B. destruct (set_indices_nth bs k K1) as [_ RK]. rewrite K2 in RK. rewrite nth_prim by (rewrite set_indices_length in K1; lia). cbn [vvalid]. rewrite RK. reflexivity.
  - rewrite Q. reflexivity.
Qed.

(** What RDEncoder::new guarantees, and all that encoding needs. *)
Definition encoder_ok (p : ptype) (en : rd_encoder) : Prop :=
  (bits p - 16 <= rde_width en < bits p)%Z /\ 1 <= length (rde_codes en) <= 8 /\ Forall (fun c => (0 <= c < 65536)%Z) (rde_codes en).

Lemma code_of_spec codes x : match code_of codes x with Some k => k < length codes /\ nth k codes 0%Z = x | None => ~ In x codes end.
Proof.
  induction codes as [|y r IH]; [intros []|]. cbn [code_of]. destruct (Z.eqb_spec y x); [cbn [length nth]; split; [lia|assumption]|].
  destruct (code_of r x) as [k|]; [destruct IH; cbn [length nth]; split; [lia|assumption]|]. intros [?|?]; contradiction.
Qed.
Definition is_exc (codes : list Z) (x : Z) : bool := match code_of codes x with Some _ => false | None => true end.
Lemma rd_exceptions_patches codes l : forall i, rd_exceptions codes i l = chunk_patches (is_exc codes) i l.
Proof. induction l as [|x l IH]; intros i; [reflexivity|]. cbn [rd_exceptions chunk_patches]. unfold is_exc at 1. destruct (code_of codes x); rewrite IH; reflexivity. Qed.
Lemma ssorted_last l : ssortedZ l -> forall z, In z l -> (z <= last l 0)%Z.
Proof.
  induction l as [|x l IH]; intros H z Hz; [destruct Hz|]. cbn [ssortedZ] in H. destruct H as [Hx Hr]. destruct l as [|y l]; [destruct Hz as [<-|[]]; cbn; lia|].
  change (last (x :: y :: l) 0%Z) with (last (y :: l) 0%Z). destruct Hz as [<-|Hz]; [|apply IH; assumption]. specialize (IH Hr y (or_introl eq_refl)). assert (x < y)%Z by (first [inversion Hx; assumption|apply Hx; cbn [In]; auto]). lia.
Qed.
Lemma last_map_of_nat l : last (map Z.of_nat l) 0%Z = Z.of_nat (last l 0).
Proof. induction l as [|x [|y l] IH]; [reflexivity|reflexivity|]. exact IH. Qed.

(** Encoding any f32 or f64 array with an encoder for that type stores, for every row, the same bits: nulls, NaNs (with their payload), infinities,
    subnormals and both zeros included. *)
Theorem rd_encode_keeps_values :
  forall (g : flags) (en : rd_encoder) (p : ptype) (l : list Z) (v : validity),
  (p = F32 \/ p = F64) -> encoder_ok p en -> wf g (APrim p l v) -> (Z.of_nat (length l) <= pmax U64)%Z ->
  (fT g = true \/ fN g = true \/ fF g = true -> fT g = true /\ fC g = true) ->
  exists a, rd_encode en p l v = Ok a /\ rd_holds g a (logical (APrim p l v)) /\ d_type a = p /\ d_null a = vnullable v.
Proof.
  intros g [rbw codes] p l v P (RW & LC & RC) [WR WV] HL HT. cbn [rde_width rde_codes] in *. unfold rd_encode. cbn [rde_width rde_codes].
  assert (negb (match p with F32 | F64 => true | _ => false end) = false) as -> by (destruct P as [-> | ->]; reflexivity).
  assert (32 <= bits p <= 64)%Z as BP by (destruct P as [-> | ->]; cbn; lia).
  assert (bits (rd_uint p) = bits p) as BU by (destruct P as [-> | ->]; reflexivity). assert (is_unsigned (rd_uint p) = true) as UU by (destruct P as [-> | ->]; reflexivity).
  assert (forall z, in_range p z -> (0 <= z < 2 ^ bits p)%Z) as RG by (intros z Hz; unfold in_range in Hz; destruct P as [-> | ->]; cbn in *; lia).
  assert (HT' : fT g = true \/ fN g = true \/ fF g = true -> fC g = true) by (intros X; apply HT; exact X).
  cbv zeta. set (lefts := map (left_part rbw) l). set (rights := map (fun z => Z.land z (2 ^ rbw - 1)) l). set (cs := map (rd_code codes) lefts).
  assert (length cs = length l) as Lcs by (unfold cs, lefts; rewrite !map_length; reflexivity). assert (length rights = length l) as Lrs by (unfold rights; rewrite map_length; reflexivity).
  assert (length lefts = length l) as Lls by (unfold lefts; rewrite map_length; reflexivity).
  assert (Forall (fun z => (0 <= z < Z.of_nat (length codes))%Z) cs) as Fcs.
  { unfold cs. apply Forall_map, Forall_forall. intros x _. unfold rd_code. pose proof (code_of_spec codes x) as Q. destruct (code_of codes x) as [k|]; [destruct Q|]; lia. }
  assert (Forall (fun x => (0 <= x < 65536)%Z) lefts) as Fls.
  { unfold lefts. apply Forall_map, Forall_forall. intros x _. unfold left_part. apply Z.mod_pos_bound. lia. }
  assert (Forall (fun z => (0 <= z < 2 ^ rbw)%Z) rights) as Frs.
  { unfold rights. apply Forall_map, Forall_forall. intros x _. assert (2 ^ rbw - 1 = Z.ones rbw)%Z as -> by (rewrite Z.ones_equiv; lia). rewrite Z.land_ones by lia. apply Z.mod_pos_bound. apply Z.pow_pos_nonneg; lia. }
  (* left parts *)
  destruct (bitpack_unchecked_ok g U16 cs v (bwidth (Z.of_nat (length codes - 1)))) as (pl & E1 & W1 & T1 & D1 & S1); [reflexivity| | | | |exact HT'|].
  { eapply Forall_impl; [|exact Fcs]. intros z Hz. cbv beta in Hz. unfold in_range. cbn. lia. }
  { rewrite Lcs. exact WV. }
  { eapply Forall_impl; [|exact Fcs]. intros z Hz. cbv beta in Hz. split; [lia|]. apply bwidth_bound. lia. }
  { change (bits U16) with 16%Z. unfold bwidth. destruct (Z.eqb_spec (Z.of_nat (length codes - 1)) 0); [lia|]. split; [pose proof (Z.log2_nonneg (Z.of_nat (length codes - 1))); lia|].
    assert (Z.log2 (Z.of_nat (length codes - 1)) < 3)%Z; [|lia]. apply Z.log2_lt_pow2; [lia|]. change (2 ^ 3)%Z with 8%Z. lia. }
  (* right parts *)
  destruct (bitpack_unchecked_ok g (rd_uint p) rights VNonNull rbw UU) as (pr & E2 & W2 & T2 & D2 & S2); [|exact I|exact Frs|lia|exact HT'|].
  { eapply Forall_impl; [|exact Frs]. intros z Hz. cbv beta in Hz. apply (in_range_unsigned_pow (rd_uint p) rbw); [exact UU|lia|exact Hz]. }
  set (bs := map (is_exc codes) lefts). assert (length bs = length l) as Lb by (unfold bs; rewrite map_length; exact Lls).
  set (exc := rd_exceptions codes 0 lefts).
  assert (map fst exc = set_indices bs) as EF by (unfold exc; rewrite rd_exceptions_patches, chunk_patches_pos; rewrite map_id; reflexivity).
  assert (map snd exc = spec_filter lefts bs) as ES by (unfold exc; rewrite rd_exceptions_patches, chunk_patches_vals; reflexivity).
  assert (spec_filter lefts bs = map (fun i => nth i lefts 0%Z) (set_indices bs)) as EG by (apply spec_filter_gather; lia).
  assert (map (fun e => Z.of_nat (fst e)) exc = map Z.of_nat (set_indices bs)) as EI by (rewrite <- EF, map_map; reflexivity).
  (* exceptions *)
  set (fi := map Z.of_nat (set_indices bs)) in *.
  assert (Forall (fun z => (0 <= z <= last fi 0%Z /\ z < Z.of_nat (length l))%Z) fi) as FB.
  { apply Forall_forall. intros z Hz. pose proof (ssorted_last fi (set_indices_sorted bs) z Hz). unfold fi in Hz. apply in_map_iff in Hz. destruct Hz as (i & <- & Hi). pose proof (set_indices_lt bs) as Q. rewrite Forall_forall in Q. specialize (Q i Hi). cbv beta in Q. lia. }
  set (bw := bwidth (Z.of_nat (last (map fst exc) 0))).
  assert (bw = bwidth (last fi 0%Z)) as EB by (unfold bw, fi; rewrite EF, last_map_of_nat; reflexivity).
  assert (last fi 0%Z <= pmax U64)%Z as LB. { clear - FB HL. destruct fi as [|z0 r] eqn:Ef; [cbn; discriminate|]. assert (In (last (z0 :: r) 0%Z) (z0 :: r)) as HIn. { clear. revert z0. induction r as [|y r IH]; intros z0; [left; reflexivity|]. right. apply (IH y). } rewrite Forall_forall in FB. specialize (FB _ HIn). set (q := last (z0 :: r) 0%Z) in *. clearbody q. set (pm := pmax U64) in *. clearbody pm. lia. }
  assert (0 <= last fi 0%Z)%Z as LB0 by (unfold fi; rewrite last_map_of_nat; lia).
  destruct (bitpack_unchecked_ok (sliceable g) U64 fi VNonNull bw) as (px & E3 & W3 & T3 & D3 & S3); [reflexivity| |exact I| | |exact HT'|].
  { eapply Forall_impl; [|exact FB]. intros z Hz. cbv beta in Hz. unfold in_range. change (pmin U64) with 0%Z. clear - Hz HL. set (pm := pmax U64) in *. clearbody pm. lia. }
  { rewrite EB. eapply Forall_impl; [|exact FB]. intros z Hz. cbv beta in Hz. split; [lia|]. apply bwidth_bound. lia. }
  { rewrite EB. change (bits U64) with 64%Z. unfold bwidth. destruct (Z.eqb_spec (last fi 0%Z) 0); [lia|]. split; [pose proof (Z.log2_nonneg (last fi 0%Z)); lia|].
    assert (Z.log2 (last fi 0%Z) < 64)%Z; [|lia]. apply Z.log2_lt_pow2; [lia|]. change (pmax U64) with (2 ^ 64 - 1)%Z in LB. lia. }
  cbv zeta in *.
  set (ix := ABitPacked U64 px bw 0 (length fi) VNonNull None) in *.
  assert (logical ix = map (fun i => VInt (Z.of_nat i)) (set_indices bs)) as LIX.
  { rewrite D3. cbn [logical vvalid]. transitivity (map VInt fi); [symmetry; apply (map_ext_nth_tab VInt fi 0%Z)|]. unfold fi. rewrite map_map. reflexivity. }
  destruct (exc_scatter g ix U16 bs (spec_filter lefts bs)) as (X1 & X2 & X3 & X4); [reflexivity|rewrite Lb; exact HL|exact W3|exact T3|split; [exact I|intros _ z; discriminate]|exact LIX| | |exact HT|].
  { rewrite EG. apply Forall_map. eapply Forall_impl; [|apply set_indices_lt]. intros i Hi. cbv beta in *. rewrite Lb, <- Lls in Hi. pose proof (Forall_nth_lt _ _ 0%Z i Fls Hi) as Q. cbv beta in Q. unfold in_range. cbn. lia. }
  { rewrite EG, map_length, set_indices_length. reflexivity. }
  set (sp := ASparse ix (APrim U16 (spec_filter lefts bs) VAllValid) 0 (length bs) VNull) in *.
  set (q := match exc with [] => None | _ => Some sp end).
  assert (match exc with [] => Ok None
               | _ => do ix <- expect (bitpack_unchecked U64 (map (fun e => Z.of_nat (fst e)) exc) VNonNull (bwidth (Z.of_nat (last (map fst exc) 0))));
                      do s <- expect (try_sparse ix (APrim U16 (map snd exc) VAllValid) (length l) 0 VNull); Ok (Some s)
               end = Ok q) as EQ.
  { fold bw. rewrite EI, ES, E3, <- Lb. cbn [expect bind]. rewrite X1. cbn [expect bind]. unfold q. destruct exc; reflexivity. }
  set (bl := ABitPacked U16 pl (bwidth (Z.of_nat (length codes - 1))) 0 (length cs) v None) in *. set (br := ABitPacked (rd_uint p) pr rbw 0 (length rights) VNonNull None) in *.
  assert (match codes with [] => Panic | _ =>
      do pl <- expect (bitpack_unchecked U16 cs v (bwidth (Z.of_nat (length codes - 1))));
      do pr <- expect (bitpack_unchecked (rd_uint p) rights VNonNull rbw);
      do q <- (match exc with
               | [] => Ok None
               | _ => do ix <- expect (bitpack_unchecked U64 (map (fun e => Z.of_nat (fst e)) exc) VNonNull (bwidth (Z.of_nat (last (map fst exc) 0))));
                      do s <- expect (try_sparse ix (APrim U16 (map snd exc) VAllValid) (length l) 0 VNull); Ok (Some s)
               end);
      expect (try_rd p (nullable (adtype pl)) pl codes pr rbw q) end = Ok (RD p (vnullable v) bl codes br rbw q)) as EE.
  { assert (codes <> []) as NE by (intros ->; cbn in LC; lia). rewrite E1. cbn [expect bind]. rewrite E2. cbn [expect bind]. rewrite EQ. cbn [bind].
    assert (expect (try_rd p (nullable (adtype bl)) bl codes br rbw q) = Ok (RD p (vnullable v) bl codes br rbw q)) as ->; [|destruct codes; [contradiction NE; reflexivity|reflexivity]].
    unfold try_rd. assert (is_float p = true) as -> by (destruct P as [-> | ->]; reflexivity). cbn [negb]. change (alen br) with (length rights). change (alen bl) with (length cs). rewrite Lrs, Lcs, Nat.eqb_refl. cbn [negb].
    rewrite T1, T2. cbn [nullable is_unsigned negb]. rewrite Bool.eqb_reflx. rewrite UU. cbn [negb]. assert (match q with Some x => is_sparse x | None => true end = true) as -> by (unfold q; destruct exc; reflexivity). cbn [negb].
    rewrite (proj2 (Nat.ltb_ge _ _)) by lia. reflexivity. }
  eexists. split; [exact EE|]. split; [|split; reflexivity].
  unfold rd_holds. cbn [d_type d_null d_left d_dict d_right d_rbw d_exc]. rewrite !prim_len. split; [exact P|]. split; [lia|]. split; [lia|]. split; [exact W1|]. split; [exact T1|].
  split; [unfold bl; cbn [codes_in]; rewrite S1; exact Fcs|]. split; [rewrite D1, prim_len; exact Lcs|]. split; [exact W2|]. split; [exact T2|]. split; [rewrite D2, prim_len; exact Lrs|]. split.
  { unfold q. destruct exc; [exact I|]. unfold patches_ok. rewrite <- Lb. split; [exact X2|]. split; [exact X3|]. unfold sp. eauto. }
  intros i Hi. rewrite D1, D2, !nth_prim by lia. cbn [vvalid]. destruct (vvalid v i) eqn:Vi; [|reflexivity]. cbn [rd_row]. f_equal.
  unfold exc_at. cbn [d_exc]. unfold cs, rights. rewrite (map_nth_lt (rd_code codes) lefts 0%Z) by lia. unfold lefts at 2. rewrite !(map_nth_lt _ l 0%Z) by exact Hi.
  pose proof (combine_split p rbw (nth i l 0%Z) ltac:(lia) ltac:(lia) (RG _ (Forall_nth_lt _ _ 0%Z i WR Hi))) as CB.
  assert (nth i lefts 0%Z = left_part rbw (nth i l 0%Z)) as NL by (unfold lefts; rewrite (map_nth_lt _ l 0%Z) by exact Hi; reflexivity).
  assert (nth i bs false = is_exc codes (nth i lefts 0%Z)) as NB by (unfold bs; rewrite (map_nth_lt _ lefts 0%Z) by lia; reflexivity). rewrite NL in NB.
  rewrite <- CB at 1. f_equal. pose proof (code_of_spec codes (left_part rbw (nth i l 0%Z))) as Q. unfold is_exc in NB. unfold rd_code. destruct (code_of codes (left_part rbw (nth i l 0%Z))) as [k|] eqn:EK.
  - destruct Q as [Q1 Q2]. assert (match q with Some x => nth i (logical x) VNull | None => VNull end = VNull) as ->.
    { unfold q. destruct exc; [reflexivity|]. rewrite X4, nth_tab by lia. rewrite NB. reflexivity. }
    rewrite NL, EK, Nat2Z.id. symmetry. exact Q2.
  - assert (q = Some sp) as ->.
    { unfold q. destruct exc eqn:EX; [|reflexivity]. exfalso. assert (In i (set_indices bs)) as HIn by (unfold set_indices; apply filter_In; split; [apply in_seq; lia|exact NB]). rewrite <- EF in HIn. destruct HIn. }
    rewrite X4, nth_tab by lia. rewrite NB. pose proof (pos_of_set_indices bs i ltac:(lia)) as QP. destruct (pos_of _ _) as [k|]; [|congruence]. destruct QP as (_ & K1 & K2). destruct (set_indices_nth bs k K1) as [_ RK]. rewrite K2 in RK. rewrite RK, EG.
    rewrite (map_nth_lt _ (set_indices bs) 0) by exact K1. rewrite K2, NL. reflexivity.
Qed.
Print Assumptions rd_encode_keeps_values.

(** Training on a non-empty sample always gives a usable encoder. *)
Theorem rd_training_gives_an_encoder :
  forall (p : ptype) (sample : list Z) (r : result rd_encoder), (p = F32 \/ p = F64) -> sample <> [] -> rd_chosen p sample r ->
  exists en, r = Ok en /\ encoder_ok p en.
Proof.
  intros p sample r P NE H. unfold rd_chosen in H. destruct sample as [|s0 sample]; [contradiction NE; reflexivity|]. destruct H as (cut & order & HC & ND & HO & ->). eexists. split; [reflexivity|].
  unfold encoder_ok. cbn [rde_width rde_codes]. split; [lia|]. split.
  - rewrite firstn_length. assert (In (left_part (bits p - cut) s0) order) as HIn by (apply HO; left; reflexivity). destruct order; [destruct HIn|]. cbn [length]. lia.
  - apply Forall_forall. intros x Hx. assert (In x order) as Hx' by (rewrite <- (firstn_skipn 8 order); apply in_or_app; left; exact Hx). apply HO, in_map_iff in Hx'. destruct Hx' as (z & <- & _). unfold left_part. apply Z.mod_pos_bound. lia.
Qed.
Print Assumptions rd_training_gives_an_encoder.

(** Compressing with an encoder trained on any non-empty sample of that float type (the array itself or another), then decoding: the same rows, bit for bit. *)
Theorem rd_round_trip :
  forall (p : ptype) (sample l : list Z) (v : validity) (r : result rd_encoder),
  (p = F32 \/ p = F64) -> sample <> [] -> rd_chosen p sample r -> wf f0 (APrim p l v) -> (Z.of_nat (length l) <= pmax U64)%Z ->
  exists en a b, r = Ok en /\ rd_encode en p l v = Ok a /\ d_type a = p /\ d_null a = vnullable v /\ rd_decode a = Ok b /\
    logical b = logical (APrim p l v) /\ adtype b = DPrim p true.
Proof.
  intros p sample l v r P NE HC W HL. destruct (rd_training_gives_an_encoder p sample r P NE HC) as (en & -> & HE).
  destruct (rd_encode_keeps_values f_dec en p l v P HE) as (a & E1 & H & T & N); [exact W|exact HL|intros [X|[X|X]]; discriminate X|].
  destruct (rd_decodes_to_the_rows f_dec a _ H eq_refl eq_refl) as (b & E2 & D & TB). exists en, a, b. rewrite T in TB. auto 10.
Qed.
Print Assumptions rd_round_trip.

(** * What the code gets wrong *)

(** Decoding a non-nullable array gives a nullable one: the validity goes through LogicalValidity. *)
Theorem rd_decode_type_refuted :
  ~ (forall p l v en a b, (p = F32 \/ p = F64) -> encoder_ok p en -> wf f0 (APrim p l v) -> rd_encode en p l v = Ok a -> rd_decode a = Ok b -> adtype b = adtype (APrim p l v)).
Proof.
  intros H. assert (encoder_ok F32 (RDE 16 [16256%Z])) as HE by (unfold encoder_ok; cbn; repeat constructor; lia).
  assert (wf f0 (APrim F32 [1065353216%Z] VNonNull)) as W by (cbn [wf vwf]; split; [constructor; [unfold in_range; cbn; lia|constructor]|exact I]).
  destruct (rd_encode_keeps_values f_dec (RDE 16 [16256%Z]) F32 [1065353216%Z] VNonNull (or_introl eq_refl) HE) as (a & E1 & HH & T & N); [exact W|cbn; discriminate|intros [X|[X|X]]; discriminate X|].
  destruct (rd_decodes_to_the_rows f_dec a _ HH eq_refl eq_refl) as (b & E2 & D & TB). specialize (H F32 _ _ _ a b (or_introl eq_refl) HE W E1 E2). rewrite TB, T in H. discriminate H.
Qed.
(** Training on no values panics, as does encoding with an encoder that has no codes, or an array that is not f32 or f64. *)
Theorem rd_encoding_panics :
  (forall p r, rd_chosen p [] r -> r = Panic) /\
  (forall p l v w, rd_encode (RDE w []) p l v = Panic) /\
  (forall en p l v, p <> F32 -> p <> F64 -> rd_encode en p l v = Panic).
Proof.
  split; [intros p r H; exact H|]. split; [intros p l v w; unfold rd_encode; cbn [rde_codes]; destruct (negb _); reflexivity|].
  intros en p l v H1 H2. unfold rd_encode. assert (negb (match p with F32 | F64 => true | _ => false end) = true) as -> by (destruct p; try reflexivity; congruence). reflexivity.
Qed.
(** An encoder trained on f32 values and applied to f64 values drops bits without an error: the left part of an f64 at an f32 cut point does not fit a u16. *)
Theorem rd_mixed_types_refuted :
  ~ (forall sample en l v a b, sample <> [] -> rd_chosen F32 sample (Ok en) -> wf f0 (APrim F64 l v) -> rd_encode en F64 l v = Ok a -> rd_decode a = Ok b -> logical b = logical (APrim F64 l v)).
Proof.
  intros H. set (en := RDE 16 [16256%Z]). set (l := [4607182418800017408%Z]).
  assert (rd_chosen F32 [1065353216%Z] (Ok en)) as HC.
  { exists 16%Z, [16256%Z]. split; [lia|]. split; [repeat constructor; intros []|]. split; [|reflexivity]. intros x. cbn. intuition. }
  assert (wf f0 (APrim F64 l VNonNull)) as W by (cbn [wf vwf]; split; [constructor; [unfold in_range; cbn; lia|constructor]|exact I]).
  destruct (bitpack_unchecked_ok f_dec U16 [0%Z] VNonNull 1) as (pl & E1 & W1 & T1 & D1 & S1); [reflexivity|repeat constructor; cbn; lia|exact I|repeat constructor; cbn; lia|cbn; lia|intros [X|[X|X]]; discriminate X|].
  destruct (bitpack_unchecked_ok f_dec U64 [0%Z] VNonNull 16) as (pr & E2 & W2 & T2 & D2 & S2); [reflexivity|repeat constructor; cbn; lia|exact I|repeat constructor; cbn; lia|cbn; lia|intros [X|[X|X]]; discriminate X|].
  destruct (bitpack_unchecked_ok f_dec U64 [0%Z] VNonNull 1) as (px & E3 & W3 & T3 & D3 & S3); [reflexivity|repeat constructor; cbn; lia|exact I|repeat constructor; cbn; lia|cbn; lia|intros [X|[X|X]]; discriminate X|].
  cbv zeta in *. set (bl := ABitPacked U16 pl 1 0 _ VNonNull None) in *. set (br := ABitPacked U64 pr 16 0 _ VNonNull None) in *. set (bx := ABitPacked U64 px 1 0 _ VNonNull None) in *.
  destruct (exc_scatter f_dec bx U16 [true] [0%Z]) as (X1 & X2 & X3 & X4); [reflexivity|cbn; discriminate|exact W3|exact T3|split; [exact I|intros _ z; discriminate]|rewrite D3; reflexivity|repeat constructor; cbn; lia|reflexivity|intros [X|[X|X]]; discriminate X|].
  set (sp := ASparse bx (APrim U16 [0%Z] VAllValid) 0 (length [true]) VNull) in *.
  assert (rd_encode en F64 l VNonNull = Ok (RD F64 false bl [16256%Z] br 16 (Some sp))) as EE.
  { unfold rd_encode. change (match F64 with F32 | F64 => true | _ => false end) with true. cbn [negb]. unfold en. cbn [rde_codes rde_width].
    change (map (left_part 16) l) with [0%Z]. change (map (fun z => Z.land z (2 ^ 16 - 1)) l) with [0%Z]. change (map (rd_code [16256%Z]) [0%Z]) with [0%Z]. change (rd_exceptions [16256%Z] 0 [0%Z]) with [(0, 0%Z)].
    cbv zeta. change (bwidth (Z.of_nat (length [16256%Z] - 1))) with 1%Z. rewrite E1. cbn [expect bind]. change (rd_uint F64) with U64. rewrite E2. cbn [expect bind map fst snd last].
    change (bwidth (Z.of_nat 0)) with 1%Z. change (Z.of_nat 0) with 0%Z. rewrite E3. cbn [expect bind]. change (length l) with (length [true]). rewrite X1. cbn [expect bind]. fold sp. reflexivity. }
  assert (rd_holds f_dec (RD F64 false bl [16256%Z] br 16 (Some sp)) [VInt 0]) as HH.
  { unfold rd_holds. cbn [d_type d_null d_left d_dict d_right d_rbw d_exc]. split; [auto|]. split; [cbn; lia|]. split; [cbn; lia|]. split; [exact W1|]. split; [exact T1|]. split; [unfold bl; cbn [codes_in]; rewrite S1; repeat constructor; cbn; lia|].
    split; [rewrite D1; reflexivity|]. split; [exact W2|]. split; [exact T2|]. split; [rewrite D2; reflexivity|]. split; [unfold patches_ok; split; [exact X2|]; split; [exact X3|]; unfold sp; eauto|].
    intros i Hi. assert (i = 0) as -> by (cbn in Hi; lia). unfold exc_at. cbn [d_exc]. rewrite D1, D2, X4. reflexivity. }
  destruct (rd_decodes_to_the_rows f_dec _ _ HH eq_refl eq_refl) as (b & E5 & D & TB).
  specialize (H _ en l VNonNull _ b (fun X : [1065353216%Z] = [] => ltac:(discriminate X)) HC W EE E5). rewrite D in H. discriminate H.
Qed.
Print Assumptions rd_mixed_types_refuted.

(** * The hypotheses are met *)

Definition f_rd : flags := Flags true true true true true true true true true false.
(** 1.0, an infinity, null, -0.0, a NaN with a payload; only the left part of 1.0 is in the dictionary. *)
Example ex_rd :
  let l := [1065353216; 2139095040; 7; 2147483648; 2143289345]%Z in
  let v := VBits [true; true; false; true; true] in
  let en := RDE 23 [127%Z] in
  encoder_ok F32 en /\ wf f_rd (APrim F32 l v) /\ rd_chosen F32 [1065353216; 1065353217]%Z (Ok en) /\
  rd_exceptions (rde_codes en) 0 (map (left_part 23) l) = [(1, 255%Z); (2, 0%Z); (3, 256%Z); (4, 255%Z)].
Proof.
  cbv zeta. split; [unfold encoder_ok; cbn; repeat constructor; lia|]. split; [cbn [wf vwf]; split; [repeat constructor; unfold in_range; cbn; lia|reflexivity]|]. split; [|reflexivity].
  exists 9%Z, [127%Z]. split; [lia|]. split; [repeat constructor; intros []|]. split; [|reflexivity]. intros x. cbn. intuition.
Qed.
(** The mask and the indices of the selection theorems are arbitrary; a flag set that satisfies all of them. *)
Example ex_rd_flags : fs f_rd = true /\ fc f_rd = true /\ fC f_rd = true /\ ft f_rd = true /\ fT f_rd = true /\ fF f_rd = true.
Proof. repeat split. Qed.
