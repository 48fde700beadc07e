(** C22: FSST compression keeps every string and every null; slice, take, filter, element reads and comparisons with constants work on
    the compressed form as on the strings. *)
From Verif Require Import Base Spec CmpSpec SearchModel SearchProofs Arr ArrRead ArrWf ArrReadProofs ArrSearchProofs ArrSlice ArrSliceProofs ArrSliceMain
  ValidityModel PropValidity IntEnc PropIntEnc RunEnc PropRunEnc PropUnary PropDict ArrOps OpsBase OpsFlat OpsCanon OpsCanon2 OpsCanon3 OpsTake OpsVarBin OpsFilter OpsFilter2
  OpsChunked OpsMain PropRead PropSlice PropOps PropVarBin DateTime StatsModel Compare CmpProofs Fsst.

(** * Proofs *)
(** A VarBin array laid out from a list of optional strings. *)
Lemma vb_array_ok f u p L v : is_int p = true -> in_range p (Z.of_nat (length (odata L))) -> vwf v (length L) ->
  (forall k, k < length L -> vvalid v k = is_some (nth k L None)) ->
  (u = true -> forall s, In (Some s) L -> utf8_valid s = true) ->
  (fc f = true -> u = true) -> (fC f = true -> (Z.of_nat (length (odata L)) <= pmax I32)%Z) -> (fF f = true -> fC f = true) ->
  fT f = false -> fN f = false ->
  let a := AVarBin u (APrim p (map Z.of_nat (offsets_from 0 (olens L))) VNonNull) (odata L) v in
  wf f a /\ logical a = map vopt L /\ alen a = length L.
Proof.
  intros Hp HR V2 V3 Hu H1 H2 H3 H4 H5 a. set (offs := map Z.of_nat (offsets_from 0 (olens L))) in *.
  assert (length offs = S (length L)) as LO by (unfold offs, olens; rewrite map_length, offsets_from_length, map_length; reflexivity).
  assert (Forall (fun z => (0 <= z <= Z.of_nat (length (odata L)))%Z) offs) as FB.
  { apply (Forall_nth _ offs). intros k d Hk. rewrite (nth_indep _ d 0%Z Hk). rewrite LO in Hk. unfold offs.
    rewrite (map_nth_lt Z.of_nat _ 0) by (unfold olens; rewrite offsets_from_length, map_length; lia).
    rewrite nth_offsets_from by (unfold olens; rewrite map_length; lia). rewrite odata_length.
    pose proof (list_sum_firstn_mono (olens L) k (length (olens L))) as Q. rewrite firstn_all in Q. unfold olens in *. rewrite map_length in Q. lia. }
  assert (logical (APrim p offs VNonNull) = map VInt offs) as LP by (cbn [logical vvalid]; symmetry; apply (map_ext_nth_tab VInt offs 0%Z)).
  assert (ints (map VInt offs) = offs) as IO by (unfold ints; rewrite map_map; apply map_id).
  assert (logical a = map vopt L) as EL.
  { unfold a. rewrite vb_logical, LP, IO. cbn [alen]. rewrite LO. cbn [Nat.sub]. rewrite Nat.sub_0_r.
    rewrite (map_ext_nth_tab vopt L None). apply tab_ext. intros k Hk. unfold vb_opt. rewrite V3 by exact Hk.
    destruct (nth k L None) as [s|] eqn:EN; cbn [is_some vopt]; [|reflexivity]. f_equal. unfold vb_str, offs.
    rewrite !(map_nth_lt Z.of_nat _ 0) by (unfold olens; rewrite offsets_from_length, map_length; lia).
    rewrite !nth_offsets_from by (unfold olens; rewrite map_length; lia). rewrite !Nat2Z.id. cbn [Nat.add].
    assert (nth k (olens L) 0 = length s) as EK by (unfold olens; rewrite (map_nth_lt _ L None) by exact Hk; rewrite EN; reflexivity).
    assert (list_sum (firstn (k + 1) (olens L)) = list_sum (firstn k (olens L)) + length s) as E1.
    { rewrite <- EK. rewrite Nat.add_1_r. apply list_sum_firstn_S. unfold olens; rewrite map_length; exact Hk. }
    rewrite E1. pose proof (lslice_concat_one (map ob L) k 0 (length s)) as Q.
    rewrite map_map in Q. change (map (fun x => length (ob x)) L) with (olens L) in Q. rewrite map_length, nth_ilens, EN in Q. cbn [ob] in Q.
    rewrite Nat.add_0_r in Q. unfold odata. rewrite Q by lia. apply lslice_full. }
  split; [|split; [exact EL|unfold a; cbn [alen]; rewrite LO; lia]].
  unfold a. cbn [wf]. rewrite LP, IO. cbn [alen]. rewrite LO.
  split. { split; [|exact I]. eapply Forall_impl; [|exact FB]. intros z Hz. cbv beta in Hz. eapply in_range_le; eauto. }
  split; [exists p; auto|]. split; [lia|]. split; [apply offsets_sorted|]. split; [exact FB|].
  split; [cbn [Nat.sub]; rewrite Nat.sub_0_r; exact V2|].
  split; [|auto 10].
  intros U s Hs. change (In (VBytes s) (logical a)) in Hs. rewrite EL in Hs. apply in_map_iff in Hs. destruct Hs as (x & Ex & Hx). destruct x as [t|]; [|discriminate]. cbn in Ex. injection Ex as ->. eauto.
Qed.

(** Builders and slices keep null rows empty. *)
Lemma tight_finish u nl p L b : vbb_finish u nl p (vb_st L) = Ok b -> tight b.
Proof.
  unfold vbb_finish. cbn [b_valid vb_st b_offs b_data].
  assert (forall v, (forall k, k < length L -> vvalid v k = is_some (nth k L None)) -> tight (AVarBin u (APrim p (map Z.of_nat (offsets_from 0 (olens L))) VNonNull) (odata L) v)) as G.
  { intros v V. cbn [tight]. rewrite map_length, offsets_from_length. unfold olens at 1. rewrite map_length. cbn [Nat.sub]. rewrite Nat.sub_0_r. intros i Hi Hv. rewrite V in Hv by exact Hi.
    rewrite !(map_nth_lt Z.of_nat _ 0) by (rewrite offsets_from_length; unfold olens; rewrite map_length; lia).
    rewrite !nth_offsets_from by (unfold olens; rewrite map_length; lia). rewrite Nat.add_1_r, list_sum_firstn_S by (unfold olens; rewrite map_length; lia).
    unfold olens at 2. rewrite (map_nth_lt _ L None) by exact Hi. destruct (nth i L None); [discriminate|]. cbn [ob length]. f_equal. lia. }
  destruct (forallb id (map is_some L)) eqn:EA.
  - apply all_some_forallb in EA. assert (forall k, k < length L -> true = is_some (nth k L None)) as Q.
    { intros k Hk. pose proof (Forall_nth_lt _ _ None k EA Hk) as Q. cbv beta in Q. destruct (nth k L None); [reflexivity|congruence]. }
    destruct nl; cbn [bind]; unfold try_varbin; repeat match goal with |- context [if ?c then _ else _] => destruct c end; try discriminate; intros [= <-]; apply G; exact Q.
  - destruct nl; [|discriminate]. cbn [bind]. unfold try_varbin. repeat match goal with |- context [if ?c then _ else _] => destruct c end; try discriminate. intros [= <-]. apply G.
    intros k Hk. rewrite vvalid_vfrom by (rewrite map_length; exact Hk). apply (map_nth_lt is_some L None). exact Hk.
Qed.
Lemma tight_slice p a b i j : vb_plain p a -> tight a -> i <= j -> j <= alen a -> slice a i j = Ok b -> tight b.
Proof.
  intros [W (u & ol & bytes & v & ->)] T Hij Hj E. cbn [wf alen] in *. destruct W as (_ & _ & W3 & _ & _ & W6 & _).
  change (slice (AVarBin u (APrim p ol VNonNull) bytes v) i j) with
    (if slice_bad (alen (AVarBin u (APrim p ol VNonNull) bytes v)) i j then Err else do offs' <- slice (APrim p ol VNonNull) i (j + 1); do v' <- vslice v i j; try_varbin u offs' bytes v') in E.
  destruct (slice_bad _ _ _); [discriminate|]. destruct (slice (APrim p ol VNonNull) i (j + 1)) as [x| |] eqn:Ex; try discriminate. cbn [bind] in E.
  destruct (vslice_ok v (length ol - 1) i j W6 Hij Hj) as (v' & Ev & _ & _ & Vv & _). rewrite Ev in E. cbn [bind] in E. unfold try_varbin in E.
  repeat match type of E with (if ?c then _ else _) = _ => destruct c; try discriminate E end. assert (b = AVarBin u x bytes v') as -> by congruence. clear E.
  cbn [slice] in Ex. destruct (slice_bad _ _ _); [discriminate|]. cbn [vslice bind] in Ex. unfold try_prim in Ex. cbn [vfits] in Ex. assert (x = APrim p (lslice ol i (j + 1)) VNonNull) as -> by (cbn in Ex; congruence).
  cbn [tight] in *. rewrite lslice_length by lia. intros k Hk Hv. rewrite !nth_lslice by lia. rewrite Vv in Hv by lia. rewrite Nat.add_assoc. apply T; [lia|exact Hv].
Qed.

(** The bytes of tight codes are the concatenation of the rows' codes. *)
Lemma tight_concat p u ol bytes v : wf f0 (AVarBin u (APrim p ol VNonNull) bytes v) -> tight (AVarBin u (APrim p ol VNonNull) bytes v) ->
  let n := length ol - 1 in
  lslice bytes (Z.to_nat (nth 0 ol 0%Z)) (Z.to_nat (nth n ol 0%Z)) = odata (map (vb_opt ol bytes v) (seq 0 n)).
Proof.
  intros W T n. cbn [wf tight] in *. destruct W as (_ & _ & W3 & W4 & W5 & _).
  assert (logical (APrim p ol VNonNull) = map VInt ol) as LP by (cbn [logical vvalid]; symmetry; apply (map_ext_nth_tab VInt ol 0%Z)).
  assert (ints (map VInt ol) = ol) as IO by (unfold ints; rewrite map_map; apply map_id). rewrite LP, IO in W4, W5. cbn [alen] in W3.
  destruct (slice_strs ol bytes W4 W5 0 n ltac:(lia) ltac:(unfold n; lia)) as [E1 _]. rewrite Nat.sub_0_r in E1. rewrite <- E1. unfold odata. rewrite map_map. f_equal.
  apply map_ext_in. intros i Hi. apply in_seq in Hi. unfold vb_opt. destruct (vvalid v i) eqn:EV; cbn [ob]; [reflexivity|].
  unfold vb_str. rewrite (T i ltac:(unfold n in Hi; lia) EV). unfold lslice. rewrite Nat.sub_diag. reflexivity.
Qed.

Lemma plain_view p a : vb_plain p a -> exists u ol bytes v, a = AVarBin u (APrim p ol VNonNull) bytes v /\ length (logical a) = length ol - 1 /\ 1 <= length ol /\
  (forall i, i < length ol - 1 -> nth i (logical a) VNull = vopt (vb_opt ol bytes v i)) /\ vwf v (length ol - 1) /\ Forall (fun z => (0 <= z <= Z.of_nat (length bytes))%Z) ol /\ sortedZ ol /\
  Forall (in_range p) ol /\ is_int p = true.
Proof.
  intros [W (u & ol & bytes & v & ->)]. exists u, ol, bytes, v. split; [reflexivity|].
  assert (logical (APrim p ol VNonNull) = map VInt ol) as LP by (cbn [logical vvalid]; symmetry; apply (map_ext_nth_tab VInt ol 0%Z)).
  assert (ints (map VInt ol) = ol) as IO by (unfold ints; rewrite map_map; apply map_id).
  cbn [wf] in W. rewrite LP, IO in W. destruct W as ((W1 & _) & (q & Q1 & Q2) & W3 & W4 & W5 & W6 & _). cbn [adtype vnullable] in Q1. injection Q1 as <-. cbn [alen] in W3, W6.
  rewrite vb_logical, LP, IO, tab_length. cbn [alen]. split; [reflexivity|]. split; [lia|]. split; [intros i Hi; rewrite nth_tab by exact Hi; reflexivity|auto 10].
Qed.

(** The rebuilt array of selected rows. *)
Lemma holds_sel f g p syms a rows rows' (σ : nat -> nat) c l : holds f p syms a rows -> (forall x, wf f x -> wf g x) ->
  (forall k, k < length rows' -> σ k < length rows /\ nth k rows' None = nth (σ k) rows None /\
     nth k (logical c) VNull = nth (σ k) (logical (s_codes a)) VNull /\ nth k (logical l) VNull = nth (σ k) (logical (s_ulens a)) VNull) ->
  length (logical c) = length rows' -> length (logical l) = length rows' ->
  vb_plain p c -> tight c -> adtype c = adtype (s_codes a) -> wf g l -> adtype l = DPrim I32 false ->
  exists b, try_fsst (s_utf8 a) (s_nl a) (s_syms a) (s_lens a) c l = Ok b /\ holds g p syms b rows'.
Proof.
  intros (HS & HP & HT & HD & WU & TU & LC & LU & HR) FL S LC' LU' PC TC DC Wl Tl.
  pose proof HS as (W1 & T1 & W2 & T2 & L1 & L2 & O & H).
  unfold try_fsst. rewrite T1, T2. cbn [dtype_eqb ptype_eqb Bool.eqb andb negb]. rewrite <- !logical_length, L1, L2, LC', LU', !Nat.eqb_refl. cbn [negb].
  destruct O as [O1 O2]. rewrite (proj2 (Z.ltb_ge _ _)) by lia. rewrite Tl, DC, HD. cbn [int_nonnull is_int negb is_binary].
  destruct PC as [WC (u' & ol' & by' & v' & ->)]. cbn [is_varbin negb]. eexists. split; [reflexivity|].
  unfold holds, has_symbols. cbn [s_syms s_lens s_codes s_ulens s_nl s_utf8]. split.
  { split; [apply FL; assumption|]. split; [exact T1|]. split; [apply FL; assumption|]. repeat split; auto; apply H; assumption. }
  split; [split; [exact WC|eauto]|]. split; [exact TC|]. split; [congruence|]. split; [exact Wl|]. split; [exact Tl|]. split; [exact LC'|]. split; [exact LU'|].
  intros k Hk. destruct (S k Hk) as (S1 & S2 & S3 & S4). rewrite S2, S3, S4. apply HR. exact S1.
Qed.

(** * Theorems *)

(** Compressing: the array holds exactly the rows given, for any symbols and any compressor whose codes spell their input. *)
Definition compressor_ok (syms : list (list Z)) (comp : list Z -> list Z) : Prop := symbols_ok syms /\ forall s, spells syms (comp s) s.

Lemma str_opts_row L : str_opts (map row L) = L.
Proof. unfold str_opts. rewrite map_map. rewrite <- (map_id L) at 2. apply map_ext. intros [s|]; reflexivity. Qed.
Lemma row_str_opts u n l : Forall (vtyped (str_dtype u n)) l -> map row (str_opts l) = l.
Proof.
  intros H. unfold str_opts. rewrite map_map. rewrite <- (map_id l) at 2. apply map_ext_in. intros x Hx. rewrite Forall_forall in H. specialize (H x Hx). destruct u, x; cbn in H; try contradiction; reflexivity.
Qed.
Lemma i32_pos n : (Z.of_nat n <= pmax I32)%Z -> in_range I32 (Z.of_nat n).
Proof. unfold in_range. change (pmin I32) with (-2147483648)%Z. lia. Qed.

Theorem fsst_compress_keeps_rows :
  forall (f : flags) (syms : list (list Z)) (comp : list Z -> list Z) (u nl : bool) (rows : list (option (list Z))),
  compressor_ok syms comp ->
  (u = true -> forall s, In (Some s) rows -> utf8_valid s = true) -> (nl = false -> ~ In None rows) ->
  (Z.of_nat (total_bytes (map row rows)) <= pmax I32)%Z -> (Z.of_nat (total_bytes (map row (map (option_map comp) rows))) <= pmax I32)%Z ->
  exists a, fsst_compress_iter u nl syms comp rows = Ok a /\ s_utf8 a = u /\ s_nl a = nl /\ holds f I32 syms a rows.
Proof.
  intros f syms comp u nl rows [O SP] Hu Hn HT HC. unfold fsst_compress_iter.
  assert (in_range I32 (Z.of_nat (length (odata (map (option_map comp) rows))))) as HR by (rewrite total_row in HC; apply i32_pos; exact HC).
  set (L := map (option_map comp) rows) in *.
  assert (vb_build false nl I32 L = vbb_finish false nl I32 (vb_st L)) as EB.
  { unfold vb_build. change vbb_new with (vb_st []). rewrite build_foldM; [reflexivity|]. intros pre' post E. cbn [app]. eapply in_range_le; [exact HR|]. rewrite E, odata_app, app_length. lia. }
  destruct (varbin_build_keeps_rows false nl I32 L eq_refl) as (codes & E & Lc & Dc & Vc); auto; try discriminate.
  { intros N H. apply in_map_iff in H. destruct H as ([s|] & E & Hs); [discriminate|]. exact (Hn N Hs). }
  rewrite E. cbn [bind]. assert (tight codes) as TC by (rewrite EB in E; eapply tight_finish; exact E).
  pose proof O as [O1 O2].
  assert (length (logical codes) = length rows) as LL by (rewrite Lc; unfold L; rewrite !map_length; reflexivity).
  unfold try_fsst. cbn [adtype vnullable dtype_eqb ptype_eqb Bool.eqb andb negb alen]. rewrite !map_length, Nat.eqb_refl. rewrite (proj2 (Z.ltb_ge _ _)) by lia.
  rewrite <- logical_length, LL, Nat.eqb_refl. cbn [negb int_nonnull is_int]. rewrite Dc. cbn [str_dtype is_binary negb].
  pose proof Vc as [_ (u' & ol' & by' & v' & ->)]. cbn [is_varbin negb expect]. set (codes := AVarBin u' (APrim I32 ol' VNonNull) by' v') in *. eexists. split; [reflexivity|]. split; [reflexivity|]. split; [reflexivity|].
  unfold holds, has_symbols. cbn [s_syms s_lens s_codes s_ulens s_nl s_utf8 adtype vnullable]. rewrite !prim_len, !map_length.
  assert (forall s, In (Some s) rows -> in_range I32 (Z.of_nat (length s))) as RS.
  { intros s Hs. apply i32_pos. apply in_split in Hs. destruct Hs as (l1 & l2 & ->). rewrite total_row, odata_app, app_length in HT. change (odata (Some s :: l2)) with (s ++ odata l2) in HT. rewrite app_length in HT.
    set (pm := pmax I32) in *. clearbody pm. lia. }
  split.
  { split; [split; [|exact I]; apply Forall_map; eapply Forall_impl; [|exact O2]; intros x [X1 X2]; apply le_word_u64; assumption|]. split; [reflexivity|].
    split; [split; [|exact I]; apply Forall_map; eapply Forall_impl; [|exact O2]; intros x [X1 X2]; unfold in_range; change (pmin U8) with 0%Z; change (pmax U8) with 255%Z; lia|].
    split; [reflexivity|]. split; [reflexivity|]. split; [reflexivity|]. split; [exact O|].
    intros k Hk. rewrite !nth_prim by (rewrite map_length; exact Hk). cbn [vvalid]. rewrite !(map_nth_lt _ syms []) by exact Hk. auto. }
  split; [exact Vc|]. split; [exact TC|]. split; [exact Dc|]. split.
  { split; [|exact I]. apply Forall_map, Forall_forall. intros [s|] Hs; cbn [ulen]; [|unfold in_range; vm_compute; split; discriminate]. apply wrap_in_range. }
  split; [reflexivity|]. split; [exact LL|]. split; [reflexivity|]. intros i Hi.
  rewrite nth_prim by (rewrite map_length; exact Hi). cbn [vvalid]. rewrite (map_nth_lt ulen rows None) by exact Hi. rewrite Lc. unfold L. rewrite map_map. rewrite (map_nth_lt _ rows None) by exact Hi.
  pose proof (nth_In rows None Hi) as HI. destruct (nth i rows None) as [s|]; cbn [option_map row srow ulen]; [|auto].
  rewrite wrap_id by (apply RS; exact HI). split; [intros U; exact (Hu U s HI)|]. split; [|reflexivity]. exists (comp s). auto.
Qed.
Print Assumptions fsst_compress_keeps_rows.

(** ... and so for a string array in either string encoding; anything else is an error. *)
Theorem fsst_compress_array_keeps_rows :
  forall (f g : flags) (syms : list (list Z)) (comp : list Z -> list Z) (a : array), compressor_ok syms comp -> wf f a ->
  (exists u vs bufs v, a = AView u vs bufs v) \/ (exists u o bytes v, a = AVarBin u o bytes v) ->
  (Z.of_nat (total_bytes (logical a)) <= pmax I32)%Z ->
  (Z.of_nat (total_bytes (map row (map (option_map comp) (str_opts (logical a))))) <= pmax I32)%Z ->
  exists b, fsst_compress syms comp a = Ok b /\ fsst_dtype b = adtype a /\ map row (str_opts (logical a)) = logical a /\ holds g I32 syms b (str_opts (logical a)).
Proof.
  intros f g syms comp a K W HA HT HC. pose proof (vtyped_logical a f W) as TY.
  assert (exists u, adtype a = str_dtype u (nullable (adtype a)) /\ fsst_compress syms comp a = fsst_compress_iter u (nullable (adtype a)) syms comp (str_opts (logical a)) /\
    (u = true -> forall s, In (VBytes s) (logical a) -> utf8_valid s = true)) as (u & D & E & U).
  { destruct HA as [(u & vs & bufs & v & ->)|(u & o & bytes & v & ->)]; exists u; (split; [cbn [adtype]; destruct u; reflexivity|]); (split; [reflexivity|]).
    - cbn [wf] in W. destruct W as (_ & _ & W & _). exact W.
    - cbn [wf] in W. destruct W as (_ & _ & _ & _ & _ & _ & W & _). exact W. }
  pose proof TY as TY'. rewrite D in TY'. pose proof (row_str_opts _ _ _ TY') as RO.
  destruct (fsst_compress_keeps_rows g syms comp u (nullable (adtype a)) (str_opts (logical a)) K) as (b & Eb & Ub & Nb & Hb).
  - intros Hu s Hs. apply (U Hu). rewrite <- RO. apply in_map_iff. exists (Some s). auto.
  - intros N H. assert (In VNull (logical a)) as X by (rewrite <- RO; apply in_map_iff; exists None; auto).
    rewrite Forall_forall in TY. specialize (TY VNull X). destruct (adtype a); cbn in *; congruence.
  - rewrite RO. exact HT.
  - exact HC.
  - exists b. rewrite E. split; [exact Eb|]. unfold fsst_dtype. rewrite Ub, Nb. auto.
Qed.
Print Assumptions fsst_compress_array_keeps_rows.

(** Reading one row of a compressed array gives that row; out of range is an error. *)
Theorem fsst_scalar_at_is_the_row :
  forall (f : flags) (p : ptype) (syms : list (list Z)) (a : fsst) (rows : list (option (list Z))), holds f p syms a rows -> fc f = true -> fC f = true ->
  (forall i, i < length rows -> fsst_scalar_at a i = Ok (row (nth i rows None))) /\
  (forall i, length rows <= i -> fsst_scalar_at a i = Err).
Proof.
  intros f p syms a rows (HS & HP & HT & HD & WU & TU & LC & LU & HR) C CC. pose proof HS as (_ & _ & _ & _ & _ & _ & O & _).
  unfold fsst_scalar_at. rewrite <- logical_length, LC. split; intros i Hi; [|rewrite (proj2 (Nat.leb_le _ _)) by lia; reflexivity].
  rewrite (proj2 (Nat.leb_gt _ _)) by lia. pose proof HP as [W _]. destruct (reads_ok _ _ W) as [(R1 & _ & R2) _]. assert (i < alen (s_codes a)) as Hi' by (rewrite <- logical_length; lia).
  unfold is_valid. rewrite R1 by exact Hi'. cbn [bind]. specialize (HR i Hi). destruct (nth i rows None) as [s|]; cbn [srow row] in *.
  - destruct HR as (U & (cs & Ec & Sp) & _). unfold scalar_at_unchecked.
    rewrite R2 by (auto; rewrite ?Ec, ?HD; try discriminate; reflexivity). rewrite Ec. cbn [is_null negb bind].
    rewrite (symbol_table_ok f a syms HS C CC). cbn [bind]. rewrite (decompress_spells syms cs s O Sp). cbn [bind]. unfold bytes_scalar.
    destruct (s_utf8 a); [rewrite U by reflexivity|]; reflexivity.
  - destruct HR as [Ec _]. rewrite Ec. reflexivity.
Qed.
Print Assumptions fsst_scalar_at_is_the_row.

Lemma acc_offsets_ok lens acc : (Z.of_nat (acc + list_sum lens) <= pmax I32)%Z -> acc_offsets (Z.of_nat acc) (map Z.of_nat lens) = Ok (map Z.of_nat (offsets_from acc lens)).
Proof.
  revert acc. induction lens as [|n r IH]; intros acc H; [reflexivity|]. cbn [map acc_offsets offsets_from]. change (list_sum (n :: r)) with (n + list_sum r) in H.
  rewrite <- Nat2Z.inj_add. rewrite (proj2 (in_rangeb_spec _ _)) by (apply i32_pos; set (pm := pmax I32) in *; clearbody pm; lia).
  rewrite IH by (rewrite <- Nat.add_assoc; exact H). reflexivity.
Qed.
Lemma acc_offsets_panics lens acc : (pmax I32 < Z.of_nat (acc + list_sum lens))%Z -> (Z.of_nat acc <= pmax I32)%Z -> acc_offsets (Z.of_nat acc) (map Z.of_nat lens) = Panic.
Proof.
  revert acc. induction lens as [|n r IH]; intros acc H H0.
  - change (list_sum []) with 0 in H. rewrite Nat.add_0_r in H. set (pm := pmax I32) in *. clearbody pm. lia.
  - cbn [map acc_offsets]. change (list_sum (n :: r)) with (n + list_sum r) in H. rewrite <- Nat2Z.inj_add.
    destruct (in_rangeb I32 (Z.of_nat (acc + n))) eqn:E; [|reflexivity]. apply in_rangeb_spec in E. destruct E as [_ E]. rewrite IH; [reflexivity| |exact E]. rewrite <- Nat.add_assoc. exact H.
Qed.

Lemma spells_concat syms (h r : nat -> option (list Z)) n :
  (forall i, i < n -> match r i with None => h i = None | Some s => exists cs, h i = Some cs /\ spells syms cs s end) ->
  spells syms (odata (map h (seq 0 n))) (odata (map r (seq 0 n))).
Proof.
  assert (forall m k, (forall i, k <= i < k + m -> match r i with None => h i = None | Some s => exists cs, h i = Some cs /\ spells syms cs s end) ->
    spells syms (odata (map h (seq k m))) (odata (map r (seq k m)))) as G.
  { induction m as [|m IH]; intros k H; [constructor|]. cbn [seq map]. change (spells syms (ob (h k) ++ odata (map h (seq (S k) m))) (ob (r k) ++ odata (map r (seq (S k) m)))).
    apply spells_app; [|apply IH; intros i Hi; apply H; lia]. specialize (H k ltac:(lia)). destruct (r k) as [s|]; [destruct H as (cs & -> & H); exact H|rewrite H; constructor]. }
  intros H. apply G. intros i Hi. apply H. lia.
Qed.

(** What decoding computes before the offsets: the symbol table, and the concatenated strings of all rows. *)
Lemma fsst_canon_parts f p syms a rows : holds f p syms a rows -> fc f = true -> fC f = true ->
  exists v, vwf v (length rows) /\ (forall k, k < length rows -> vvalid v k = is_some (nth k rows None)) /\ vnullable v = s_nl a /\
  fsst_canon a = (do ol <- acc_offsets 0 (map Z.of_nat (olens rows)); do r <- try_varbin (s_utf8 a) (APrim I32 ol VNonNull) (odata rows) v; canon r).
Proof.
  intros (HS & HP & HT & HD & WU & TU & LC & LU & HR) C CC. pose proof HS as (_ & _ & _ & _ & _ & _ & O & _).
  unfold fsst_canon. rewrite (symbol_table_ok f a syms HS C CC). cbn [bind].
  destruct (plain_view p _ HP) as (u & ol & bytes & v & EA & L1 & L0 & NV & VW & FO & SO & RO & Ip). rewrite EA in *. rewrite L1 in LC. set (n := length rows) in *.
  pose proof HP as [W _].
  assert (wf f0 (APrim p ol VNonNull)) as Wo by (split; [exact RO|exact I]).
  assert (forall k, k < length ol -> scalar_at (APrim p ol VNonNull) k = Ok (VInt (nth k ol 0%Z))) as SA.
  { intros k Hk. rewrite (proj1 (scalar_at_is_the_element f0 _ Wo) k) by (rewrite prim_len; exact Hk). rewrite nth_prim by exact Hk. reflexivity. }
  pose proof (Forall_nth_lt _ _ 0%Z 0 FO ltac:(lia)) as F0. pose proof (Forall_nth_lt _ _ 0%Z (length ol - 1) FO ltac:(lia)) as F1. cbv beta in F0, F1.
  pose proof (sortedZ_nth ol 0 (length ol - 1) SO ltac:(lia) ltac:(lia)) as F2.
  assert (sliced_bytes (APrim p ol VNonNull) bytes = Ok (odata (map (vb_opt ol bytes v) (seq 0 n)))) as ES.
  { unfold sliced_bytes. cbn [alen]. rewrite !SA by lia. cbn [bind usize_of]. rewrite (proj2 (Z.leb_le _ _)) by lia. cbn [bind]. rewrite (proj2 (Z.leb_le _ _)) by lia. cbn [bind].
    unfold bytes_slice. rewrite !(proj2 (Z.ltb_ge _ _)) by lia. cbn [orb]. pose proof (tight_concat p u ol bytes v W HT) as TC. cbv zeta in TC. rewrite TC, LC. reflexivity. }
  rewrite ES. cbn [bind].
  assert (forall i, i < n -> match nth i rows None with None => vb_opt ol bytes v i = None | Some s => exists cs, vb_opt ol bytes v i = Some cs /\ spells syms cs s end) as SPR.
  { intros i Hi. specialize (HR i Hi). rewrite NV in HR by lia. destruct (nth i rows None) as [s|]; cbn [srow] in HR.
    - destruct HR as (_ & (cs & E & Sp) & _). exists cs. split; [|exact Sp]. destruct (vb_opt ol bytes v i); cbn [vopt] in E; congruence.
    - destruct HR as [E _]. destruct (vb_opt ol bytes v i); cbn [vopt] in E; congruence. }
  pose proof (spells_concat syms (vb_opt ol bytes v) (fun i => nth i rows None) n SPR) as SP.
  assert (map (fun i => nth i rows None) (seq 0 n) = rows) as ER.
  { apply (nth_ext_len _ _ None); [rewrite map_length, seq_length; reflexivity|]. rewrite map_length, seq_length. intros k Hk. rewrite (map_nth_lt _ _ 0) by (rewrite seq_length; exact Hk). rewrite seq_nth by exact Hk. reflexivity. }
  rewrite ER in SP. rewrite (decompress_spells syms _ _ O SP). cbn [bind].
  destruct (canon_prim f _ I32 false WU C CC TU) as (ls & w & EL & NL & _ & _ & DL). rewrite EL. cbn [bind]. change (ptype_eqb I32 I32) with true. cbn [negb].
  assert (ls = map Z.of_nat (olens rows)) as ->.
  { rewrite <- DL, prim_len in LU. apply (nth_ext_len _ _ 0%Z); [unfold olens; rewrite !map_length; exact LU|]. intros k Hk. specialize (HR k ltac:(lia)). rewrite <- DL, nth_prim in HR by exact Hk.
    assert (vvalid w k = true) as Vk by (destruct w; try discriminate NL; reflexivity). rewrite Vk in HR. unfold olens. rewrite map_map. rewrite (map_nth_lt _ rows None) by lia.
    destruct (nth k rows None) as [s|]; cbn [srow ob] in *; [destruct HR as (_ & _ & E)|destruct HR as (_ & E)]; cbn [length]; injection E as E; exact E. }
  exists v. rewrite LC in VW. split; [exact VW|]. split; [|split; [cbn [adtype] in HD; destruct u; congruence|reflexivity]].
  intros k Hk. specialize (SPR k Hk). unfold vb_opt in SPR. destruct (nth k rows None) as [s|]; destruct (vvalid v k); try reflexivity; [destruct SPR as (cs & X & _); discriminate|discriminate].
Qed.

(** Decoding a whole compressed Utf8 array gives its strings and nulls (of at most 2^31 - 1 bytes in all). *)
Theorem fsst_decodes_to_the_rows :
  forall (f : flags) (p : ptype) (syms : list (list Z)) (a : fsst) (rows : list (option (list Z))), holds f p syms a rows -> fc f = true -> fC f = true ->
  s_utf8 a = true -> (Z.of_nat (total_bytes (map row rows)) <= pmax I32)%Z ->
  exists c, fsst_canon a = Ok c /\ logical c = map row rows /\ adtype c = DUtf8 (s_nl a) /\ is_canon c = true /\ wf (Flags false false true false true true false false false false) c.
Proof.
  intros f p syms a rows H C CC U HT. destruct (fsst_canon_parts f p syms a rows H C CC) as (v & V1 & V2 & V3 & E). rewrite E. clear E.
  pose proof H as (_ & _ & _ & _ & _ & _ & _ & _ & HR). rewrite total_row in HT.
  change (acc_offsets 0 (map Z.of_nat (olens rows))) with (acc_offsets (Z.of_nat 0) (map Z.of_nat (olens rows))). rewrite (acc_offsets_ok (olens rows) 0) by (rewrite <- odata_length; exact HT). cbn [bind]. rewrite U.
  set (F := Flags false false true true true true false false false true).
  destruct (vb_array_ok F true I32 rows v eq_refl (i32_pos _ HT) V1 V2) as (W & L & A); auto; try discriminate.
  { intros _ s Hs. apply (In_nth _ _ None) in Hs. destruct Hs as (i & Hi & Es). specialize (HR i Hi). rewrite Es in HR. cbn [srow] in HR. destruct HR as (X & _). auto. }
  set (b := AVarBin true _ _ v) in *. unfold try_varbin. cbn [adtype vnullable int_nonnull]. change (is_int I32) with true. cbn [negb].
  assert (alen (APrim I32 (map Z.of_nat (offsets_from 0 (olens rows))) VNonNull) = S (length rows)) as -> by (cbn [alen]; unfold olens; rewrite map_length, offsets_from_length, map_length; reflexivity).
  cbn [Nat.eqb Nat.sub]. rewrite Nat.sub_0_r. rewrite (proj2 (vfits_vwf _ _) V1). cbn [negb bind].
  pose proof (canon_pl F b W eq_refl) as G. unfold outc in G. fold b. destruct (canon b) as [c| |]; [|contradiction (G eq_refl)|contradiction (G eq_refl)].
  destruct G as (G1 & G2 & G3 & G4 & G5). exists c. split; [reflexivity|]. split; [rewrite G2, L; reflexivity|]. split; [rewrite G4 by (left; reflexivity); unfold b; cbn [adtype]; rewrite V3; reflexivity|]. auto.
Qed.
Print Assumptions fsst_decodes_to_the_rows.

(** The limit is real: however well it compressed, an array of more than 2^31 - 1 bytes of strings cannot be decoded. *)
Theorem fsst_decoding_limit :
  forall (f : flags) (p : ptype) (syms : list (list Z)) (a : fsst) (rows : list (option (list Z))), holds f p syms a rows -> fc f = true -> fC f = true ->
  (pmax I32 < Z.of_nat (total_bytes (map row rows)))%Z -> fsst_canon a = Panic.
Proof.
  intros f p syms a rows H C CC HT. destruct (fsst_canon_parts f p syms a rows H C CC) as (v & _ & _ & _ & E). rewrite E. rewrite total_row in HT.
  change (acc_offsets 0 (map Z.of_nat (olens rows))) with (acc_offsets (Z.of_nat 0) (map Z.of_nat (olens rows))). rewrite (acc_offsets_panics (olens rows) 0); [reflexivity| |]; [rewrite <- odata_length; exact HT|vm_compute; discriminate].
Qed.
Print Assumptions fsst_decoding_limit.

(** slice, take and filter of the compressed array hold the selected rows. *)
Theorem fsst_slice_the_rows :
  forall (f : flags) (p : ptype) (syms : list (list Z)) (a : fsst) (rows : list (option (list Z))) (i j : nat), holds f p syms a rows ->
  i <= j -> j <= length rows -> (fs f = true \/ (fn f = true /\ i < j)) ->
  exists b, fsst_slice a i j = Ok b /\ holds f p syms b (spec_slice rows i j).
Proof.
  intros f p syms a rows i j H Hij Hj FS. pose proof H as (HS & HP & HT & HD & WU & TU & LC & LU & HR).
  unfold fsst_slice, slice_bad. rewrite <- logical_length, LC. rewrite !(proj2 (Nat.ltb_ge _ _)) by lia. cbn [orb].
  destruct (varbin_slice_keeps_rows p _ i j HP Hij ltac:(lia)) as (c & E1 & D1 & T1 & P1). destruct (slice_commutes_with_decoding f _ i j WU Hij ltac:(lia) FS) as (l & E2 & W2 & T2 & _ & D2).
  rewrite E1, E2. cbn [bind].
  assert (forall A (r : list A), length r = length rows -> length (spec_slice r i j) = j - i) as LS by (intros A r Hr; unfold spec_slice; rewrite firstn_length, skipn_length; lia).
  destruct (holds_sel f f p syms a rows (spec_slice rows i j) (fun k => i + k) c l H) as (b & Eb & Hb).
  - auto.
  - rewrite (LS _ rows eq_refl). intros k Hk. split; [lia|]. rewrite D1, D2. unfold spec_slice. rewrite !nth_firstn by exact Hk. rewrite !nth_skipn. auto.
  - rewrite D1, !LS; auto.
  - rewrite D2, !LS; auto.
  - exact P1.
  - eapply tight_slice; [exact HP|exact HT|exact Hij|rewrite <- logical_length; lia|exact E1].
  - exact T1.
  - exact W2.
  - rewrite T2. exact TU.
  - exists b. rewrite Eb. auto.
Qed.
Print Assumptions fsst_slice_the_rows.

Lemma pick_sel (l : list value) idx k : k < length idx -> nth k (pick l idx) VNull = nth (nth k idx 0) l VNull.
Proof. apply nth_pick. Qed.
Lemma take_shape p a ip idx b : vb_plain p a -> is_int ip = true -> Forall (fun i => i < length (logical a)) idx ->
  (Z.of_nat (total_bytes (pick (logical a) idx)) <= pmax p)%Z -> take a ip idx = Ok b -> tight b.
Proof.
  intros [W (u & ol & bytes & v & ->)] Ii HI HT E. rewrite logical_length in HI. cbn [alen] in HI. unfold take in E. rewrite Ii in E. cbn [depth ops ops_step o_take o_canon] in E.
  set (o := APrim p ol VNonNull) in *.
  assert (pick (logical (AVarBin u o bytes v)) idx = map row (map (vb_opt (ints (logical o)) bytes v) idx)) as EP.
  { rewrite vb_logical, tab_pick by exact HI. rewrite map_map. symmetry. apply (map_ext_nth_tab (fun x => row (vb_opt (ints (logical o)) bytes v x)) idx 0). }
  rewrite EP, total_row in HT.
  assert (into_prim (Ok o) = Ok (p, ints (logical o), VNonNull)) as EO.
  { unfold into_prim, o. cbn [bind]. cbn [logical vvalid]. rewrite <- (map_ext_nth_tab VInt ol 0%Z). unfold ints. rewrite map_map, map_id. reflexivity. }
  rewrite (varbin_take_st f0 u o bytes v p (Ok o) idx W eq_refl EO HI) in E; [eapply tight_finish; exact E|].
  pose proof (in_range_zero p) as Q. unfold in_range in *. lia.
Qed.
Lemma filter_shape p a m b : vb_plain p a -> length m = length (logical a) -> filter_array a (mask_of m) = Ok b -> tight b.
Proof.
  intros [W (u & ol & bytes & v & ->)] Hm E. rewrite logical_length in Hm. cbn [alen] in Hm. unfold filter_array in E. cbn [depth ops ops_step o_filter o_canon] in E. unfold with_mask in E. cbn [alen mlen mask_of] in E.
  set (o := APrim p ol VNonNull) in *.
  assert (into_prim (Ok o) = Ok (p, ints (logical o), VNonNull)) as EO.
  { unfold into_prim, o. cbn [bind]. cbn [logical vvalid]. rewrite <- (map_ext_nth_tab VInt ol 0%Z). unfold ints. rewrite map_map, map_id. reflexivity. }
  destruct (varbin_filter_st f0 u o bytes v p (Ok o) (mask_of m) W eq_refl EO eq_refl Hm eq_refl) as (E' & _). cbn [alen o] in E. rewrite <- Hm, Nat.eqb_refl in E.
  change (canon_ (depth o) o) with (Ok o) in E || idtac. change (varbin_filter u (Ok o) bytes v (mask_of m) = Ok b) in E. rewrite E' in E. eapply tight_finish; exact E.
Qed.

Theorem fsst_take_the_rows :
  forall (f : flags) (p : ptype) (syms : list (list Z)) (a : fsst) (rows : list (option (list Z))) (ip : ptype) (idx : list nat) (lc : list value),
  holds f p syms a rows -> fc f = true -> ft f = true -> is_int ip = true -> (Z.of_nat (length idx) <= pmax U64)%Z ->
  Forall (fun i => i < length rows) idx -> fT f = true \/ (fN f = true /\ idx <> [] /\ ip = U64) ->
  spec_take (logical (s_codes a)) idx = Some lc -> (Z.of_nat (total_bytes lc) <= pmax p)%Z ->
  exists b rows', fsst_take a ip idx = Ok b /\ spec_take rows idx = Some rows' /\ holds (pf f) p syms b rows'.
Proof.
  intros f p syms a rows ip idx lc H C FT Ii LI B TT SC HB. pose proof H as (HS & HP & HT & HD & WU & TU & LC & LU & HR).
  destruct (varbin_take_keeps_rows p _ ip idx lc HP Ii SC HB) as (c & E1 & D1 & T1 & P1).
  assert (Forall (fun i => i < length (logical (s_codes a))) idx) as BC by (rewrite LC; exact B). assert (Forall (fun i => i < length (logical (s_ulens a))) idx) as BU by (rewrite LU; exact B).
  rewrite spec_take_pick in SC by exact BC. injection SC as SC.
  destruct (take_commutes_with_decoding f _ ip idx WU C FT Ii LI BU) as [G1 G2]. destruct (G2 TT) as (l & E2). destruct (G1 l E2) as (Q1 & _ & _ & Q4 & Q5). rewrite spec_take_pick in Q1 by exact BU. injection Q1 as Q1.
  assert (spec_take rows idx = Some (map (fun i => nth i rows None) idx)) as ST.
  { clear - B. induction B as [|i r Hi Hr IH]; [reflexivity|]. cbn [spec_take map]. rewrite (nth_error_nth' rows None Hi), IH. reflexivity. }
  unfold fsst_take. rewrite E1, E2. cbn [bind].
  destruct (holds_sel f (pf f) p syms a rows (map (fun i => nth i rows None) idx) (fun k => nth k idx 0) c l H) as (b & Eb & Hb).
  - intros x Wx. eapply wf_fle; [apply fle_pf|exact Wx].
  - rewrite map_length. intros k Hk. rewrite D1, <- SC, <- Q1, !pick_sel by exact Hk. rewrite (map_nth_lt _ idx 0) by exact Hk. pose proof (Forall_nth_lt _ _ 0 k B Hk). auto.
  - rewrite D1, <- SC, pick_length, map_length. reflexivity.
  - rewrite <- Q1, pick_length, map_length. reflexivity.
  - exact P1.
  - apply (take_shape p (s_codes a) ip idx c HP Ii BC); [rewrite SC; exact HB|exact E1].
  - exact T1.
  - exact Q5.
  - rewrite Q4 by (right; rewrite TU; reflexivity). exact TU.
  - exists b. eexists. split; [exact Eb|]. split; [exact ST|exact Hb].
Qed.
Print Assumptions fsst_take_the_rows.

Lemma spec_filter_idx {A} (d : A) (l : list A) m : length m = length l -> spec_filter l m = map (fun i => nth i l d) (set_indices m).
Proof. intros H. apply spec_filter_gather. auto. Qed.
Theorem fsst_filter_the_rows :
  forall (f : flags) (p : ptype) (syms : list (list Z)) (a : fsst) (rows : list (option (list Z))) (m : list bool),
  holds f p syms a rows -> fc f = true -> ft f = true -> fF f = true -> (Z.of_nat (length m) <= pmax U64)%Z -> length m = length rows ->
  exists b, fsst_filter a (mask_of m) = Ok b /\ holds (pF f) p syms b (spec_filter rows m).
Proof.
  intros f p syms a rows m H C FT FF LM LR. pose proof H as (HS & HP & HT & HD & WU & TU & LC & LU & HR).
  destruct (varbin_filter_keeps_rows p _ m HP ltac:(congruence)) as (c & E1 & D1 & T1 & P1).
  destruct (filter_commutes_with_decoding f _ m WU C FT LM ltac:(congruence)) as [G1 G2]. destruct (G2 FF) as (l & E2). destruct (G1 l E2) as (Q1 & _ & Q4 & Q5).
  unfold fsst_filter. rewrite E1, E2. cbn [bind].
  pose proof (set_indices_lt m) as HI.
  destruct (holds_sel f (pF f) p syms a rows (spec_filter rows m) (fun k => nth k (set_indices m) 0) c l H) as (b & Eb & Hb).
  - intros x Wx. eapply wf_fle; [apply fle_pF|exact Wx].
  - rewrite (spec_filter_idx None) by exact LR. rewrite map_length. intros k Hk. rewrite D1, Q1, !(spec_filter_idx VNull) by congruence. rewrite !(map_nth_lt _ (set_indices m) 0) by exact Hk.
    pose proof (Forall_nth_lt _ _ 0 k HI Hk) as X. cbv beta in X. rewrite LR in X. auto.
  - rewrite D1, (spec_filter_idx VNull), (spec_filter_idx None), !map_length by congruence. reflexivity.
  - rewrite Q1, (spec_filter_idx VNull), (spec_filter_idx None), !map_length by congruence. reflexivity.
  - exact P1.
  - apply (filter_shape p (s_codes a) m c HP); [congruence|exact E1].
  - exact T1.
  - exact Q5.
  - rewrite Q4 by (right; rewrite TU; reflexivity). exact TU.
  - exists b. rewrite Eb. auto.
Qed.
Print Assumptions fsst_filter_the_rows.

(** * Comparison with a constant *)

(** The array's codes are those of the compressor that fsst-rs builds from its symbol table. *)
Definition made_by (build : list (Z * Z) -> list Z -> list Z) (syms : list (list Z)) (a : fsst) (rows : list (option (list Z))) : Prop :=
  (forall s, spells syms (build (table_of syms) s) s) /\
  forall i s, i < length rows -> nth i rows None = Some s -> nth i (logical (s_codes a)) VNull = VBytes (build (table_of syms) s).

Lemma codes_const_compare a x op : vb_plain I32 a -> adtype a = DBinary (nullable (adtype a)) ->
  exists r, compare a (AConst (DBinary false) (VBytes x) (alen a)) op = Ok r /\ cmp_good (adtype a) op (logical a) (repeat (VBytes x) (alen a)) r.
Proof.
  intros HP HD. pose proof HP as [W _]. destruct (plain_view I32 _ HP) as (u & ol & bytes & v & EA & L1 & L0 & NV & VW & FO & SO & RO & Ip).
  assert (u = false) as -> by (rewrite EA in HD; cbn [adtype nullable] in HD; destruct u; [discriminate|reflexivity]).
  assert (compare a (AConst (DBinary false) (VBytes x) (alen a)) op = varbin_const_compare false (canon (APrim I32 ol VNonNull)) bytes v (VBytes x) op) as EC.
  { unfold compare. rewrite EA. cbn [depth]. match goal with |- compare_ ?k _ _ _ = _ => replace k with (S (pred k)) by lia; set (k' := pred k) end.
    rewrite compare_S. cbn [alen]. rewrite Nat.eqb_refl. cbn [negb adtype erase]. change (dtype_eqb (DBinary false) (DBinary false)) with true. reflexivity. }
  rewrite EC.
  assert (outc True (varbin_const_compare false (canon (APrim I32 ol VNonNull)) bytes v (VBytes x) op) (cmp_good (adtype a) op (logical a) (repeat (VBytes x) (alen a)))) as G.
  { unfold varbin_const_compare. change (canon (APrim I32 ol VNonNull)) with (Ok (APrim I32 ol VNonNull)). unfold into_prim. cbn [bind].
    rewrite (proj2 (forallb_forall _ _)). 2: { intros z Hz. apply in_rangeb_spec. rewrite Forall_forall in RO. auto. } cbn [negb].
    rewrite (mapM_ok_map (vb_bytes ol bytes) (vb_str ol bytes)) by (intros i Hi; apply in_seq in Hi; apply vb_bytes_ok; auto; lia). cbn [bind].
    assert (alen a = length ol - 1) as La by (rewrite <- logical_length; exact L1).
    set (vals := map (vb_str ol bytes) (seq 0 (length ol - 1))). assert (length (map VBytes vals) = length ol - 1) as LV by (unfold vals; rewrite !map_length, seq_length; reflexivity).
    assert (forall i, i < length ol - 1 -> nth i (map VBytes vals) VNull = VBytes (vb_str ol bytes i)) as NVl.
    { intros i Hi. unfold vals. rewrite map_map. rewrite (map_nth_lt _ (seq 0 (length ol - 1)) 0 VNull i) by (rewrite seq_length; exact Hi). rewrite seq_nth by exact Hi. reflexivity. }
    assert (erase (adtype a) = DBinary false) as EE by (rewrite HD; reflexivity).
    pose proof (scalar_kernel_ok (adtype a) op (logical a) (map VBytes vals) v (DBinary false) (VBytes x)) as K. rewrite LV, EE, <- La in K. apply K; clear K; auto.
    - rewrite HD. reflexivity.
    - unfold side_ok, masked. rewrite LV. split; [|split; [exact VW|split; [|split; [eapply vtyped_logical; exact W|]]]].
      + apply (nth_ext_len _ _ VNull); [rewrite tab_length; exact L1|]. rewrite L1. intros i Hi. rewrite NV, nth_tab by exact Hi. unfold vb_opt. destruct (vvalid v i); cbn [vopt]; [|reflexivity]. rewrite NVl by exact Hi. reflexivity.
      + intros i Hi _. rewrite NVl by exact Hi. discriminate.
      + apply Forall_forall. intros y _. rewrite HD. exact I.
    - exact I.
    - exact I. }
  match goal with |- context [varbin_const_compare ?x1 ?x2 ?x3 ?x4 ?x5 ?x6] => destruct (varbin_const_compare x1 x2 x3 x4 x5 x6) as [r| |] end; [|contradiction (G I)|contradiction (G I)]. exists r. split; [reflexivity|exact G].
Qed.

Lemma map2_as_tab_rows op d rows x : map2 (spec_cmp d op) (map row rows) (repeat x (length rows)) = tab (length rows) (fun i => spec_cmp d op (row (nth i rows None)) x).
Proof.
  rewrite (map2_as_tab _ _ _ VNull VNull) by (rewrite map_length, repeat_length; reflexivity). rewrite map_length. apply tab_ext. intros i Hi.
  rewrite (map_nth_lt row rows None) by exact Hi. rewrite nth_repeat_lt by exact Hi. reflexivity.
Qed.

(** Equality and inequality with a string, computed on the codes alone. *)
Theorem fsst_equality_is_elementwise :
  forall (f : flags) (build : list (Z * Z) -> list Z -> list Z) (syms : list (list Z)) (a : fsst) (rows : list (option (list Z))) (n : bool) (s : list Z) (op : cop),
  holds f I32 syms a rows -> made_by build syms a rows -> fc f = true -> fC f = true -> op = CEq \/ op = CNe ->
  exists r, fsst_compare build a (str_dtype (s_utf8 a) n) (VBytes s) (length rows) op = Ok r /\
    logical r = map2 (spec_cmp (fsst_dtype a) op) (map row rows) (repeat (VBytes s) (length rows)) /\ adtype r = DBool true.
Proof.
  intros f build syms a rows n s op H [SP MB] C CC HO. pose proof H as (HS & HP & HT & HD & WU & TU & LC & LU & HR). pose proof HS as (_ & _ & _ & _ & _ & _ & O & _).
  destruct (codes_const_compare (s_codes a) (build (table_of syms) s) op HP) as (r & E & (G1 & G2 & _)); [rewrite HD; reflexivity|].
  assert (alen (s_codes a) = length rows) as La by (rewrite <- logical_length; exact LC).
  exists r. split; [|split; [|exact G2]].
  - unfold fsst_compare, fsst_dtype. rewrite La, Nat.eqb_refl. cbn [negb]. assert (erase (str_dtype (s_utf8 a) (s_nl a)) = erase (str_dtype (s_utf8 a) n)) as -> by (destruct (s_utf8 a); reflexivity).
    rewrite dtype_eqb_refl. cbn [negb]. rewrite (symbol_table_ok f a syms HS C CC). cbn [bind]. rewrite La in E. destruct HO as [-> | ->]; exact E.
  - rewrite G1, La. rewrite map2_as_tab_rows. rewrite (map2_as_tab _ _ _ VNull VNull) by (rewrite repeat_length; exact LC). rewrite LC. apply tab_ext. intros i Hi.
    rewrite nth_repeat_lt by exact Hi. destruct (nth i rows None) as [t|] eqn:ER.
    + rewrite (MB i t Hi ER). cbn [row]. unfold spec_cmp. cbn [is_null orb]. unfold fsst_dtype. rewrite HD. f_equal.
      assert (lex (build (table_of syms) t) (build (table_of syms) s) = Eq <-> lex t s = Eq) as EQ.
      { rewrite !lex_eq. split; [intros X|congruence]. pose proof (decompress_spells syms _ _ O (SP t)) as D1. pose proof (decompress_spells syms _ _ O (SP s)) as D2. rewrite X in D1. congruence. }
      destruct (s_utf8 a); cbn [str_dtype value_cmp]; destruct HO as [-> | ->]; cbn [rel];
        destruct (lex (build (table_of syms) t) (build (table_of syms) s)), (lex t s); try reflexivity; try (destruct EQ as [E1 E2]; (discriminate (E1 eq_refl) || discriminate (E2 eq_refl))).
    + specialize (HR i Hi). rewrite ER in HR. cbn [srow] in HR. destruct HR as [-> _]. reflexivity.
Qed.
Print Assumptions fsst_equality_is_elementwise.

(** The other operators decode first. *)
Theorem fsst_order_is_elementwise :
  forall (f : flags) (build : list (Z * Z) -> list Z -> list Z) (p : ptype) (syms : list (list Z)) (a : fsst) (rows : list (option (list Z))) (n : bool) (x : value) (op : cop),
  holds f p syms a rows -> fc f = true -> fC f = true -> s_utf8 a = true -> (Z.of_nat (total_bytes (map row rows)) <= pmax I32)%Z ->
  vtyped (DUtf8 n) x -> op <> CEq -> op <> CNe ->
  exists r, fsst_compare build a (DUtf8 n) x (length rows) op = Ok r /\
    logical r = map2 (spec_cmp (fsst_dtype a) op) (map row rows) (repeat x (length rows)) /\ adtype r = DBool true.
Proof.
  intros f build p syms a rows n x op H C CC U HT TX N1 N2. destruct (fsst_decodes_to_the_rows f p syms a rows H C CC U HT) as (c & E & Lc & Dc & Cc & Wc).
  pose proof H as (HS & HP & _ & HD & _ & _ & LC & _). assert (alen (s_codes a) = length rows) as La by (rewrite <- logical_length; exact LC).
  set (b := AConst (DUtf8 n) x (length rows)). set (F := Flags false false true true true false false false false false).
  assert (wf F b) as Wb by (split; [exact TX|intros _; split; [reflexivity|discriminate]]).
  assert (forall y, plain_value (DUtf8 n) y) as PY by (intros y; destruct y; exact I).
  pose proof (canon_pl F b Wb eq_refl) as G. unfold outc in G. destruct (canon b) as [c2| |] eqn:E2; [|contradiction (G eq_refl)|contradiction (G eq_refl)].
  destruct (canon_form F b c2 Wb eq_refl) as (r & w & B & Lb & Sb); [apply Forall_forall; intros y _; apply PY|exact G|].
  destruct (arrow_form_ok _ c Wc Cc) as (l & v & A & Ll & Sa); [rewrite Dc; reflexivity|]. rewrite Dc in A.
  assert (Forall (vtyped (DUtf8 (s_nl a))) (logical c)) as TC by (rewrite <- Dc; eapply vtyped_logical; exact Wc).
  specialize (Sa (DUtf8 (s_nl a)) TC ltac:(apply Forall_forall; intros y _; destruct y; exact I)).
  assert (length l = length r) as LE by (rewrite Ll, Lb, <- logical_length, Lc, map_length; reflexivity).
  pose proof (kernel_ok (DUtf8 (s_nl a)) op (logical c) (logical b) l v r w (DUtf8 n) eq_refl eq_refl LE Sa Sb) as K.
  assert (fsst_compare build a (DUtf8 n) x (length rows) op = arrow_kernel (DUtf8 false) op l v r w) as EC.
  { unfold fsst_compare, fsst_dtype. rewrite La, Nat.eqb_refl, U. cbn [negb str_dtype erase]. change (dtype_eqb (DUtf8 false) (DUtf8 false)) with true. cbn [negb]. fold b.
    rewrite E, E2. cbn [bind]. unfold arrow_cmp. rewrite A, B. cbn [erase adtype b]. change (dtype_eqb (DUtf8 false) (DUtf8 false)) with true. destruct op; try congruence; reflexivity. }
  rewrite EC. unfold outc in K. cbn [erase] in K. destruct (arrow_kernel (DUtf8 false) op l v r w) as [z| |]; [|contradiction (K I)|contradiction (K I)]. exists z. split; [reflexivity|].
  destruct K as (K1 & K2 & _). split; [|exact K2]. rewrite K1, Lc. unfold fsst_dtype. rewrite U. reflexivity.
Qed.
Print Assumptions fsst_order_is_elementwise.

(** * Examples and defects *)

(** A compressor: greedily the first symbol that is a prefix, an escape otherwise. *)
Fixpoint strip (x s : list Z) : option (list Z) :=
  match x, s with
  | [], _ => Some s
  | a :: x', b :: s' => if (a =? b)%Z then strip x' s' else None
  | _, [] => None
  end.
Fixpoint find_symbol (k : nat) (syms : list (list Z)) (s : list Z) : option (nat * list Z) :=
  match syms with
  | [] => None
  | [] :: r => find_symbol (S k) r s
  | x :: r => match strip x s with Some t => Some (k, t) | None => find_symbol (S k) r s end
  end.
Fixpoint greedy_ (fuel : nat) (syms : list (list Z)) (s : list Z) : list Z :=
  match fuel, s with
  | S n, b :: s' => match find_symbol 0 syms s with Some (k, t) => Z.of_nat k :: greedy_ n syms t | None => 255%Z :: b :: greedy_ n syms s' end
  | _, _ => []
  end.
Definition greedy (syms : list (list Z)) (s : list Z) : list Z := greedy_ (length s) syms s.
Lemma strip_spec x s t : strip x s = Some t -> s = x ++ t.
Proof. revert s. induction x as [|a x IH]; intros s E; cbn in E; [cbn [app]; congruence|]. destruct s as [|b s]; [discriminate|]. destruct (Z.eqb_spec a b) as [->|]; [|discriminate]. cbn. f_equal. auto. Qed.
Lemma find_symbol_spec syms s : forall k j t, find_symbol k syms s = Some (j, t) -> k <= j /\ exists x, nth_error syms (j - k) = Some x /\ x <> [] /\ s = x ++ t.
Proof.
  induction syms as [|x r IH]; intros k j t E; cbn [find_symbol] in E; [discriminate|].
  assert (find_symbol (S k) r s = Some (j, t) -> k <= j /\ exists x0, nth_error (x :: r) (j - k) = Some x0 /\ x0 <> [] /\ s = x0 ++ t) as G.
  { intros E'. destruct (IH (S k) j t E') as (L & y & Y1 & Y2). split; [lia|]. exists y. replace (j - k) with (S (j - S k)) by lia. auto. }
  destruct x as [|a x]; [auto|]. destruct (strip (a :: x) s) as [t'|] eqn:ES; [|auto]. injection E as -> ->. split; [lia|].
  exists (a :: x). rewrite Nat.sub_diag. split; [reflexivity|]. split; [discriminate|]. apply strip_spec. exact ES.
Qed.
Theorem greedy_is_a_compressor : forall syms, symbols_ok syms -> compressor_ok syms (greedy syms).
Proof.
  intros syms O. split; [exact O|]. assert (forall n s, length s <= n -> spells syms (greedy_ n syms s) s) as G.
  { induction n as [|n IH]; intros s L; [destruct s; [constructor|cbn in L; lia]|]. destruct s as [|b s]; [constructor|]. cbn [greedy_].
    destruct (find_symbol 0 syms (b :: s)) as [[k t]|] eqn:E.
    - destruct (find_symbol_spec _ _ _ _ _ E) as (_ & x & X1 & X2 & X3). rewrite Nat.sub_0_r in X1. rewrite X3.
      assert (k < length syms) as Hk by (apply nth_error_Some; congruence). destruct O as [O1 _].
      apply sp_sym; [lia|rewrite Nat2Z.id; exact X1|]. apply IH. rewrite X3, app_length in L. destruct x; [congruence|]. cbn [length] in L. lia.
    - apply sp_esc. apply IH. cbn in L. lia. }
  intros s. apply G. apply le_n.
Qed.
Print Assumptions greedy_is_a_compressor.

Definition ex_syms : list (list Z) := [[104; 116; 116; 112]; [58; 47; 47]]%Z.
Definition ex_rows : list (option (list Z)) := [Some [104; 116; 116; 112; 58; 47; 47; 97]; None; Some []; Some [97; 98]]%Z.
Lemma ex_syms_ok : symbols_ok ex_syms.
Proof. split; [cbn; lia|]. repeat constructor; unfold is_byte; cbn; lia. Qed.
Definition f_all : flags := Flags true true true true true true true true true true.
Example fsst_example :
  exists a b c, fsst_compress_iter true true ex_syms (greedy ex_syms) ex_rows = Ok a /\ holds f_all I32 ex_syms a ex_rows /\
  logical (s_codes a) = [VBytes [0; 1; 255; 97]; VNull; VBytes []; VBytes [255; 97; 255; 98]]%Z /\
  fsst_slice a 1 4 = Ok b /\ holds f_all I32 ex_syms b [None; Some []; Some [97; 98]%Z] /\
  fsst_canon b = Ok c /\ logical c = [VNull; VBytes []; VBytes [97; 98]%Z].
Proof.
  destruct (fsst_compress_keeps_rows f_all ex_syms (greedy ex_syms) true true ex_rows (greedy_is_a_compressor _ ex_syms_ok)) as (a & E & U & N & H).
  - intros _ s Hs. cbn in Hs. destruct Hs as [Hs|[Hs|[Hs|[Hs|[]]]]]; try discriminate; injection Hs as <-; reflexivity.
  - discriminate.
  - vm_compute. discriminate.
  - vm_compute. discriminate.
  - destruct (fsst_slice_the_rows f_all I32 ex_syms a ex_rows 1 4 H ltac:(lia) ltac:(cbn; lia) ltac:(left; reflexivity)) as (b & Eb & Hb). change (spec_slice ex_rows 1 4) with [None; Some []; Some [97; 98]%Z] in Hb.
    assert (s_utf8 b = true) as Ub. { unfold fsst_slice in Eb. destruct (slice_bad _ _ _); [discriminate|]. destruct (slice (s_codes a) 1 4); [|discriminate|discriminate]. cbn [bind] in Eb. destruct (slice (s_ulens a) 1 4); [|discriminate|discriminate]. cbn [bind] in Eb.
      unfold try_fsst in Eb. repeat match type of Eb with (if ?c then _ else _) = _ => destruct c; try discriminate Eb end. injection Eb as <-. exact U. }
    destruct (fsst_decodes_to_the_rows f_all I32 ex_syms b _ Hb eq_refl eq_refl Ub ltac:(vm_compute; discriminate)) as (c & Ec & Lc & _).
    exists a, b, c. repeat (split; [first [exact E|exact H|exact Eb|exact Hb|exact Ec|idtac]|]); [|exact Lc].
    vm_compute in E. injection E as <-. reflexivity.
Qed.

(** Comparing with a null string for equality should give nulls; it returns the string constant itself. *)
Theorem fsst_null_equality_refuted :
  ~ (forall build a rows d n op r, holds f_all I32 ex_syms a rows -> fsst_compare build a d VNull n op = Ok r -> adtype r = DBool true).
Proof.
  intros H. destruct (fsst_compress_keeps_rows f_all ex_syms (greedy ex_syms) true true [None] (greedy_is_a_compressor _ ex_syms_ok)) as (a & E & U & N & HH).
  - intros _ s [Hs|[]]; discriminate.
  - discriminate.
  - vm_compute. discriminate.
  - vm_compute. discriminate.
  - specialize (H (fun _ s => s) a [None] (DUtf8 true) 1 CEq (AConst (DUtf8 true) VNull 1) HH). pose proof (symbol_table_ok f_all a ex_syms (proj1 HH) eq_refl eq_refl) as ST.
    assert (alen (s_codes a) = 1) as LA by (rewrite <- logical_length; apply HH).
    assert (adtype (AConst (DUtf8 true) VNull 1) = DBool true) as X; [|discriminate X]. apply H.
    unfold fsst_compare, fsst_dtype. rewrite LA, U, N, ST. reflexivity.
Qed.
Print Assumptions fsst_null_equality_refuted.

(** Binary arrays decode to Utf8 arrays, and byte strings that are not UTF-8 come back as null. *)
Theorem fsst_binary_decoding_refuted :
  ~ (forall a rows c, holds f_all I32 ex_syms a rows -> fsst_canon a = Ok c -> logical c = map row rows).
Proof.
  intros H. destruct (fsst_compress_keeps_rows f_all ex_syms (greedy ex_syms) false true [Some [255%Z]] (greedy_is_a_compressor _ ex_syms_ok)) as (a & E & U & N & HH).
  - discriminate.
  - discriminate.
  - vm_compute. discriminate.
  - vm_compute. discriminate.
  - vm_compute in E. injection E as <-. specialize (H _ _ (AView true [VInl [255%Z]] [[255%Z]] VAllInvalid) HH). vm_compute in H. specialize (H eq_refl). discriminate H.
Qed.
Print Assumptions fsst_binary_decoding_refuted.
