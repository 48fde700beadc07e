(** C21: string-view arrays keep every byte string, inlined or referenced, also after slice, take, filter and decoding. *)
From Verif Require Import Base Spec SearchModel SearchProofs Arr ArrRead ArrWf ArrReadProofs ArrSearchProofs ArrSlice ArrSliceProofs ArrSliceMain
  ValidityModel PropValidity IntEnc PropIntEnc RunEnc PropRunEnc PropUnary PropDict ArrOps OpsBase OpsFlat OpsCanon OpsCanon2 OpsCanon3 OpsTake OpsVarBin OpsFilter PropRead PropSlice PropOps PropVarBin.

(** * Model of the builder *)

(** The builder VarBinViewArray::from_iter uses (varbinview/mod.rs:361-397, 486-502) is Arrow's GenericByteViewBuilder (external
    crate, modelled from its documentation and source): a value of at most 12 bytes is stored in the view; a longer one is
    appended to the block in progress, and the view records its length, first four bytes, the number of the block and the
    position in it. Before that the block may be completed and a new one begun (when its capacity, which grows by an internal
    policy, is exceeded): [flush], left arbitrary. A null is an empty view. Lengths are 32 bits. *)
Record vwb := VWB { w_views : list view; w_done : list (list Z); w_cur : list Z; w_valid : list bool }.
Definition vwb_new : vwb := VWB [] [] [] [].
Definition vwb_flush (st : vwb) : vwb :=
  match w_cur st with [] => st | _ => VWB (w_views st) (w_done st ++ [w_cur st]) [] (w_valid st) end.
Definition vwb_append (st : vwb) (x : bool * option (list Z)) : result vwb :=
  match x with
  | (_, None) => Ok (VWB (w_views st ++ [VInl []]) (w_done st) (w_cur st) (w_valid st ++ [false]))
  | (flush, Some s) =>
      if (pmax U32 <? Z.of_nat (length s))%Z then Panic
      else if length s <=? 12 then Ok (VWB (w_views st ++ [VInl s]) (w_done st) (w_cur st) (w_valid st ++ [true]))
      else
        let st := if flush : bool then vwb_flush st else st in
        Ok (VWB (w_views st ++ [VRef (length s) (firstn 4 s) (length (w_done st)) (length (w_cur st))])
              (w_done st) (w_cur st ++ s) (w_valid st ++ [true]))
  end.
(** finish, then from_arrow (arrow/array.rs:129-149). *)
Definition vwb_finish (u nl : bool) (st : vwb) : result array :=
  let st := vwb_flush st in
  do v <- arrow_nulls (drop_nulls (w_valid st)) nl; expect (try_view u (w_views st) (w_done st) v).
Definition view_from_iter (u nl : bool) (L : list (bool * option (list Z))) : result array :=
  do st <- foldM vwb_append vwb_new L; vwb_finish u nl st.

(** * Proofs *)
Definition bufs_le (B B' : list (list Z)) : Prop :=
  length B <= length B' /\ forall b, b < length B -> exists t, nth b B' [] = nth b B [] ++ t.
Lemma lslice_app1 {A} (l t : list A) i j : j <= length l -> lslice (l ++ t) i j = lslice l i j.
Proof.
  intros H. unfold lslice. destruct (Nat.le_gt_cases i (length l)) as [Hi|Hi].
  - rewrite skipn_app. replace (i - length l) with 0 by lia. cbn [skipn]. rewrite firstn_app, skipn_length.
    replace (j - i - (length l - i)) with 0 by lia. cbn [firstn]. apply app_nil_r.
  - replace (j - i) with 0 by lia. reflexivity.
Qed.
Lemma view_ok_le B B' w : bufs_le B B' -> view_ok B w -> view_ok B' w /\ view_bytes B' w = view_bytes B w.
Proof.
  intros [H1 H2]. destruct w as [s|size pre b off]; [auto|]. intros (K1 & K2 & K3 & K4). destruct (H2 b K2) as (t & E).
  cbn [view_ok view_bytes]. rewrite E, app_length, lslice_app1 by exact K3. split; [repeat split; auto; lia|reflexivity].
Qed.
Lemma bufs_le_refl B : bufs_le B B.
Proof. split; [lia|]. intros b _. exists []. symmetry. apply app_nil_r. Qed.

Definition vw_inv (L : list (option (list Z))) (st : vwb) : Prop :=
  let B := w_done st ++ [w_cur st] in
  Forall (view_ok B) (w_views st) /\ map (view_bytes B) (w_views st) = map ob L /\ w_valid st = map is_some L.

Lemma vw_inv_le L st st' : bufs_le (w_done st ++ [w_cur st]) (w_done st' ++ [w_cur st']) -> w_views st' = w_views st -> w_valid st' = w_valid st ->
  vw_inv L st -> vw_inv L st'.
Proof.
  intros H E1 E2 (I1 & I2 & I3). unfold vw_inv. rewrite E1, E2. split; [|split; [|exact I3]].
  - eapply Forall_impl; [|exact I1]. intros w Hw. apply (view_ok_le _ _ w H Hw).
  - rewrite <- I2. apply map_ext_in. intros w Hw. rewrite Forall_forall in I1. apply (view_ok_le _ _ w H). auto.
Qed.
Lemma flush_inv L st : vw_inv L st -> vw_inv L (vwb_flush st).
Proof.
  intros H. unfold vwb_flush. destruct (w_cur st) as [|z r] eqn:E; [exact H|]. apply (vw_inv_le L st); [|reflexivity|reflexivity|exact H].
  cbn [w_done w_cur]. rewrite E. split; [rewrite !app_length; cbn; lia|]. intros b Hb. exists []. rewrite app_nil_r. apply app_nth1. exact Hb.
Qed.
Lemma vw_inv_snoc L st st' x w : bufs_le (w_done st ++ [w_cur st]) (w_done st' ++ [w_cur st']) -> w_views st' = w_views st ++ [w] -> w_valid st' = w_valid st ++ [is_some x] ->
  view_ok (w_done st' ++ [w_cur st']) w -> view_bytes (w_done st' ++ [w_cur st']) w = ob x ->
  vw_inv L st -> vw_inv (L ++ [x]) st'.
Proof.
  intros H E1 E2 E3 E4 HI. assert (vw_inv L (VWB (w_views st) (w_done st') (w_cur st') (w_valid st))) as (I1 & I2 & I3) by (eapply vw_inv_le; eauto).
  cbn [w_views w_done w_cur w_valid] in *. unfold vw_inv. rewrite E1, E2, !map_app, I2, I3. cbn [map]. rewrite E4. split; [|auto].
  apply Forall_app. auto.
Qed.

Lemma append_inv L st fl x : vw_inv L st -> (forall s, x = Some s -> (Z.of_nat (length s) <= pmax U32)%Z) ->
  exists st', vwb_append st (fl, x) = Ok st' /\ vw_inv (L ++ [x]) st'.
Proof.
  intros H Hx. unfold vwb_append. destruct x as [s|].
  2: { eexists. split; [reflexivity|]. apply (vw_inv_snoc L st _ None (VInl [])); [apply bufs_le_refl| | | | |exact H]; try reflexivity. cbn. lia. }
  specialize (Hx s eq_refl). destruct (Z.ltb_spec (pmax U32) (Z.of_nat (length s))) as [Hc|_]; [exfalso; exact (Zle_not_lt _ _ Hx Hc)|].
  destruct (Nat.leb_spec (length s) 12) as [H12|H12].
  - eexists. split; [reflexivity|]. apply (vw_inv_snoc L st _ (Some s) (VInl s)); [apply bufs_le_refl| | | | |exact H]; try reflexivity. exact H12.
  - assert (forall st0, vw_inv L st0 -> exists st', Ok (VWB (w_views st0 ++ [VRef (length s) (firstn 4 s) (length (w_done st0)) (length (w_cur st0))])
              (w_done st0) (w_cur st0 ++ s) (w_valid st0 ++ [true])) = Ok st' /\ vw_inv (L ++ [Some s]) st') as G.
    { intros st0 H0. eexists. split; [reflexivity|].
      assert (nth (length (w_done st0)) (w_done st0 ++ [w_cur st0 ++ s]) [] = w_cur st0 ++ s) as EN by (rewrite app_nth2, Nat.sub_diag by lia; reflexivity).
      assert (lslice (w_cur st0 ++ s) (length (w_cur st0)) (length (w_cur st0) + length s) = s) as ES.
      { unfold lslice. rewrite skipn_app, skipn_all, Nat.sub_diag. cbn [skipn app]. replace (length (w_cur st0) + length s - length (w_cur st0)) with (length s) by lia. apply firstn_all. }
      apply (vw_inv_snoc L st0 _ (Some s) (VRef (length s) (firstn 4 s) (length (w_done st0)) (length (w_cur st0)))); [ | | | | |exact H0]; try reflexivity; cbn [w_done w_cur].
      - split; [rewrite !app_length; reflexivity|]. intros b Hb. rewrite app_length in Hb. cbn in Hb.
        destruct (Nat.eq_dec b (length (w_done st0))) as [->|N].
        + exists s. rewrite EN. rewrite app_nth2, Nat.sub_diag by lia. reflexivity.
        + exists []. rewrite app_nil_r, !app_nth1 by lia. reflexivity.
      - cbn [view_ok]. rewrite EN, ES, !app_length. cbn. repeat split; lia.
      - cbn [view_bytes ob]. rewrite EN. exact ES. }
    apply G. destruct fl; [apply flush_inv|]; exact H.
Qed.

Lemma foldM_inv L pre st : vw_inv pre st -> (forall fl s, In (fl, Some s) L -> (Z.of_nat (length s) <= pmax U32)%Z) ->
  exists st', foldM vwb_append st L = Ok st' /\ vw_inv (pre ++ map snd L) st'.
Proof.
  revert pre st; induction L as [|[fl x] r IH]; intros pre st H Hl; cbn [foldM map snd].
  - exists st. rewrite app_nil_r. auto.
  - destruct (append_inv pre st fl x H) as (st1 & -> & H1). { intros s ->. apply (Hl fl s). left. reflexivity. }
    cbn [bind]. destruct (IH (pre ++ [x]) st1 H1) as (st2 & E2 & H2). { intros fl' s Hs. apply (Hl fl' s). right. exact Hs. }
    exists st2. rewrite <- app_assoc in H2. auto.
Qed.

(** Building: every string and null is kept, whatever the block policy. *)
Theorem view_build_keeps_rows :
  forall (u nl : bool) (L : list (bool * option (list Z))),
  (forall fl s, In (fl, Some s) L -> (Z.of_nat (length s) <= pmax U32)%Z) ->
  (u = true -> forall fl s, In (fl, Some s) L -> utf8_valid s = true) -> (nl = false -> ~ In None (map snd L)) ->
  exists a, view_from_iter u nl L = Ok a /\ logical a = map row (map snd L) /\ adtype a = str_dtype u nl /\
    forall f, (fk f = true -> nl = false) -> wf f a.
Proof.
  intros u nl L Hl Hu Hn. unfold view_from_iter.
  destruct (foldM_inv L [] vwb_new) as (st & -> & H); [repeat split; constructor|exact Hl|]. cbn [bind app] in *. unfold vwb_finish.
  apply flush_inv in H. assert (w_cur (vwb_flush st) = []) as EC by (unfold vwb_flush; destruct (w_cur st) eqn:E; auto). set (st1 := vwb_flush st) in *. cbv zeta.
  destruct H as (I1 & I2 & I3). rewrite EC in *. set (K := map snd L) in *.
  assert (length (w_views st1) = length K) as LV by (apply (f_equal (@length _)) in I2; rewrite !map_length in I2; exact I2).
  assert (forall w, In w (w_views st1) -> view_ok (w_done st1) w /\ view_bytes (w_done st1) w = view_bytes (w_done st1 ++ [[]]) w) as HV.
  { intros w Hw. rewrite Forall_forall in I1. specialize (I1 w Hw). destruct w as [s|size pre b off]; [auto|]. cbn [view_ok] in I1. destruct I1 as (K1 & K2 & K3 & K4).
    rewrite app_length in K2. cbn in K2. assert (b < length (w_done st1)) as Hb.
    { destruct (Nat.eq_dec b (length (w_done st1))) as [->|]; [|lia]. rewrite app_nth2, Nat.sub_diag in K3 by lia. cbn in K3. lia. }
    cbn [view_ok view_bytes]. rewrite app_nth1 in * by exact Hb. repeat split; auto. }
  assert (length (map is_some K) = length K) as LK by apply map_length.
  assert (exists w, arrow_nulls (drop_nulls (w_valid st1)) nl = Ok w /\ vwf w (length K) /\ vnullable w = nl /\ (forall k, k < length K -> vvalid w k = nth k (map is_some K) false)) as (v & -> & V1 & V2 & V3).
  { rewrite I3. rewrite <- LK. apply arrow_nulls_ok.
    - apply drop_nulls_spec.
    - intros N. pose proof (drop_nulls_spec (map is_some K)) as Q. unfold drop_nulls in *.
      destruct (Nat.eqb_spec (count negb (map is_some K)) 0) as [E0|E0]; [reflexivity|]. exfalso. apply E0. apply count_zero. intros y Hy. apply in_map_iff in Hy. destruct Hy as ([s|] & <- & Hx); [reflexivity|].
      exfalso. exact (Hn N Hx). }
  cbn [bind]. unfold try_view. rewrite LV. assert (vfits v (length K) = true) as -> by (apply vfits_vwf; exact V1). cbn [negb expect].
  assert (logical (AView u (w_views st1) (w_done st1) v) = map row K) as EL.
  { change (logical (AView u (w_views st1) (w_done st1) v)) with (tab (length (w_views st1)) (fun i => if vvalid v i then VBytes (view_bytes (w_done st1) (nth i (w_views st1) (VInl []))) else VNull)).
    rewrite LV, (map_ext_nth_tab row K None). apply tab_ext. intros k Hk. rewrite V3 by exact Hk. rewrite (map_nth_lt is_some K None) by exact Hk.
    assert (view_bytes (w_done st1) (nth k (w_views st1) (VInl [])) = ob (nth k K None)) as EB.
    { assert (In (nth k (w_views st1) (VInl [])) (w_views st1)) as HIn by (apply nth_In; lia). rewrite (proj2 (HV _ HIn)).
      rewrite <- (map_nth_lt (view_bytes (w_done st1 ++ [[]])) (w_views st1) (VInl []) [] k) by lia. rewrite I2.
      rewrite (map_nth_lt ob K None) by exact Hk. reflexivity. }
    rewrite EB. destruct (nth k K None); reflexivity. }
  eexists. split; [reflexivity|]. split; [exact EL|]. split; [cbn [adtype]; rewrite V2; reflexivity|]. intros f Hf.
  cbn [wf]. split; [apply Forall_forall; intros w Hw; apply HV; exact Hw|]. rewrite LV. split; [exact V1|]. split.
  - intros U s Hs. rewrite EL in Hs. apply in_map_iff in Hs. destruct Hs as ([t|] & Et & Ht); [|discriminate]. cbn in Et. injection Et as ->.
    unfold K in Ht. apply in_map_iff in Ht. destruct Ht as ((fl & y) & Ey & Hy). cbn in Ey. subst y. exact (Hu U fl s Hy).
  - intros Kf. specialize (Hf Kf). rewrite Hf in V2. destruct v; try discriminate. reflexivity.
Qed.
Print Assumptions view_build_keeps_rows.

(** A null in a non-nullable array, or a string of 4 GiB or more, is a panic. *)
Theorem view_build_rejects_nulls :
  forall (u : bool) (L : list (bool * option (list Z))),
  (forall fl s, In (fl, Some s) L -> (Z.of_nat (length s) <= pmax U32)%Z) -> In None (map snd L) -> view_from_iter u false L = Panic.
Proof.
  intros u L Hl H. unfold view_from_iter. destruct (foldM_inv L [] vwb_new) as (st & -> & HI); [repeat split; constructor|exact Hl|]. cbn [bind app] in *.
  unfold vwb_finish. apply flush_inv in HI. destruct HI as (_ & _ & I3). cbv zeta. rewrite I3. unfold drop_nulls.
  destruct (Nat.eqb_spec (count negb (map is_some (map snd L))) 0) as [E0|E0]; [|reflexivity]. exfalso.
  apply count_zero with (x := false) in E0; [discriminate|]. apply in_map_iff. exists None. auto.
Qed.
Print Assumptions view_build_rejects_nulls.

(** * Operations on view arrays *)
Definition f_view : flags := Flags true true true true true true true true true false.
Definition view_arr (a : array) : Prop := wf f_view a /\ match a with AView _ _ _ _ => True | _ => False end.

Lemma view_wf_any f u vs bufs v : fk f = false -> wf f_view (AView u vs bufs v) -> wf f (AView u vs bufs v).
Proof. intros K (W1 & W2 & W3 & W4). cbn [wf]. rewrite K. auto 10. Qed.

(** slice (same type), filter (same type), take (same strings and nulls; the nullability of the result is that of the rows taken,
    see [string_take_refuted]) and decoding. *)
Theorem view_ops_keep_rows :
  forall (a : array), view_arr a -> (Z.of_nat (length (logical a)) <= pmax U64)%Z ->
  (forall i j, i <= j -> j <= length (logical a) ->
     exists b, slice a i j = Ok b /\ logical b = spec_slice (logical a) i j /\ adtype b = adtype a /\ view_arr b) /\
  (forall ip idx l, is_int ip = true -> (Z.of_nat (length idx) <= pmax U64)%Z -> spec_take (logical a) idx = Some l ->
     exists b, take a ip idx = Ok b /\ logical b = l /\ same_kind (adtype b) (adtype a) /\ view_arr b) /\
  (forall m, length m = length (logical a) ->
     exists b, filter_array a (mask_of m) = Ok b /\ logical b = spec_filter (logical a) m /\ same_kind (adtype b) (adtype a) /\ view_arr b) /\
  (exists c, canon a = Ok c /\ logical c = logical a /\ adtype c = adtype a) /\
  (forall i, i < length (logical a) -> scalar_at a i = Ok (nth i (logical a) VNull)).
Proof.
  intros a [W V] Hlen. destruct a as [| | |u vs bufs v| | | | | | | | | | | |]; try contradiction. split; [|split; [|split; [|split]]].
  - intros i j Hij Hj. destruct (slice_commutes_with_decoding f_view _ i j W Hij Hj (or_introl eq_refl)) as (b & E & Wb & Ab & _ & Lb).
    exists b. split; [exact E|]. split; [exact Lb|]. split; [exact Ab|]. split; [exact Wb|].
    cbn [slice] in E. destruct (slice_bad _ _ _); [discriminate|]. destruct (vslice v i j); try discriminate. cbn [bind] in E. unfold try_view in E.
    destruct (negb _); [discriminate|]. injection E as <-. exact I.
  - intros ip idx l Hip Hidx HS. pose proof (spec_take_some_inv _ _ _ HS) as HI.
    destruct (take_commutes_with_decoding f_view _ ip idx W eq_refl eq_refl Hip Hidx HI) as [T1 T2].
    destruct (T2 (or_introl eq_refl)) as (b & E). destruct (T1 b E) as (S1 & _ & S3 & _ & S5). exists b. split; [exact E|]. split; [congruence|]. split; [exact S3|].
    unfold take in E. rewrite Hip in E. cbn [depth ops ops_step o_take] in E. unfold view_take in E.
    destruct b as [| | |u' vs' bufs' v'| | | | | | | | | | | |];
      try (exfalso; repeat match type of E with (do _ <- ?x; _) = _ => destruct x; try discriminate E; cbn [bind] in E end; fail).
    split; [|exact I]. apply (view_wf_any f_view); [reflexivity|]. cbn [wf] in S5 |- *. destruct S5 as (X1 & X2 & X3 & _). repeat split; auto. discriminate.
  - intros m Hm. destruct (filter_commutes_with_decoding f_view _ m W eq_refl eq_refl ltac:(rewrite Hm; exact Hlen) Hm) as [T1 T2].
    destruct (T2 eq_refl) as (b & E). destruct (T1 b E) as (S1 & S3 & _ & S5). exists b. split; [exact E|]. split; [exact S1|]. split; [exact S3|].
    assert (match b with AView _ _ _ _ => True | _ => False end) as SH.
    { unfold filter_array in E. cbn [depth ops ops_step o_filter] in E. unfold with_mask, default_filter in E.
      match type of E with (if ?c then _ else _) = _ => destruct c; [|discriminate] end.
      match type of E with (do c <- ?x; _) = _ => destruct x as [c| |] eqn:EX; try discriminate end. cbn [bind] in E, EX.
      destruct (arrow_nulls _ _) as [w| |]; try discriminate. cbn [bind] in EX. injection EX as <-. cbn [canon_filter] in E.
      destruct (filter_validity _ _ _ _) as [w'| |]; try discriminate. cbn [bind] in E. injection E as <-. exact I. }
    destruct b as [| | |u' vs' bufs' v'| | | | | | | | | | | |]; try contradiction.
    split; [|exact I]. cbn [wf] in S5 |- *. destruct S5 as (X1 & X2 & X3 & _). repeat split; auto. discriminate.
  - destruct (canonical_is_lossless f_view _ W eq_refl) as [C1 C2]. destruct (C2 eq_refl) as (c & E). destruct (C1 c E) as (_ & L & _).
    exists c. split; [exact E|]. split; [exact L|]. unfold canon in E. cbn [depth ops ops_step o_canon] in E.
    destruct (view_canon_ok u vs bufs v f_view W) as (w & Ew & _ & _ & Nw). rewrite Ew in E. cbn [bind] in E. injection E as <-. cbn [adtype]. rewrite Nw. reflexivity.
  - intros i Hi. apply (scalar_at_is_the_element f_view _ W). exact Hi.
Qed.
Print Assumptions view_ops_keep_rows.

(** Non-vacuity: 12- and 13-byte strings (inlined / referenced), an empty one, a null, a block change in between. *)
Definition ex_views : list (bool * option (list Z)) :=
  [(false, Some (repeat 97%Z 12)); (false, Some (repeat 98%Z 13)); (false, None); (true, Some (repeat 99%Z 20)); (false, Some [])].
Example ex_views_rows :
  exists a b, view_from_iter true true ex_views = Ok a /\ view_arr a /\
  logical a = [VBytes (repeat 97%Z 12); VBytes (repeat 98%Z 13); VNull; VBytes (repeat 99%Z 20); VBytes []] /\
  take a U8 [3; 1; 2; 1] = Ok b /\ logical b = [VBytes (repeat 99%Z 20); VBytes (repeat 98%Z 13); VNull; VBytes (repeat 98%Z 13)].
Proof.
  assert (exists a, view_from_iter true true ex_views = Ok a /\ match a with AView _ _ b _ => length b = 2 | _ => False end) as (a' & E' & S) by (eexists; split; [vm_compute; reflexivity|reflexivity]).
  destruct (view_build_keeps_rows true true ex_views) as (a & E & L & _ & W).
  - intros fl s H. cbn in H. repeat (destruct H as [H|H]; [first [discriminate H|injection H as <- <-; vm_compute; discriminate]|]). contradiction.
  - intros _ fl s H. cbn in H. repeat (destruct H as [H|H]; [first [discriminate H|injection H as <- <-; reflexivity]|]). contradiction.
  - discriminate.
  - assert (view_arr a) as V by (split; [apply W; discriminate|]; rewrite E in E'; injection E' as ->; destruct a'; auto).
    destruct (view_ops_keep_rows a V ltac:(rewrite L; vm_compute; discriminate)) as (_ & T & _).
    destruct (T U8 [3; 1; 2; 1] [VBytes (repeat 99%Z 20); VBytes (repeat 98%Z 13); VNull; VBytes (repeat 98%Z 13)] eq_refl ltac:(vm_compute; discriminate) ltac:(rewrite L; reflexivity)) as (b & Eb & Lb & _).
    exists a, b. auto 10.
Qed.
