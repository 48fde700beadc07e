(** The flat canonical encodings: null, boolean, primitive and view arrays. *)
From Verif Require Import Base Spec SearchModel SearchProofs Arr ArrRead ArrWf ArrReadProofs ArrSearchProofs ArrSlice ArrSliceProofs ArrSliceMain
  ValidityModel PropValidity IntEnc PropIntEnc RunEnc PropRunEnc PropUnary PropDict ArrOps OpsBase.

Lemma outc_ex {A} (T : Prop) (r : result A) (P : A -> Prop) : (exists b, r = Ok b /\ P b) -> outc T r P.
Proof. intros (b & -> & H). exact H. Qed.

Lemma mbits_eq m : moff m = 0 -> length (mbuf m) = mlen m -> mbits m = mbuf m /\ miter m = mbuf m.
Proof. intros H1 H2. unfold mbits, miter. rewrite H1, <- H2. split; apply lslice_full. Qed.

(** take *)
Lemma null_take_good n idx : Forall (fun i => i < n) idx -> null_take n idx = Ok (ANull (length idx)).
Proof.
  intros H. unfold null_take. rewrite (proj2 (forallb_forall _ _)); [reflexivity|]. intros i Hi.
  rewrite Forall_forall in H. apply Nat.ltb_lt. auto.
Qed.
Lemma bool_take_good f off buf len v idx : wf f (ABool off buf len v) -> Forall (fun i => i < len) idx ->
  exists bs w, bool_take off buf len v idx = Ok (ABool 0 bs (length bs) w) /\ length bs = length idx /\ vwf w (length bs) /\
    vnullable w = vnullable v /\ logical (ABool 0 bs (length bs) w) = pick (logical (ABool off buf len v)) idx.
Proof.
  intros (W1 & W2 & W3) H. unfold bool_take. destruct (vtake_ok v len idx W3 H) as (w & -> & V1 & V2 & V3 & V4). cbn [bind].
  rewrite (gather_ok _ _ false) by (rewrite lslice_length by lia; replace (off + len - off) with len by lia; exact H). cbn [bind].
  unfold try_bool. rewrite map_length, V4. do 2 eexists. split; [rewrite map_length; reflexivity|]. rewrite !map_length.
  split; [reflexivity|]. split; [exact V1|]. split; [exact V2|].
  cbn [logical]. rewrite tab_pick by exact H. apply tab_ext. intros k Hk. rewrite V3 by exact Hk.
  destruct (vvalid v _); [|reflexivity]. cbn [Nat.add]. rewrite (map_nth_lt (fun i => nth i (lslice buf off (off + len)) false) idx 0) by exact Hk.
  rewrite nth_lslice; [reflexivity|]. pose proof (Forall_nth_lt _ _ 0 k H Hk). cbv beta in H0. lia.
Qed.
Lemma prim_take_good f p l v idx : wf f (APrim p l v) -> Forall (fun i => i < length l) idx ->
  exists xs w, prim_take p l v idx = Ok (APrim p xs w) /\ xs = map (fun i => nth i l 0%Z) idx /\ Forall (in_range p) xs /\ vwf w (length xs) /\
    vnullable w = vnullable v /\ logical (APrim p xs w) = pick (logical (APrim p l v)) idx.
Proof.
  intros (W1 & W2) H. unfold prim_take. rewrite (gather_ok _ _ 0%Z) by exact H. cbn [bind].
  destruct (vtake_ok v _ idx W2 H) as (w & -> & V1 & V2 & V3 & V4). cbn [bind].
  unfold try_prim. rewrite map_length, V4. cbn [expect]. do 2 eexists. split; [reflexivity|]. split; [reflexivity|].
  split. { apply Forall_map. eapply Forall_impl; [|exact H]. intros i Hi. cbv beta in Hi. apply Forall_nth_lt; assumption. }
  rewrite !map_length.
  split; [exact V1|]. split; [exact V2|].
  cbn [logical]. rewrite tab_pick by exact H. rewrite map_length. apply tab_ext. intros k Hk. rewrite V3 by exact Hk.
  destruct (vvalid v _); [|reflexivity]. rewrite (map_nth_lt (fun i => nth i l 0%Z) idx 0) by exact Hk. reflexivity.
Qed.
Lemma wf_view_intro f u vs bufs v : Forall (view_ok bufs) vs -> vwf v (length vs) ->
  (u = true -> forall s, In (VBytes s) (logical (AView u vs bufs v)) -> utf8_valid s = true) -> (fk f = true -> v = VNonNull) -> wf f (AView u vs bufs v).
Proof. cbn [wf]. auto. Qed.
Lemma In_pick x l idx : Forall (fun i => i < length l) idx -> In x (pick l idx) -> In x l.
Proof. intros H Hx. unfold pick in Hx. apply in_map_iff in Hx. destruct Hx as (i & <- & Hi). rewrite Forall_forall in H. apply nth_In. auto. Qed.
Lemma view_take_good f u vs bufs v idx : wf f (AView u vs bufs v) -> Forall (fun i => i < length vs) idx ->
  exists xs w, view_take u vs bufs v idx = Ok (AView u xs bufs w) /\ length xs = length idx /\ wf f (AView u xs bufs w) /\
    (v = VNonNull -> w = VNonNull) /\ logical (AView u xs bufs w) = pick (logical (AView u vs bufs v)) idx.
Proof.
  intros W H. pose proof W as (W1 & W2 & W3 & W4). unfold view_take. rewrite (gather_ok _ _ (VInl [])) by exact H. cbn [bind].
  pose proof (null_buffer_spec v _ W2) as NB.
  set (l := map (fun i => vvalid v i) idx).
  assert (length l = length idx) as Ll by apply map_length.
  assert (forall k, k < length idx -> nth k l false = vvalid v (nth k idx 0)) as Nl.
  { intros k Hk. apply (map_nth_lt (fun i => vvalid v i) idx 0). exact Hk. }
  assert (exists nb, match to_null_buffer (to_logical v (length vs)) with
           | None => Ok None | Some b => do b' <- gather b idx; Ok (drop_nulls b') end = Ok nb /\
           match nb with None => forall k, k < length l -> nth k l false = true | Some b => b = l end /\ (v = VNonNull -> nb = None)) as (nb & -> & N1 & N2).
  { destruct (to_null_buffer (to_logical v (length vs))) as [b|] eqn:E.
    - rewrite (gather_ok _ _ false) by (subst b; rewrite vbits_length; exact H). cbn [bind]. eexists. split; [reflexivity|].
      assert (map (fun i => nth i b false) idx = l) as ->.
      { subst b. apply map_ext_in. intros i Hi. rewrite Forall_forall in H. apply nth_vbits. auto. }
      split; [apply drop_nulls_spec|]. intros ->. discriminate E.
    - exists None. split; [reflexivity|]. split; [|reflexivity]. rewrite Ll. intros k Hk. rewrite Nl by exact Hk. apply NB.
      apply (Forall_nth_lt _ _ 0 k H Hk). }
  cbn [bind].
  destruct (arrow_nulls_ok nb (match nb with Some _ => true | None => false end) l N1) as (w & -> & V1 & V2 & V3).
  { destruct nb; [discriminate|reflexivity]. }
  cbn [bind]. do 2 eexists. split; [reflexivity|]. split; [apply map_length|].
  assert (v = VNonNull -> w = VNonNull) as VN.
  { intros E. rewrite (N2 E) in V2. destruct w; try discriminate. reflexivity. }
  rewrite Ll in *.
  assert (logical (AView u (map (fun i => nth i vs (VInl [])) idx) bufs w) = pick (logical (AView u vs bufs v)) idx) as LL.
  { cbn [logical]. rewrite tab_pick by exact H. rewrite map_length. apply tab_ext. intros k Hk. rewrite V3, Nl by exact Hk.
    destruct (vvalid v _); [|reflexivity]. rewrite (map_nth_lt (fun i => nth i vs (VInl [])) idx 0) by exact Hk. reflexivity. }
  split; [|auto].
  apply wf_view_intro.
  - apply Forall_map. eapply Forall_impl; [|exact H]. intros i Hi. cbv beta in Hi. apply Forall_nth_lt; assumption.
  - rewrite map_length. exact V1.
  - intros Eu s Hs. apply (W3 Eu). rewrite LL in Hs. apply In_pick in Hs; [exact Hs|].
    eapply Forall_impl; [|exact H]. intros i Hi. rewrite logical_length. exact Hi.
  - intros K. apply VN, W4, K.
Qed.

Lemma fle_wf_view g f u vs bufs v : fle g f -> wf f (AView u vs bufs v) -> wf g (AView u vs bufs v).
Proof. apply wf_fle. Qed.

(** filter *)
Lemma canon_filter_good f nl c m : wf f c -> is_canon c = true -> flat (adtype c) = true -> (nl = false -> nullable (adtype c) = false) ->
  length m = alen c -> (nl = nullable (adtype c) \/ fk f = false) ->
  exists b, canon_filter c nl m = Ok b /\ wf f b /\ logical b = pick (logical c) (set_indices m) /\ erase (adtype b) = erase (adtype c) /\
    (adtype c <> DNull -> nullable (adtype b) = nl) /\ is_canon b = true.
Proof.
  intros W C F N L K. pose proof (set_indices_lt m) as SL. rewrite L in SL. pose proof (set_indices_length m) as SN.
  destruct c as [n|off buf len v|p l v|u vs bufs v| | | | | | | | | | | |]; try discriminate.
  - cbn [canon_filter]. eexists. split; [reflexivity|]. split; [exact I|]. split.
    { cbn [logical]. rewrite pick_repeat by exact SL. rewrite SN. reflexivity. }
    split; [reflexivity|]. split; [intros X; exfalso; apply X; reflexivity|reflexivity].
  - destruct W as (W1 & W2 & W3). cbn [alen] in *. cbn [canon_filter]. cbn [adtype nullable] in N.
    destruct (filter_validity_ok v len nl m W3 L) as (w & -> & V1 & V2 & V3); [intros E; specialize (N E); destruct v; auto; discriminate|].
    cbn [bind]. eexists. split; [reflexivity|].
    assert (length (bfilter (lslice buf off (off + len)) m) = count id m) as LB.
    { rewrite bfilter_spec. apply spec_filter_length. rewrite lslice_length by lia. lia. }
    split. { split; [lia|]. split; [cbn; lia|]. rewrite LB. exact V1. }
    split.
    { cbn [logical]. rewrite tab_pick by exact SL. rewrite LB, SN. apply tab_ext. intros k Hk. rewrite V3 by exact Hk.
      destruct (vvalid v _); [|reflexivity]. cbn [Nat.add]. rewrite bfilter_spec, (spec_filter_gather false) by (rewrite lslice_length by lia; lia).
      rewrite (map_nth_lt (fun i => nth i (lslice buf off (off + len)) false) _ 0) by lia.
      pose proof (Forall_nth_lt _ _ 0 k SL). cbv beta in H. rewrite SN in H. rewrite nth_lslice by lia. reflexivity. }
    split; [reflexivity|]. split; [intros _; exact V2|reflexivity].
  - destruct W as (W1 & W3). cbn [alen] in *. cbn [canon_filter]. cbn [adtype nullable] in N.
    destruct (filter_validity_ok v _ nl m W3 L) as (w & -> & V1 & V2 & V3); [intros E; specialize (N E); destruct v; auto; discriminate|].
    cbn [bind]. eexists. split; [reflexivity|].
    assert (bfilter l m = map (fun i => nth i l 0%Z) (set_indices m)) as ->.
    { rewrite bfilter_spec. apply spec_filter_gather. lia. }
    split. { split; [|rewrite map_length, SN; exact V1]. apply Forall_map. eapply Forall_impl; [|exact SL]. intros i Hi. apply Forall_nth_lt; assumption. }
    split.
    { cbn [logical]. rewrite tab_pick by exact SL. rewrite map_length. apply tab_ext. intros k Hk. rewrite V3 by lia.
      destruct (vvalid v _); [|reflexivity]. rewrite (map_nth_lt (fun i => nth i l 0%Z) _ 0) by lia. reflexivity. }
    split; [reflexivity|]. split; [intros _; exact V2|reflexivity].
  - pose proof W as (W1 & W3 & WU & WK). cbn [alen] in *. cbn [canon_filter].
    assert (nullable (adtype (AView u vs bufs v)) = vnullable v) as NV by (destruct u; reflexivity).
    rewrite NV in *.
    destruct (filter_validity_ok v _ nl m W3 L) as (w & -> & V1 & V2 & V3); [intros E; specialize (N E); destruct v; auto; discriminate|].
    cbn [bind]. eexists. split; [reflexivity|].
    assert (bfilter vs m = map (fun i => nth i vs (VInl [])) (set_indices m)) as ->.
    { rewrite bfilter_spec. apply spec_filter_gather. lia. }
    assert (logical (AView u (map (fun i => nth i vs (VInl [])) (set_indices m)) bufs w) = pick (logical (AView u vs bufs v)) (set_indices m)) as LL.
    { cbn [logical]. rewrite tab_pick by exact SL. rewrite map_length. apply tab_ext. intros k Hk. rewrite V3 by lia.
      destruct (vvalid v _); [|reflexivity]. rewrite (map_nth_lt (fun i => nth i vs (VInl [])) _ 0) by lia. reflexivity. }
    split.
    { apply wf_view_intro.
      - apply Forall_map. eapply Forall_impl; [|exact SL]. intros i Hi. cbv beta in Hi. apply Forall_nth_lt; assumption.
      - rewrite map_length, SN. exact V1.
      - intros Eu s Hs. apply (WU Eu). rewrite LL in Hs. apply In_pick in Hs; [exact Hs|].
        eapply Forall_impl; [|exact SL]. intros i Hi. rewrite logical_length. exact Hi.
      - intros Kt. destruct K as [K|K]; [|congruence]. rewrite (WK Kt) in K. cbn in K. rewrite K in V2. destruct w; try discriminate; reflexivity. }
    split; [exact LL|]. split; [destruct u; reflexivity|]. split; [intros _; destruct u; exact V2|reflexivity].
Qed.

Lemma erase_nullable d d' : erase d = erase d' -> nullable d = nullable d' -> d = d'.
Proof. destruct d, d'; cbn; congruence. Qed.
Lemma erase_flat d d' : erase d = erase d' -> flat d = flat d'.
Proof. destruct d, d'; cbn; congruence. Qed.
Lemma erase_derase d d' : erase d = erase d' -> derase d = derase d'.
Proof. destruct d, d'; cbn; congruence. Qed.
Lemma derase_flat d d' : derase d = derase d' -> flat d = flat d'.
Proof. destruct d, d'; cbn; congruence. Qed.
Lemma derase_erase d d' : flat d = true -> derase d = derase d' -> erase d = erase d'.
Proof. destruct d, d'; cbn; congruence. Qed.
Lemma erase_str d d' : erase d = erase d' -> is_str d = is_str d'.
Proof. destruct d, d'; cbn; congruence. Qed.
Lemma erase_prim d p n : erase d = DPrim p n -> exists w, d = DPrim p w.
Proof. destruct d; cbn; try discriminate. intros [= -> _]. eauto. Qed.

(** Well-formedness of flat canonical arrays hardly depends on the flags. *)
Lemma flat_canon_wf g f c : is_canon c = true -> flat (adtype c) = true -> wf f c ->
  (fk g = true -> is_str (adtype c) = true -> nullable (adtype c) = false) -> wf g c.
Proof.
  intros C F W H. destruct c as [n|off buf len v|p l v|u vs bufs v| | | | | | | | | | | |]; try discriminate; try exact W.
  cbn [wf] in *. destruct W as (W1 & W2 & W3 & W4). repeat split; auto.
  intros K. specialize (H K). cbn [adtype] in H. destruct u; cbn in H; specialize (H eq_refl); destruct v; auto; discriminate.
Qed.
Lemma flat_canon_depth c : is_canon c = true -> flat (adtype c) = true -> depth c = 0.
Proof. destruct c; cbn; try discriminate; auto. Qed.

(** What the canonical form of a flat array looks like. *)
Lemma canon_prim c p n : is_canon c = true -> adtype c = DPrim p n -> exists l v, c = APrim p l v /\ vnullable v = n.
Proof.
  destruct c as [|? ? ? ?|? ? ?|u ? ? ?| | | | | | | | | | | |]; cbn; try discriminate; intros _ H; [|destruct u; discriminate].
  injection H as <- <-. eauto.
Qed.
Lemma canon_bool c n : is_canon c = true -> adtype c = DBool n -> exists o b l v, c = ABool o b l v /\ vnullable v = n.
Proof.
  destruct c as [|? ? ? ?|? ? ?|u ? ? ?| | | | | | | | | | | |]; cbn; try discriminate; intros _ H; [|destruct u; discriminate].
  injection H as <-. eauto 6.
Qed.
Lemma canon_view c : is_canon c = true -> is_str (adtype c) = true -> exists u vs bufs v, c = AView u vs bufs v.
Proof.
  destruct c as [|? ? ? ?|? ? ?|u ? ? ?| | | | | | | | | | | |]; cbn; try discriminate; intros _ H; eauto 6.
Qed.

Lemma canon_prim_post f a c p n : canon_post f a c -> adtype a = DPrim p n ->
  exists l v, c = APrim p l v /\ vnullable v = n /\ Forall (in_range p) l /\ vwf v (length l) /\ length l = alen a /\ logical (APrim p l v) = logical a.
Proof.
  intros (C & L & _ & D & W) E. rewrite E in D. specialize (D (or_intror eq_refl)).
  destruct (canon_prim c p n C D) as (l & v & -> & V). exists l, v. split; [reflexivity|]. split; [exact V|].
  destruct W as [W1 W2]. split; [exact W1|]. split; [exact W2|]. split; [|exact L].
  apply (f_equal (@length value)) in L. rewrite !logical_length in L. exact L.
Qed.
(** The canonical form of a non-nullable primitive array is the array of its integers. *)
Lemma prim_of_canon f a c p : canon_post f a c -> adtype a = DPrim p false ->
  c = APrim p (ints (logical a)) VNonNull.
Proof.
  intros P E. destruct (canon_prim_post f a c p false P E) as (l & v & -> & V & _ & _ & _ & L).
  destruct v; try discriminate. rewrite <- L, logical_nonnull_ints. reflexivity.
Qed.
Lemma into_prim_ok f a r p : outc (fC f = true) r (canon_post f a) -> adtype a = DPrim p false ->
  outc (fC f = true) (into_prim r) (fun x => x = (p, ints (logical a), VNonNull)).
Proof.
  intros H E. unfold into_prim. eapply outc_bind; [exact H|]. intros c _ P. rewrite (prim_of_canon _ _ _ _ P E). apply outc_ok. reflexivity.
Qed.
Lemma into_prim_ok_n f a r p n : outc (fC f = true) r (canon_post f a) -> adtype a = DPrim p n ->
  outc (fC f = true) (into_prim r) (fun x => exists l v, x = (p, l, v) /\ vnullable v = n /\ Forall (in_range p) l /\ vwf v (length l) /\
    length l = alen a /\ logical (APrim p l v) = logical a).
Proof.
  intros H E. unfold into_prim. eapply outc_bind; [exact H|]. intros c _ P.
  destruct (canon_prim_post _ _ _ _ _ P E) as (l & v & -> & R). apply outc_ok. eauto.
Qed.
