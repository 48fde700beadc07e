(** take, encoding by encoding (part 1). *)
From Verif Require Import Base Spec SearchModel SearchProofs Arr ArrRead ArrWf ArrReadProofs ArrSearchProofs ArrSlice ArrSliceProofs ArrSliceMain
  ValidityModel PropValidity IntEnc PropIntEnc RunEnc PropRunEnc PropUnary PropDict ArrOps OpsBase OpsFlat OpsCanon OpsCanon2 OpsCanon3.

Lemma sel_alen g f a idx b : sel_post g f a idx b -> alen b = length idx.
Proof. intros (_ & L & _). rewrite <- logical_length, L. apply pick_length. Qed.

(** Selecting from a flat canonical array. *)
Lemma sel_prim g f p l v xs w idx : Forall (in_range p) xs -> vwf w (length xs) -> vnullable w = vnullable v ->
  logical (APrim p xs w) = pick (logical (APrim p l v)) idx -> sel_post g f (APrim p l v) idx (APrim p xs w).
Proof.
  intros H1 H2 H3 H4. split; [cbn [wf]; auto|]. split; [exact H4|]. cbn [adtype depth derase erase]. rewrite H3. auto.
Qed.

(** Composition for encodings over one child. *)
Lemma sel_struct g f ns fls n v fls' w idx : fle g f -> wf f (AStruct ns fls n v) -> Forall (fun i => i < n) idx ->
  Forall2 (fun x y => sel_post g f x idx y) fls fls' -> vwf w (length idx) -> vnullable w = vnullable v ->
  (forall k, k < length idx -> vvalid w k = vvalid v (nth k idx 0)) ->
  sel_post g f (AStruct ns fls n v) idx (AStruct ns fls' (length idx) w).
Proof.
  intros L W HI F2 V1 V2 V3. apply wf_struct_iff in W. destruct W as (Hn & Hv & Hf).
  assert (length fls' = length fls) as HL by (symmetry; eapply Forall2_length; eauto).
  split; [|split; [|split; [|split]]].
  - apply wf_struct_iff. rewrite HL. split; [auto|]. split; [auto|].
    clear - F2. induction F2 as [|x y l l' H _ IH]; constructor; [|auto]. split; [apply H|]. eapply sel_alen; eauto.
  - cbn [logical]. rewrite tab_pick by exact HI. apply tab_ext. intros k Hk. rewrite V3 by auto.
    destruct (vvalid v (nth k idx 0)); [|reflexivity]. f_equal. rewrite !map_map.
    clear - F2 Hk. induction F2 as [|x y l l' H _ IH]; [reflexivity|]. cbn [map]. f_equal; [|exact IH].
    destruct H as (_ & -> & _). apply nth_pick. exact Hk.
  - cbn [adtype derase]. f_equal. rewrite !map_map. clear - F2. induction F2 as [|x y l l' H _ IH]; [reflexivity|]. cbn [map]. f_equal; [|exact IH]. apply H.
  - intros [K|K]; [|discriminate]. cbn [adtype]. rewrite V2. f_equal.
    clear - F2 K. induction F2 as [|x y l l' H _ IH]; [reflexivity|]. cbn [map]. f_equal; [|exact IH]. apply H. auto.
  - cbn [depth]. apply le_n_S. clear - F2. induction F2 as [|x y l l' H _ IH]; [auto|].
    change (max (depth y) (list_max (map depth l')) <= max (depth x) (list_max (map depth l))).
    destruct H as (_ & _ & _ & _ & D). lia.
Qed.
Lemma sel_ext g f id st st' idx : fle g f -> wf f (AExt id st) -> sel_post g f st idx st' -> sel_post g f (AExt id st) idx (AExt id st').
Proof.
  intros L [W HF] (S1 & S2 & S3 & S4 & S5). split; [|split; [|split; [|split]]].
  - cbn [wf]. split; [exact S1|]. destruct L as (L1 & L2 & L3 & L4 & L5 & Lk & [(H1 & H2 & H3 & H4 & H5)|(H1 & H2 & H3 & H4)]); congruence.
  - exact S2.
  - reflexivity.
  - intros [K|K]; [|discriminate]. cbn [adtype]. rewrite S4 by auto. reflexivity.
  - cbn [depth]. lia.
Qed.
Lemma sel_const g f d x n idx : fle g f -> wf f (AConst d x n) -> Forall (fun i => i < n) idx ->
  sel_post g f (AConst d x n) idx (AConst d x (length idx)).
Proof.
  intros L W HI. split; [|repeat split; auto].
  - apply (wf_fle _ g f L). exact W.
  - cbn [logical]. rewrite pick_repeat by exact HI. reflexivity.
Qed.
Lemma sel_for g f p e r sh idx e' : wf f (AFoR p e r sh) -> sel_post g f e idx e' -> Forall (fun i => i < alen e) idx ->
  sel_post g f (AFoR p e r sh) idx (AFoR p e' r sh).
Proof.
  intros (W1 & W2 & (n & W3) & W4 & W5) (S1 & S2 & S3 & S4 & S5) HI.
  assert (adtype e' = adtype e) as E by (apply S4; right; rewrite W3; reflexivity).
  split; [|split; [|split; [|split]]].
  - cbn [wf]. split; [exact S1|]. split; [exact W2|]. split; [exists n; congruence|]. auto.
  - cbn [logical]. rewrite S2. rewrite <- pick_map; [reflexivity|]. rewrite logical_length. exact HI.
  - cbn [adtype]. rewrite E. reflexivity.
  - intros _. cbn [adtype]. rewrite E. reflexivity.
  - cbn [depth]. lia.
Qed.
Lemma pick_map' {A} (h : value -> A) (d : A) l idx : Forall (fun i => i < length l) idx -> map h (pick l idx) = map (fun i => nth i (map h l) d) idx.
Proof.
  intros H. unfold pick. rewrite map_map. apply map_ext_in. intros i Hi. rewrite Forall_forall in H. symmetry.
  apply (map_nth_lt h l VNull). auto.
Qed.
Lemma sel_dict g f c vs idx c' : fle g f -> wf f (ADict c vs) -> sel_post g f c idx c' -> Forall (fun i => i < alen c) idx ->
  uint_nonnull (adtype c') = true /\ sel_post g f (ADict c vs) idx (ADict c' vs).
Proof.
  intros L W (S1 & S2 & S3 & S4 & S5) HI. pose proof W as W0.
  cbn [wf] in W. destruct W as (W1 & W2 & (p & W3 & W3') & W4 & W5 & W6 & W7 & W8).
  assert (adtype c' = adtype c) as E by (apply S4; right; rewrite W3; reflexivity).
  split; [rewrite E, W3; exact W3'|].
  assert (Forall (fun i => i < length (logical c)) idx) as HI' by (rewrite logical_length; exact HI).
  assert (logical (ADict c' vs) = pick (logical (ADict c vs)) idx) as EL.
  { cbn [logical]. rewrite S2. unfold pick. rewrite map_map. apply map_ext_in. intros i Hi. rewrite Forall_forall in HI'.
    symmetry. apply (map_nth_lt (fun c => nth (Z.to_nat (vint c)) (logical vs) VNull) (logical c) VNull). auto. }
  assert (alen c' = length idx) as AL by (rewrite <- logical_length, S2; apply pick_length).
  split; [|split; [|split; [|split]]].
  - pose proof (wf_fle _ g f L W0) as Wg. cbn [wf] in Wg. destruct Wg as (_ & V2 & _ & _ & _ & V6 & V7 & V8).
    cbn [wf]. split; [exact S1|]. split; [exact V2|]. split; [exists p; split; congruence|].
    split. { rewrite S2, ints_pick_. apply Forall_map. eapply Forall_impl; [|exact HI]. intros i Hi. cbv beta in Hi.
             apply (Forall_nth_lt _ _ 0%Z i W4). rewrite ints_length, logical_length. exact Hi. }
    split; [exact W5|]. split; [|auto].
    intros Hv Hn i Hi. rewrite EL, S2. rewrite AL in Hi. rewrite !nth_pick by exact Hi. apply V6; auto.
    apply (Forall_nth_lt _ _ 0 i HI Hi).
  - exact EL.
  - reflexivity.
  - reflexivity.
  - cbn [depth]. lia.
Qed.

Definition take_ok (rec : array -> ops_t) (a : array) : Prop :=
  forall f ip idx, wf f a -> fc f = true -> ft f = true -> (Z.of_nat (length idx) <= pmax U64)%Z ->
    Forall (fun i => i < alen a) idx -> outc (Ttake f ip idx) (o_take (ops_step rec a) ip idx) (take_post f a idx).

Lemma retake_flat f a ip idx o : ops_good o a -> wf f a -> is_canon a = true -> flat (adtype a) = true ->
  (fk f = true -> is_str (adtype a) = true -> nullable (adtype a) = false) ->
  Forall (fun i => i < alen a) idx -> exists b, o_take o ip idx = Ok b /\ is_canon b = true /\ take_post f a idx b.
Proof.
  intros G W C Fl K HI. destruct (g_retake _ _ G f ip idx W C Fl HI) as (b & E & Cb & Wb & Lb & Eb & Kb). exists b. split; [exact E|].
  split; [exact Cb|]. split; [|split; [|split; [|split]]].
  - apply (flat_canon_wf _ f); [exact Cb|rewrite (erase_flat _ _ Eb); exact Fl|exact Wb|].
    intros Hk Hs. assert (fk f = true) as Hk' by (apply (fle_pf f); exact Hk). rewrite (erase_str _ _ Eb) in Hs.
    specialize (K Hk' Hs). rewrite Kb by auto. exact K.
  - exact Lb.
  - apply erase_derase. exact Eb.
  - intros [Hk|Hp].
    + destruct (is_str (adtype a)) eqn:S; [apply Kb; right; auto|apply Kb; auto].
    + apply Kb. left. destruct (adtype a); try discriminate; reflexivity.
  - rewrite (flat_canon_depth b Cb) by (rewrite (erase_flat _ _ Eb); exact Fl). lia.
Qed.

Section Step.
  Variable rec : array -> ops_t.
  Variable M : nat.
  Hypothesis Hrec : forall b, depth b < M -> ops_good (rec b) b.
  Local Notation take_ok := (take_ok rec).

  Lemma take_null n : take_ok (ANull n).
  Proof.
    intros f ip idx W C T Hl HI. apply outc_ex. exists (ANull (length idx)). split; [apply null_take_good; exact HI|].
    split; [exact I|]. split; [cbn [logical]; rewrite pick_repeat by exact HI; reflexivity|]. auto.
  Qed.
  Lemma take_bool o b n v : take_ok (ABool o b n v).
  Proof.
    intros f ip idx W C T Hl HI. apply outc_ex. cbn [alen] in HI. destruct (bool_take_good f o b n v idx W HI) as (bs & w & E & L & V1 & V2 & V3).
    exists (ABool 0 bs (length bs) w). split; [exact E|]. split; [cbn [wf]; repeat split; auto; lia|]. split; [exact V3|].
    cbn [adtype depth derase erase]. rewrite V2. auto.
  Qed.
  Lemma take_prim p l v : take_ok (APrim p l v).
  Proof.
    intros f ip idx W C T Hl HI. apply outc_ex. cbn [alen] in HI. destruct (prim_take_good f p l v idx W HI) as (xs & w & E & L & R & V1 & V2 & V3).
    exists (APrim p xs w). split; [exact E|]. apply sel_prim; auto.
  Qed.
  Lemma take_view u vs b v : take_ok (AView u vs b v).
  Proof.
    intros f ip idx W C T Hl HI. apply outc_ex. cbn [alen] in HI. destruct (view_take_good f u vs b v idx W HI) as (xs & w & E & L & V1 & V2 & V3).
    exists (AView u xs b w). split; [exact E|]. split; [apply (wf_fle _ _ f (fle_pf f)); exact V1|]. split; [exact V3|].
    split; [cbn [adtype]; destruct u; reflexivity|]. split; [|auto].
    intros [K|K]; [|cbn [adtype] in K; destruct u; discriminate]. cbn [wf] in W. destruct W as (_ & _ & _ & W). rewrite (W K) in *. rewrite V2 by auto. reflexivity.
  Qed.
  Lemma take_struct ns fls n v : depth (AStruct ns fls n v) <= M -> take_ok (AStruct ns fls n v).
  Proof.
    intros D f ip idx W C T Hl HI. cbn [alen] in HI. cbn [ops_step o_take]. pose proof W as W0. apply wf_struct_iff in W. destruct W as (Hn & Hv & Hf).
    eapply outc_bind.
    { apply mapM_outc with (P := fun x y => take_post f x idx y). intros x Hx. rewrite Forall_forall in Hf. destruct (Hf x Hx) as [Wx Lx].
      apply (g_take _ _ (Hrec x ltac:(cbn [depth] in D; pose proof (proj1 (list_max_le (map depth fls) _) (le_n _)) as Q; rewrite Forall_forall in Q;
        specialize (Q (depth x) (in_map depth _ _ Hx)); lia))); auto. rewrite Lx. exact HI. }
    intros fls' _ F2. destruct (vtake_ok v n idx Hv HI) as (w & E & V1 & V2 & V3 & V4). rewrite E. cbn [bind].
    assert (length fls' = length fls) as HL by (symmetry; eapply Forall2_length; eauto).
    unfold try_struct. rewrite Hn, HL, Nat.eqb_refl, V4. cbn [negb].
    assert (forallb (fun x => alen x =? length idx) fls' = true) as ->.
    { apply forallb_forall. intros y Hy. clear - F2 Hy. induction F2 as [|x y0 l l' H _ IH]; [destruct Hy|].
      destruct Hy as [<-|Hy]; [apply Nat.eqb_eq; eapply sel_alen; eauto|auto]. }
    cbn [negb]. apply outc_ok. apply sel_struct; auto. apply fle_pf.
  Qed.
  Lemma take_ext id st : depth (AExt id st) <= M -> take_ok (AExt id st).
  Proof.
    intros D f ip idx W C T Hl HI. cbn [ops_step o_take]. cbn [depth] in D. eapply outc_bind.
    { apply (g_take _ _ (Hrec st ltac:(lia)) f ip idx); auto. apply W. }
    intros st' _ S. apply outc_ok. apply sel_ext; auto. apply fle_pf.
  Qed.
  Lemma take_const d x n : take_ok (AConst d x n).
  Proof. intros f ip idx W C T Hl HI. apply outc_ok. apply sel_const; auto. apply fle_pf. Qed.
  Lemma take_for p e r sh : depth (AFoR p e r sh) <= M -> take_ok (AFoR p e r sh).
  Proof.
    intros D f ip idx W C T Hl HI. cbn [ops_step o_take]. cbn [depth] in D. eapply outc_bind.
    { apply (g_take _ _ (Hrec e ltac:(lia)) f ip idx); auto. apply W. }
    intros st' _ S. apply outc_ok. eapply sel_for; eauto.
  Qed.
  Lemma take_dict c vs : depth (ADict c vs) <= M -> take_ok (ADict c vs).
  Proof.
    intros D f ip idx W C T Hl HI. cbn [ops_step o_take]. cbn [depth] in D. eapply outc_bind.
    { apply (g_take _ _ (Hrec c ltac:(lia)) f ip idx); auto. apply W. }
    intros c' _ S. destruct (sel_dict _ f c vs idx c' (fle_pf f) W S HI) as [U P]. unfold try_dict. rewrite U. apply outc_ok. exact P.
  Qed.
  Lemma take_bytebool l v : take_ok (AByteBool l v).
  Proof.
    intros f ip idx (W1 & W2 & W3) C T Hl HI. cbn [alen] in HI. cbn [ops_step o_take]. unfold bytebool_take.
    assert (forall w bs, length bs = length idx -> vwf w (length bs) -> (v <> VNonNull -> vnullable w = vnullable v) -> w <> VNonNull ->
      (forall k, k < length idx -> vvalid w k = vvalid v (nth k idx 0)) ->
      Forall (fun z => z = 0 \/ z = 1)%Z bs ->
      (forall k, k < length idx -> vvalid v (nth k idx 0) = true -> nth k bs 0%Z = nth (nth k idx 0) l 0%Z) ->
      take_post f (AByteBool l v) idx (AByteBool bs w)) as G.
    { intros w bs L V1 V2 V3 V4 F B. split; [|split; [|split; [|split]]]; [cbn [wf]; auto| |reflexivity| |auto].
      - cbn [logical]. rewrite tab_pick by exact HI. rewrite L. apply tab_ext. intros k Hk. rewrite V4 by exact Hk.
        destruct (vvalid v (nth k idx 0)) eqn:E; [|reflexivity]. rewrite B by auto. reflexivity.
      - intros [K|K]; [|discriminate]. cbn [adtype]. rewrite V2; auto. }
    assert (forall (bs : list Z), bs = map (fun i => nth i l 0%Z) idx -> Forall (fun z => z = 0 \/ z = 1)%Z bs) as GF.
    { intros bs ->. apply Forall_map. eapply Forall_impl; [|exact HI]. intros i Hi. cbv beta in Hi. apply (Forall_nth_lt _ _ 0%Z i W1). exact Hi. }
    destruct v as [| | |vb].
    1,2: rewrite (gather_ok l idx 0%Z) by exact HI; cbn [bind]; apply outc_ok; apply G; rewrite ?map_length; auto; try discriminate; try congruence;
      try (eapply GF; reflexivity); intros k Hk _; apply (map_nth_lt (fun i => nth i l 0%Z) idx 0); exact Hk.
    - apply outc_ok. apply G; rewrite ?repeat_length; auto.
      + pose proof (vfrom_wf (repeat false (length idx))) as H. rewrite repeat_length in H. exact H.
      + intros _. apply vnullable_vfrom.
      + intros H. pose proof (vnullable_vfrom (repeat false (length idx))). rewrite H in H0. discriminate.
      + intros k Hk. rewrite vvalid_vfrom by (rewrite repeat_length; exact Hk). rewrite nth_repeat_lt by exact Hk. reflexivity.
      + apply Forall_forall. intros z Hz. apply repeat_spec in Hz. auto.
      + discriminate.
    - cbn [vwf] in W2.
      assert (mapM (fun i => do ok <- vvalid_r (VBits vb) i; (if ok : bool then match nth_error l i with Some z => Ok (Some z) | None => Panic end else Ok None)) idx
        = Ok (map (fun i => if nth i vb false then Some (nth i l 0%Z) else None) idx)) as E.
      { apply mapM_ok_map. intros i Hi. rewrite Forall_forall in HI. specialize (HI i Hi). cbv beta in HI.
        rewrite (vvalid_r_ok (VBits vb) (length l) i) by auto. cbn [bind vvalid]. destruct (nth i vb false); [|reflexivity].
        rewrite (nth_error_nth' l 0%Z) by exact HI. reflexivity. }
      rewrite E. cbn [bind]. apply outc_ok. rewrite !map_map.
      apply G.
      + apply map_length.
      + pose proof (vfrom_wf (map (fun i => match (if nth i vb false then Some (nth i l 0%Z) else None) with Some _ => true | None => false end) idx)) as H.
        rewrite map_length in *. exact H.
      + intros _. apply vnullable_vfrom.
      + intros H. match type of H with vfrom ?x = _ => pose proof (vnullable_vfrom x) as Q end. rewrite H in Q. discriminate.
      + intros k Hk. rewrite vvalid_vfrom by (rewrite map_length; exact Hk).
        rewrite (map_nth_lt _ idx 0) by exact Hk. cbn [vvalid]. destruct (nth (nth k idx 0) vb false); reflexivity.
      + apply Forall_map. eapply Forall_impl; [|exact HI]. intros i Hi. cbv beta in Hi. destruct (nth i vb false); [|auto]. apply (Forall_nth_lt _ _ 0%Z i W1). exact Hi.
      + intros k Hk V. rewrite (map_nth_lt _ idx 0) by exact Hk. cbn [vvalid] in V. rewrite V. reflexivity.
  Qed.
End Step.
