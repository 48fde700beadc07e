(** filter, encoding by encoding (all but variable-length binary and chunked). *)
From Verif Require Import Base Spec SearchModel SearchProofs Arr ArrRead ArrWf ArrReadProofs ArrSearchProofs ArrSlice ArrSliceProofs ArrSliceMain
  ValidityModel PropValidity IntEnc PropIntEnc RunEnc PropRunEnc PropUnary PropDict ArrOps OpsBase OpsFlat OpsCanon OpsCanon2 OpsCanon3 OpsTake
  OpsVarBin OpsSparse OpsTake2 OpsChunked.

Lemma pF_eq f : (fF f = true -> fT f = true \/ fN f = true) -> pF f = pf f.
Proof. unfold pF, pf. intros H. destruct (fF f); [|reflexivity]. destruct (H eq_refl) as [-> | ->]; [reflexivity|]. rewrite orb_true_r. reflexivity. Qed.

Definition filter_ok (rec : array -> ops_t) (a : array) : Prop :=
  forall f m, wf f a -> fc f = true -> ft f = true -> (Z.of_nat (alen a) <= pmax U64)%Z ->
    moff m = 0 -> mlen m = alen a -> length (mbuf m) = mlen m -> outc (fF f = true) (o_filter (ops_step rec a) m) (filter_post f a m).

(** The default: decode, then filter the canonical array. *)
Lemma filter_canon f a c m : canon_post f a c -> adtype c = adtype a -> flat (adtype a) = true ->
  (fk f = true -> is_str (adtype a) = true -> nullable (adtype a) = false) ->
  moff m = 0 -> mlen m = alen a -> length (mbuf m) = mlen m ->
  exists b, canon_filter c (nullable (adtype a)) (mbits m) = Ok b /\ filter_post f a m b.
Proof.
  intros (C1 & C2 & C3 & C4 & C5) E Fl K M1 M2 M3. destruct (mbits_eq m M1 M3) as [EB _].
  destruct (canon_filter_good (cf f) (nullable (adtype a)) c (mbits m)) as (b & Eb & Wb & Lb & Db & Nb & Cb); auto.
  - rewrite E. exact Fl.
  - rewrite E. auto.
  - rewrite EB. rewrite <- (logical_length c), C2, logical_length. lia.
  - exists b. split; [exact Eb|]. assert (adtype b = adtype a) as DB.
    { apply erase_nullable; [rewrite Db, E; reflexivity|]. destruct (adtype a) eqn:EA; try (apply Nb; rewrite E; discriminate).
      rewrite E in Db. destruct (adtype b); try discriminate. reflexivity. }
    split; [|split; [|split; [|split]]].
    + apply (flat_canon_wf (pF f) (cf f)); auto; rewrite DB; [exact Fl|]. intros X. apply K. apply (fle_pF f). exact X.
    + rewrite Lb, C2. reflexivity.
    + rewrite DB. reflexivity.
    + intros _. exact DB.
    + rewrite (flat_canon_depth b Cb) by (rewrite DB; exact Fl). lia.
Qed.
Lemma dflt_ok (T : Prop) f a r m : outc T r (canon_post f a) -> (fk f = true \/ is_str (adtype a) = false) -> flat (adtype a) = true ->
  (fk f = true -> is_str (adtype a) = true -> nullable (adtype a) = false) ->
  moff m = 0 -> mlen m = alen a -> length (mbuf m) = mlen m ->
  outc T (with_mask a (default_filter a r) m) (filter_post f a m).
Proof.
  intros H K1 Fl K2 M1 M2 M3. unfold with_mask. rewrite M2, Nat.eqb_refl. unfold default_filter. eapply outc_bind; [exact H|].
  intros c _ P. apply outc_ex. apply filter_canon; auto. apply P. exact K1.
Qed.

(** [f] with a total decoder. *)
Definition withC (f : flags) : flags := Flags (fs f) (fn f) (fc f) true (fv f) (ft f) (fT f) (fN f) (fF f) (fk f).

Section Step.
  Variable rec : array -> ops_t.
  Variable M : nat.
  Hypothesis Hrec : forall b, depth b < M -> ops_good (rec b) b.
  Local Notation filter_ok := (filter_ok rec).

  Lemma filter_null n : filter_ok (ANull n).
  Proof.
    intros f m W C Ft Hl M1 M2 M3. apply dflt_ok; auto; try (cbn; discriminate).
    eapply outc_weaken with (P' := canon_post f (ANull n)); [apply (canon_null rec n (withC f) W C)|auto|auto].
  Qed.
  Lemma filter_bool o b n v : filter_ok (ABool o b n v).
  Proof.
    intros f m W C Ft Hl M1 M2 M3. apply dflt_ok; auto; try (cbn; discriminate).
    eapply outc_weaken with (P' := canon_post f (ABool o b n v)); [apply (canon_bool_ rec o b n v (withC f) W C)|auto|auto].
  Qed.
  Lemma filter_prim p l v : filter_ok (APrim p l v).
  Proof.
    intros f m W C Ft Hl M1 M2 M3. apply dflt_ok; auto; try (cbn; discriminate).
    eapply outc_weaken with (P' := canon_post f (APrim p l v)); [apply (canon_prim_ rec p l v (withC f) W C)|auto|auto].
  Qed.
  Lemma filter_bytebool l v : filter_ok (AByteBool l v).
  Proof.
    intros f m W C Ft Hl M1 M2 M3. apply dflt_ok; auto; try (cbn; discriminate).
    eapply outc_weaken with (P' := canon_post f (AByteBool l v)); [apply (canon_bytebool rec l v (withC f) W C)|auto|auto].
  Qed.
  Lemma filter_view u vs b v : filter_ok (AView u vs b v).
  Proof.
    intros f m W C Ft Hl M1 M2 M3. cbn [ops_step o_filter]. unfold with_mask. rewrite M2, Nat.eqb_refl. unfold default_filter.
    destruct (view_canon_ok u vs b v f W) as (w & E & Ww & L & N). rewrite E. cbn [bind].
    assert (adtype (AView u vs b w) = adtype (AView u vs b v)) as ED by (destruct u; cbn [adtype]; rewrite N; reflexivity).
    apply outc_ex. apply filter_canon; auto.
    - split; [reflexivity|]. split; [exact L|]. rewrite ED. split; [reflexivity|]. split; [reflexivity|]. eapply wf_fle; [apply fle_cf|exact Ww].
    - destruct u; reflexivity.
    - intros K _. cbn [wf] in W. destruct W as (_ & _ & _ & W). rewrite (W K). destruct u; reflexivity.
  Qed.
  Lemma filter_zigzag e : depth (AZigZag e) <= M -> filter_ok (AZigZag e).
  Proof.
    intros D f m W C Ft Hl M1 M2 M3. pose proof (canon_zigzag rec M Hrec e D f W C) as Q. cbn [ops_step o_filter o_canon] in *.
    pose proof W as W0. cbn [wf] in W. destruct W as (W1 & (p & n & W2 & W2') & W3). apply dflt_ok; auto; cbn [adtype]; rewrite ?W2; auto; try discriminate.
    eapply outc_weaken with (P' := canon_post f (AZigZag e)); [exact Q|auto|auto].
  Qed.
  Lemma filter_runend e vs v o n : depth (ARunEnd e vs v o n) <= M -> filter_ok (ARunEnd e vs v o n).
  Proof.
    intros D f m W C Ft Hl M1 M2 M3. pose proof (canon_runend rec M Hrec e vs v o n D f W C) as Q. cbn [ops_step o_filter o_canon] in *.
    pose proof W as W0. cbn [wf] in W. destruct W as (W1 & W2 & (p & De & Hu) & W4 & W5 & W6 & W7 & W8 & W9 & W10 & W11 & W12 & W13 & W14 & W15 & W16).
    specialize (W13 C). assert (is_str (adtype vs) = false) as NS by (destruct (adtype vs); try discriminate; reflexivity).
    assert (is_str (adtype (ARunEnd e vs v o n)) = false) as NS' by exact NS.
    apply dflt_ok; auto; try congruence.
    eapply outc_weaken with (P' := canon_post f (ARunEnd e vs v o n)); [exact Q| |auto]. intros X. apply W16. auto.
  Qed.
  Lemma filter_bitpacked p l bw o n v q : depth (ABitPacked p l bw o n v q) <= M -> filter_ok (ABitPacked p l bw o n v q).
  Proof.
    intros D f m W C Ft Hl M1 M2 M3. pose proof (canon_bitpacked rec M Hrec p l bw o n v q D f W C) as Q. cbn [ops_step o_filter o_canon] in *.
    cbn [wf] in W. destruct W as (Hp & Hb & Ho & Hl' & Hr & Hw & Hq & HC). apply dflt_ok; auto; try (cbn; discriminate).
    eapply outc_weaken with (P' := canon_post f (ABitPacked p l bw o n v q)); [exact Q| |auto]. auto.
  Qed.

  Lemma mcount_len m : length (set_indices (mbits m)) = mcount m.
  Proof. apply set_indices_length. Qed.
  Lemma idx_lt m n : moff m = 0 -> mlen m = n -> length (mbuf m) = mlen m -> Forall (fun i => i < n) (set_indices (mbits m)).
  Proof. intros M1 M2 M3. destruct (mbits_eq m M1 M3) as [EB _]. pose proof (set_indices_lt (mbits m)) as H. rewrite EB in *. rewrite M3, M2 in H. exact H. Qed.

  Lemma filter_const d x n : filter_ok (AConst d x n).
  Proof.
    intros f m W C Ft Hl M1 M2 M3. cbn [ops_step o_filter]. unfold with_mask. rewrite M2, Nat.eqb_refl. apply outc_ok.
    rewrite <- mcount_len. apply sel_const; auto; [apply fle_pF|apply idx_lt; auto].
  Qed.
  Lemma filter_ext id st : filter_ok (AExt id st).
  Proof. intros f m W C Ft Hl M1 M2 M3. cbn [ops_step o_filter]. destruct W as [_ W]. cbn. congruence. Qed.
  Lemma filter_for p e r sh : depth (AFoR p e r sh) <= M -> filter_ok (AFoR p e r sh).
  Proof.
    intros D f m W C Ft Hl M1 M2 M3. cbn [ops_step o_filter]. unfold with_mask. rewrite M2, Nat.eqb_refl. cbn [depth] in D.
    eapply outc_bind; [apply (g_filter _ _ (Hrec e ltac:(lia)) f m); auto; apply W|]. intros e' _ S. apply outc_ok.
    eapply sel_for; eauto. apply idx_lt; auto.
  Qed.
  Lemma filter_dict c vs : depth (ADict c vs) <= M -> filter_ok (ADict c vs).
  Proof.
    intros D f m W C Ft Hl M1 M2 M3. cbn [ops_step o_filter]. unfold with_mask. rewrite M2, Nat.eqb_refl. cbn [depth] in D.
    eapply outc_bind; [apply (g_filter _ _ (Hrec c ltac:(lia)) f m); auto; apply W|]. intros c' _ S.
    destruct (sel_dict _ f c vs (set_indices (mbits m)) c' (fle_pF f) W S) as [U P]; [apply idx_lt; auto|]. unfold try_dict. rewrite U. apply outc_ok. exact P.
  Qed.
  Lemma filter_struct ns fls n v : depth (AStruct ns fls n v) <= M -> filter_ok (AStruct ns fls n v).
  Proof.
    intros D f m W C Ft Hl M1 M2 M3. cbn [alen] in *. cbn [ops_step o_filter]. unfold with_mask. cbn [alen]. rewrite M2, Nat.eqb_refl.
    destruct (mbits_eq m M1 M3) as [EB _].
    pose proof W as W0. apply wf_struct_iff in W. destruct W as (Hn & Hv & Hf).
    eapply outc_bind.
    { apply mapM_outc with (P := fun x y => filter_post f x m y). intros x Hx. rewrite Forall_forall in Hf. destruct (Hf x Hx) as [Wx Lx].
      apply (g_filter _ _ (Hrec x ltac:(cbn [depth] in D; pose proof (proj1 (list_max_le (map depth fls) _) (le_n _)) as Q; rewrite Forall_forall in Q;
        specialize (Q (depth x) (in_map depth _ _ Hx)); lia))); auto; rewrite Lx; auto. }
    intros fls' _ F2. cbv zeta.
    set (idx := set_indices (mbits m)). assert (length idx = mcount m) as LI by apply mcount_len.
    assert ((match fls' with x :: _ => alen x | [] => if n =? 0 then 0 else mcount m end) = length idx) as EL.
    { destruct fls' as [|y ys].
      - destruct (Nat.eqb_spec n 0); [|auto]. rewrite LI. unfold mcount. rewrite EB. destruct (mbuf m); [reflexivity|cbn in M3; lia].
      - inversion F2 as [|x ? ? ? P]; subst. eapply sel_alen. exact P. }
    destruct (validity_filter v n (mbits m) Hv) as (w & E & V1 & V2 & V3); [rewrite EB; lia|]. rewrite E. cbn [bind].
    rewrite EL. fold (mcount m) in V1, V3. rewrite <- LI in V1, V3.
    assert (length fls' = length fls) as HL by (symmetry; eapply Forall2_length; eauto).
    unfold try_struct. rewrite Hn, HL, Nat.eqb_refl. rewrite (proj2 (vfits_vwf w (length idx)) V1). cbn [negb].
    assert (forallb (fun x => alen x =? length idx) fls' = true) as ->.
    { apply forallb_forall. intros y Hy. clear - F2 Hy. induction F2 as [|x y0 l l' H _ IH]; [destruct Hy|].
      destruct Hy as [<-|Hy]; [apply Nat.eqb_eq; eapply sel_alen; eauto|auto]. }
    cbn [negb]. apply outc_ok. apply sel_struct; auto; [apply fle_pF|apply idx_lt; auto|].
    intros k Hk. rewrite <- (nth_vbits w (length idx) k false) by exact Hk. rewrite V3.
    rewrite (spec_filter_gather false) by (rewrite vbits_length, EB; lia). fold idx. rewrite (map_nth_lt _ idx 0) by exact Hk.
    apply nth_vbits. pose proof (idx_lt m n M1 M2 M3) as Q. apply (Forall_nth_lt _ _ 0 k Q Hk).
  Qed.
  Lemma filter_sparse ix vs o n fl : depth (ASparse ix vs o n fl) <= M -> filter_ok (ASparse ix vs o n fl).
  Proof.
    intros D f m W C Ft Hl M1 M2 M3. cbn [alen] in *. cbn [ops_step o_filter]. unfold with_mask. cbn [alen]. rewrite M2, Nat.eqb_refl. cbn [depth] in D.
    destruct (mbits_eq m M1 M3) as [EB _]. pose proof W as W0.
    cbn [wf] in W. destruct W as (W1 & W2 & W3 & W4 & W5 & W6 & W7 & W8 & W9 & W10 & W11 & W12 & W13).
    unfold sparse_filter. eapply outc_bind.
    { eapply outc_weaken with (P' := fun pos => pos = rel_pos (ints (logical ix)) o);
        [apply (resolved_ok (sliceable f) ix _ o n (g_canon _ _ (Hrec ix ltac:(lia)) (sliceable f) W1 C) W3 W7)| |auto].
      intros X. cbn. apply W13. auto. }
    intros pos _ ->.
    assert (length (mbits m) = n) as LB by (rewrite EB; lia).
    pose proof W7 as W7'. rewrite <- LB in W7'.
    destruct (rel_pos_facts (ints (logical ix)) o (length (mbits m)) W6 W7') as [ND FP].
    rewrite sparse_filter_loop_ok; auto; [|apply rel_pos_sorted; auto; eapply Forall_impl; [|exact W7]; intros z Hz; cbv beta in Hz; lia
      |apply Forall_forall; intros; lia|lia].
    cbn [bind]. unfold filter_post. rewrite pF_eq by (intros X; left; apply W13; auto).
    rewrite map_map. fold (mcount m). rewrite <- mcount_len.
    eapply (sparse_sel rec M Hrec); auto; [lia|rewrite mcount_len; unfold mcount; pose proof (count_id_le (mbits m)); lia|apply idx_lt; auto|apply loop_pairs_spec; auto|].
    intros X. apply W13. auto.
  Qed.
End Step.
