(** logical_validity and into_canonical, one encoding at a time. *)
From Verif Require Import Base Spec SearchModel SearchProofs Arr ArrRead ArrWf ArrReadProofs ArrSearchProofs ArrSlice ArrSliceProofs ArrSliceMain
  ValidityModel PropValidity IntEnc PropIntEnc RunEnc PropRunEnc PropUnary PropDict ArrOps OpsBase OpsFlat.

Lemma try_bool_0 bs n v : vfits v n = true -> try_bool 0 bs n v = Ok (ABool 0 bs n v).
Proof. intros H. unfold try_bool. rewrite H. reflexivity. Qed.

Lemma outc_expect {A} (T : Prop) (r : result A) (P : A -> Prop) : outc T r P -> outc T (expect r) P.
Proof. destruct r; cbn; auto. Qed.

Lemma own_lval_tab f a v n g : logical a = tab n (fun i => if vvalid v i then g i else VNull) ->
  (forall i, i < n -> vvalid v i = true -> g i <> VNull) -> vwf v n -> alen a = n -> lval_post f a (to_logical v n).
Proof.
  intros L G W A. destruct (validity_to_logical v n W) as [H1 H2]. split; [congruence|]. intros _ _. rewrite H2, L. unfold vbits, tab.
  rewrite map_map. apply map_ext_in. intros i Hi. apply in_seq in Hi. destruct (vvalid v i) eqn:E; [|reflexivity].
  assert (g i <> VNull) as X by (apply G; [lia|exact E]). unfold nonnull. destruct (g i); try reflexivity. congruence.
Qed.

(** A column of raw values together with the nulls. *)
Definition raw {B} (inj : B -> value) (l : list value) (r : list B) : Prop := Forall2 (fun x b => x = VNull \/ x = inj b) l r.
Lemma raw_logical {B} (inj : B -> value) (d : B) l r v : raw inj l r ->
  (forall i, i < length l -> vvalid v i = nonnull (nth i l VNull)) ->
  l = tab (length r) (fun i => if vvalid v i then inj (nth i r d) else VNull).
Proof.
  intros R H. pose proof (Forall2_length _ _ _ R) as L. apply (nth_ext_len _ _ VNull); [rewrite tab_length; exact L|].
  intros i Hi. rewrite nth_tab by lia. rewrite H by exact Hi.
  assert (nth i l VNull = VNull \/ nth i l VNull = inj (nth i r d)) as X.
  { clear H. revert i Hi. induction R as [|x b l r Hx R IH]; intros i Hi; [cbn in Hi; lia|]. destruct i as [|i]; [exact Hx|].
    apply IH; cbn in *; lia. }
  unfold nonnull. destruct (nth i l VNull) eqn:E; cbn; try (destruct X as [X|X]; [discriminate|exact X]). reflexivity.
Qed.
Lemma raw_tab {B} (inj : B -> value) (d : B) r v : raw inj (tab (length r) (fun i => if vvalid v i then inj (nth i r d) else VNull)) r.
Proof.
  unfold raw. assert (forall s v, Forall2 (fun x b => x = VNull \/ x = inj b) (map (fun i => if (v : nat -> bool) i then inj (nth (i - s) r d) else VNull) (seq s (length r))) r) as H.
  { induction r as [|x r IH]; intros s w; [constructor|]. cbn [length seq map]. constructor.
    - rewrite Nat.sub_diag. cbn. destruct (w s); auto.
    - specialize (IH (S s) w). erewrite map_ext_in; [exact IH|]. intros i Hi. apply in_seq in Hi.
      replace (i - s) with (S (i - S s)) by lia. reflexivity. }
  specialize (H 0 (vvalid v)). unfold tab. erewrite map_ext; [exact H|]. intros i. cbv beta. rewrite Nat.sub_0_r. reflexivity.
Qed.
Lemma raw_concat {B} (inj : B -> value) ls rs : Forall2 (raw inj) ls rs -> raw inj (concat ls) (concat rs).
Proof. induction 1; cbn; [constructor|]. apply Forall2_app; assumption. Qed.

Lemma set_many_spec {A} (d : A) pos : forall l vals, length pos = length vals -> Forall (fun i => i < length l) pos -> NoDup pos ->
  exists r, set_many l pos vals = Ok r /\ length r = length l /\
    (forall k, k < length pos -> nth (nth k pos 0) r d = nth k vals d) /\
    (forall i, ~ In i pos -> nth i r d = nth i l d).
Proof.
  induction pos as [|i pos IH]; intros l [|x vals] HL HB HN; cbn in HL; try discriminate.
  - exists l. cbn. repeat split; auto. intros; lia.
  - inversion HB as [|? ? Hi HB']; subst. inversion HN as [|? ? Hni HN']; subst. cbn [set_many].
    rewrite (proj2 (Nat.ltb_lt _ _) Hi).
    destruct (IH (list_set l i x) vals) as (r & E & L & H1 & H2); [lia| |exact HN'|].
    { rewrite list_set_length. exact HB'. }
    exists r. split; [exact E|]. split; [rewrite L; apply list_set_length|]. split.
    + intros [|k] Hk; cbn [nth].
      * rewrite H2 by exact Hni. rewrite nth_list_set by exact Hi. rewrite Nat.eqb_refl. reflexivity.
      * apply H1. cbn in Hk. lia.
    + intros j Hj. cbn in Hj. rewrite H2 by tauto. rewrite nth_list_set by exact Hi.
      destruct (Nat.eqb_spec j i); [subst; tauto|reflexivity].
Qed.

Definition rel_pos (il : list Z) (off : nat) : list nat := map (fun z => Z.to_nat (z - Z.of_nat off)) il.
Lemma rel_pos_facts il off len : ssortedZ il -> Forall (fun z => (Z.of_nat off <= z < Z.of_nat (off + len))%Z) il ->
  NoDup (rel_pos il off) /\ Forall (fun i => i < len) (rel_pos il off).
Proof.
  intros S F. unfold rel_pos. split.
  - apply (NoDup_nth _ 0). rewrite map_length. intros i j Hi Hj E.
    rewrite !(map_nth_lt (fun z => Z.to_nat (z - Z.of_nat off)) il 0%Z) in E by assumption.
    pose proof (Forall_nth_lt _ _ 0%Z i F Hi) as A. pose proof (Forall_nth_lt _ _ 0%Z j F Hj) as B. cbv beta in A, B.
    destruct (Nat.lt_trichotomy i j) as [H|[H|H]]; [|exact H|].
    + pose proof (ssortedZ_nth il i j S H Hj). lia.
    + pose proof (ssortedZ_nth il j i S H Hi). lia.
  - apply Forall_map. eapply Forall_impl; [|exact F]. intros z Hz. cbv beta in Hz. lia.
Qed.
Lemma set_many_sparse {A} (d x0 : A) il off len xs : ssortedZ il -> Forall (fun z => (Z.of_nat off <= z < Z.of_nat (off + len))%Z) il ->
  length xs = length il ->
  exists r, set_many (repeat x0 len) (rel_pos il off) xs = Ok r /\ length r = len /\
    forall i, i < len -> nth i r d = match pos_of (Z.of_nat (off + i)) il with Some k => nth k xs d | None => x0 end.
Proof.
  intros S F L. destruct (rel_pos_facts il off len S F) as [ND LT].
  destruct (set_many_spec d (rel_pos il off) (repeat x0 len) xs) as (r & E & Lr & H1 & H2).
  { unfold rel_pos. rewrite map_length. lia. } { rewrite repeat_length. exact LT. } { exact ND. }
  rewrite repeat_length in Lr. exists r. split; [exact E|]. split; [exact Lr|]. intros i Hi.
  destruct (pos_of (Z.of_nat (off + i)) il) as [k|] eqn:P.
  - apply pos_of_some in P. destruct P as [Hk P]. rewrite <- H1 by (unfold rel_pos; rewrite map_length; exact Hk). f_equal. unfold rel_pos.
    rewrite (map_nth_lt (fun z => Z.to_nat (z - Z.of_nat off)) il 0%Z) by exact Hk. lia.
  - apply pos_of_none in P. rewrite H2; [apply nth_repeat_lt, Hi|]. intros Hin. unfold rel_pos in Hin. apply in_map_iff in Hin.
    destruct Hin as (z & Ez & Hz). apply P. rewrite Forall_forall in F. specialize (F z Hz). cbv beta in F.
    replace (Z.of_nat (off + i)) with z by lia. exact Hz.
Qed.

Lemma resolved_ok f idx ic off n : outc (fC f = true) ic (canon_post f idx) -> adtype idx = DPrim U64 false ->
  Forall (fun z => (Z.of_nat off <= z < Z.of_nat (off + n))%Z) (ints (logical idx)) ->
  outc (fC f = true) (resolved_indices ic off) (fun pos => pos = rel_pos (ints (logical idx)) off).
Proof.
  intros H D F. unfold resolved_indices. eapply outc_bind; [apply outc_expect, (into_prim_ok f idx ic U64 H D)|].
  intros x _ ->. cbv beta iota. rewrite (mapM_ok_map _ (fun z => Z.to_nat (z - Z.of_nat off))); [apply outc_ok; reflexivity|].
  intros z Hz. rewrite Forall_forall in F. specialize (F z Hz). cbv beta in F. destruct (Z.ltb_spec z (Z.of_nat off)); [lia|reflexivity].
Qed.

Lemma nth_nonnull_logical f a p i : wf f a -> adtype a = DPrim p false -> i < alen a -> nth i (logical a) VNull <> VNull.
Proof. intros W D Hi. destruct (nonnull_elem f a p i W D Hi) as [-> _]. discriminate. Qed.

Lemma nonnull_logical f a : wf f a -> nullable (adtype a) = false -> Forall (fun x => x <> VNull) (logical a).
Proof.
  intros W N. eapply Forall_impl; [|apply (vtyped_logical a f W)]. intros x Hx. cbv beta in Hx. intros ->. cbn in Hx. congruence.
Qed.

Section Step.
  Variable rec : array -> ops_t.
  Variable M : nat.
  Hypothesis Hrec : forall b, depth b < M -> ops_good (rec b) b.

  Definition lval_ok (a : array) : Prop := forall f, wf f a -> fc f = true -> outc (fC f = true) (o_lval (ops_step rec a)) (lval_post f a).
  Definition canon_ok (a : array) : Prop := forall f, wf f a -> fc f = true -> outc (fC f = true) (o_canon (ops_step rec a)) (canon_post f a).

  Lemma canon_self f a : wf f a -> is_canon a = true -> canon_post f a a.
  Proof. intros W C. split; [exact C|]. split; [reflexivity|]. split; [reflexivity|]. split; [reflexivity|]. eapply wf_fle; [apply fle_cf|exact W]. Qed.

  (** ** Null, boolean, primitive *)
  Lemma lval_null n : lval_ok (ANull n).
  Proof. intros f W _. cbn. split; [reflexivity|]. intros _ _. cbn. symmetry. apply map_repeat_. Qed.
  Lemma lval_bool o b n v : lval_ok (ABool o b n v).
  Proof. intros f (W1 & W2 & W3) _. cbn [ops_step o_lval]. unfold own_lval. eapply own_lval_tab; [reflexivity| |exact W3|reflexivity]. discriminate. Qed.
  Lemma lval_prim p l v : lval_ok (APrim p l v).
  Proof. intros f (W1 & W2) _. cbn [ops_step o_lval]. unfold own_lval. eapply own_lval_tab; [reflexivity| |exact W2|reflexivity]. discriminate. Qed.
  Lemma lval_view u vs b v : lval_ok (AView u vs b v).
  Proof. intros f (W1 & W2 & _) _. cbn [ops_step o_lval]. unfold own_lval. eapply own_lval_tab; [reflexivity| |exact W2|reflexivity]. discriminate. Qed.
  Lemma lval_bytebool l v : lval_ok (AByteBool l v).
  Proof. intros f (W1 & W2 & _) _. cbn [ops_step o_lval]. unfold own_lval. eapply own_lval_tab; [reflexivity| |exact W2|reflexivity]. discriminate. Qed.
  Lemma lval_bitpacked p l bw o n v q : lval_ok (ABitPacked p l bw o n v q).
  Proof.
    intros f (W1 & W2 & W3 & W4 & W5 & W6 & _) _. cbn [ops_step o_lval]. unfold own_lval.
    eapply own_lval_tab; [reflexivity| |exact W6|reflexivity]. intros i _ _. cbv beta. match goal with |- context [match ?x with VInt _ => _ | _ => _ end] => destruct x end; discriminate.
  Qed.
  Lemma lval_struct ns fls n v : lval_ok (AStruct ns fls n v).
  Proof.
    intros f W _. apply wf_struct_iff in W. destruct W as (W1 & W2 & W3). cbn [ops_step o_lval]. unfold own_lval.
    eapply own_lval_tab; [reflexivity| |exact W2|reflexivity]. discriminate.
  Qed.
  Lemma lval_varbin u o b v : lval_ok (AVarBin u o b v).
  Proof.
    intros f (W1 & W2 & W3 & W4 & W5 & W6 & _) _. cbn [ops_step o_lval]. unfold own_lval.
    eapply own_lval_tab; [cbn [logical alen]; rewrite nats_length, ints_length, logical_length; reflexivity| |exact W6|reflexivity]. discriminate.
  Qed.
  Lemma runend_idx_lt f e vs v o n i : wf f (ARunEnd e vs v o n) -> i < n -> run_index (ints (logical e)) (o + i) < length (logical vs).
  Proof.
    intros W Hi. cbn [wf] in W. destruct W as (_ & _ & _ & L & _ & _ & _ & _ & _ & _ & Lst & _).
    rewrite logical_length, <- L, <- (logical_length e), <- ints_length. apply run_index_lt; destruct (ints (logical e)); try discriminate; lia.
  Qed.
  Lemma lval_runend e vs v o n : lval_ok (ARunEnd e vs v o n).
  Proof.
    intros f W _. pose proof W as W'. cbn [wf] in W. destruct W as (W1 & W2 & W3 & W4 & W5 & W6 & W7 & W8 & W9 & _). cbn [ops_step o_lval]. unfold own_lval.
    eapply own_lval_tab; [reflexivity| |exact W9|reflexivity]. intros i Hi _. apply Forall_nth_lt; [exact W7|]. eapply runend_idx_lt; eauto.
  Qed.
  Lemma lval_const d x n : lval_ok (AConst d x n).
  Proof.
    intros f W _. cbn [ops_step o_lval]. cbn [outc]. destruct (is_null x) eqn:E; (split; [reflexivity|]); intros _ _; cbn [lbuf logical];
      rewrite map_repeat_; unfold nonnull; rewrite E; reflexivity.
  Qed.
  Lemma lval_ext id st : depth (AExt id st) <= M -> lval_ok (AExt id st).
  Proof. intros D f [W WF] C. cbn [ops_step o_lval]. cbn [depth] in D. apply (g_lval _ _ (Hrec st ltac:(lia)) f W C). Qed.
  Lemma nonnull_map (h : Z -> Z) l p n : Forall (vtyped (DPrim p n)) l ->
    map nonnull (map (fun x => match x with VInt z => VInt (h z) | _ => VNull end) l) = map nonnull l.
  Proof.
    intros H. rewrite map_map. apply map_ext_in. intros x Hx. rewrite Forall_forall in H. specialize (H x Hx).
    destruct (vtyped_prim _ _ _ H) as [->|(z & -> & _)]; reflexivity.
  Qed.
  Lemma lval_for p e r sh : depth (AFoR p e r sh) <= M -> lval_ok (AFoR p e r sh).
  Proof.
    intros D f (W & Hp & (n & De) & _) C. cbn [ops_step o_lval]. cbn [depth] in D.
    eapply outc_impl; [apply (g_lval _ _ (Hrec e ltac:(lia)) f W C)|]. intros l (H1 & H2). split; [exact H1|]. intros V N.
    rewrite H2; [|exact V|exact N]. cbn [logical]. symmetry. apply (nonnull_map _ _ (to_unsigned p) n). rewrite <- De. eapply vtyped_logical; eauto.
  Qed.
  Lemma lval_zigzag e : depth (AZigZag e) <= M -> lval_ok (AZigZag e).
  Proof.
    intros D f (W & (p & n & De & _) & _) C. cbn [ops_step o_lval]. cbn [depth] in D.
    eapply outc_impl; [apply (g_lval _ _ (Hrec e ltac:(lia)) f W C)|]. intros l (H1 & H2). split; [exact H1|]. intros V N.
    rewrite H2; [|exact V|cbn [adtype] in N; rewrite De in *; exact N]. cbn [logical]. symmetry.
    apply (nonnull_map _ _ p n). rewrite <- De. eapply vtyped_logical; eauto.
  Qed.
  Lemma lval_dict c vs : depth (ADict c vs) <= M -> lval_ok (ADict c vs).
  Proof.
    intros D f W C. cbn [ops_step o_lval]. cbn [depth] in D. cbn [wf] in W.
    destruct W as (Wc & Wv & (p & Dc & Hu) & B & Fl & Hv & _).
    destruct (nullable (adtype vs)) eqn:N.
    - eapply outc_bind; [apply outc_expect, (into_prim_ok f c _ p (g_canon _ _ (Hrec c ltac:(lia)) f Wc C) Dc)|].
      intros x _ ->. cbv beta iota. apply outc_ok. split; [cbn [llen alen]; rewrite map_length, ints_length; apply logical_length|].
      intros V _. cbn [lbuf logical]. rewrite map_map. specialize (Hv V eq_refl).
      apply (nth_ext_len _ _ true); [rewrite !map_length, ints_length; reflexivity|].
      rewrite map_length, ints_length. intros i Hi. rewrite (map_nth_lt _ (ints (logical c)) 0%Z) by (rewrite ints_length; exact Hi).
      rewrite (map_nth_lt _ (logical c) VNull) by exact Hi. rewrite logical_length in Hi.
      specialize (Hv i Hi). unfold ints. rewrite (map_nth_lt vint (logical c) VNull) by (rewrite logical_length; exact Hi).
      cbn [logical] in Hv. rewrite (map_nth_lt _ (logical c) VNull) in Hv by (rewrite logical_length; exact Hi). unfold nonnull.
      destruct (Z.eqb_spec (vint (nth i (logical c) VNull)) 0) as [E|E]; cbn [negb].
      + rewrite (proj1 Hv E). reflexivity.
      + destruct (nth (Z.to_nat (vint (nth i (logical c) VNull))) (logical vs) VNull) eqn:X; try reflexivity.
        exfalso. apply E, Hv. reflexivity.
    - apply outc_ok. split; [reflexivity|]. cbn [adtype]. congruence.
  Qed.
  Lemma lval_sparse ix vs o n fl : depth (ASparse ix vs o n fl) <= M -> lval_ok (ASparse ix vs o n fl).
  Proof.
    intros D f W C. cbn [ops_step o_lval]. cbn [depth] in D. cbn [wf] in W.
    destruct W as (W1 & W2 & W3 & W4 & W5 & W6 & W7 & W8 & W9 & W10 & W11 & W12 & W13).
    unfold sparse_lval. eapply outc_bind with (P := fun bits => fv f = true -> nullable (adtype vs) = true -> bits = repeat true (alen ix)).
    - destruct (is_null fl) eqn:E; [apply outc_ok; reflexivity|].
      unfold rmap. eapply outc_bind; [apply (g_lval _ _ (Hrec vs ltac:(lia)) (sliceable f) W2 C)|].
      intros l _ _. apply outc_ok. intros V N. destruct (W12 V N) as [-> _]. discriminate.
    - intros bits _ Hb. apply outc_ok. split; [cbn [llen alen]; apply tab_length|]. intros V N. cbn [adtype] in N.
      rewrite (Hb V N). destruct (W12 V N) as [-> NN]. cbn [lbuf logical]. unfold tab. rewrite map_map. apply map_ext_in. intros i _.
      destruct (pos_of _ _) as [k|] eqn:P; [|reflexivity]. apply pos_of_some in P. destruct P as [Hk _].
      rewrite ints_length, logical_length in Hk. rewrite nth_repeat_lt by exact Hk.
      assert (nth k (logical vs) VNull <> VNull) as X by (apply Forall_nth_lt; [exact NN|rewrite logical_length; lia]).
      unfold nonnull. destruct (nth k (logical vs) VNull); try reflexivity. congruence.
  Qed.
  Lemma lval_chunked d cs : depth (AChunked d cs) <= M -> lval_ok (AChunked d cs).
  Proof.
    intros D f W C. cbn [ops_step o_lval]. cbn [depth] in D. cbn [wf] in W. destruct W as (W & _). apply wf_chunks_iff in W.
    assert (Forall (fun c => depth c < M) cs) as Dc.
    { apply Forall_forall. intros c Hc. assert (depth c <= list_max (map depth cs)); [|lia].
      pose proof (proj1 (list_max_le (map depth cs) _) (le_n _)) as F. rewrite Forall_forall in F. apply F. apply in_map. exact Hc. }
    eapply outc_bind; [apply (mapM_outc _ _ (lval_post f))|].
    - intros c Hc. rewrite Forall_forall in W, Dc. apply (g_lval _ _ (Hrec c (Dc c Hc)) f); [apply W, Hc|exact C].
    - intros ls _ F. apply outc_ok. destruct (validity_collect ls) as [V1 V2].
      assert (list_sum (map llen ls) = alen (AChunked d cs)) as E.
      { cbn [alen]. f_equal. clear - F. induction F as [|c l cs ls H F IH]; [reflexivity|]. cbn. rewrite IH. f_equal. apply H. }
      rewrite E in *. destruct (validity_to_logical _ _ V1) as [H1 H2]. split; [exact H1|]. intros V N. rewrite H2, V2. cbn [logical].
      rewrite concat_map, map_map. f_equal. cbn [adtype] in N. clear - F V W N. induction F as [|c l cs ls H F IH]; [reflexivity|]. cbn [map].
      inversion W as [|? ? [_ Ed] W']; subst. rewrite IH by exact W'. f_equal. apply H; [exact V|]. exact N.
  Qed.

  (** ** Canonical forms *)
  Lemma canon_null n : canon_ok (ANull n).
  Proof. intros f W _. apply outc_ok. apply canon_self; auto. Qed.
  Lemma canon_bool_ o b n v : canon_ok (ABool o b n v).
  Proof. intros f W _. apply outc_ok. apply canon_self; auto. Qed.
  Lemma canon_prim_ p l v : canon_ok (APrim p l v).
  Proof. intros f W _. apply outc_ok. apply canon_self; auto. Qed.
  Lemma canon_struct ns fls n v : canon_ok (AStruct ns fls n v).
  Proof. intros f W _. apply outc_ok. apply canon_self; auto. Qed.
  Lemma canon_ext id st : canon_ok (AExt id st).
  Proof. intros f W _. apply outc_ok. apply canon_self; auto. Qed.
  Lemma view_canon_ok u vs b v f : wf f (AView u vs b v) ->
    exists w, arrow_nulls (to_null_buffer (to_logical v (length vs))) (vnullable v) = Ok w /\ wf f (AView u vs b w) /\
      logical (AView u vs b w) = logical (AView u vs b v) /\ vnullable w = vnullable v.
  Proof.
    intros (W1 & W2 & W3 & W4). pose proof (null_buffer_spec v _ W2) as NB.
    destruct (arrow_nulls_ok (to_null_buffer (to_logical v (length vs))) (vnullable v) (vbits v (length vs))) as (w & E & V1 & V2 & V3).
    - destruct (to_null_buffer _); [exact NB|]. rewrite vbits_length. intros k Hk. rewrite nth_vbits by exact Hk. apply NB, Hk.
    - destruct v; cbn; try discriminate. reflexivity.
    - rewrite vbits_length in *. exists w. split; [exact E|].
      assert (logical (AView u vs b w) = logical (AView u vs b v)) as L.
      { cbn [logical]. apply tab_ext. intros i Hi. rewrite V3, nth_vbits by exact Hi. reflexivity. }
      split; [|auto]. apply wf_view_intro; auto.
      + rewrite L. exact W3.
      + intros K. rewrite (W4 K) in V2. destruct w; try discriminate. reflexivity.
  Qed.
  Lemma canon_view_ u vs b v : canon_ok (AView u vs b v).
  Proof.
    intros f W _. cbn [ops_step o_canon]. destruct (view_canon_ok u vs b v f W) as (w & -> & Ww & L & N). cbn [bind]. apply outc_ok.
    split; [reflexivity|]. split; [exact L|]. split; [destruct u; reflexivity|]. split; [intros _; destruct u; cbn [adtype]; rewrite N; reflexivity|].
    eapply wf_fle; [apply fle_cf|exact Ww].
  Qed.
  Lemma canon_bytebool l v : canon_ok (AByteBool l v).
  Proof.
    intros f (W1 & W2 & _) _. cbn [ops_step o_canon]. rewrite try_bool_0 by (apply vfits_vwf; exact W2). apply outc_ok.
    split; [reflexivity|]. split.
    { cbn [logical]. apply tab_ext. intros i Hi. destruct (vvalid v i); [|reflexivity]. cbn [Nat.add].
      rewrite (map_nth_lt _ l 0%Z) by exact Hi. pose proof (Forall_nth_lt _ _ 0%Z i W1 Hi) as B. cbv beta in B. f_equal. destruct B as [-> | ->]; reflexivity. }
    split; [reflexivity|]. split; [reflexivity|]. cbn [wf]. rewrite map_length. repeat split; auto; lia.
  Qed.
  Lemma canon_const d x n : canon_ok (AConst d x n).
  Proof.
    intros f [W1 W2] C. cbn [ops_step o_canon]. unfold const_canon.
    set (v := if nullable d then if is_null x then VAllInvalid else VAllValid else VNonNull).
    assert (vfits v n = true) as Vf by (unfold v; destruct (nullable d); [destruct (is_null x)|]; reflexivity).
    assert (vwf v n) as Vw by (apply vfits_vwf; exact Vf).
    assert (vnullable v = nullable d) as Vn by (unfold v; destruct (nullable d); [destruct (is_null x)|]; reflexivity).
    assert (forall i, vvalid v i = nonnull x) as Vv.
    { intros i. unfold v, nonnull. destruct x; cbn [is_null negb vtyped] in *; try (destruct (nullable d); reflexivity). rewrite W1. reflexivity. }
    destruct d as [|nl|p nl|nl|nl|ns ts nl|id nl].
    - cbn. intros H. specialize (W2 H). tauto.
    - rewrite try_bool_0 by exact Vf. apply outc_ok. split; [reflexivity|]. split.
      { cbn [logical]. rewrite <- (tab_const n x). apply tab_ext. intros i Hi. rewrite Vv. cbn [Nat.add]. rewrite nth_repeat_lt by exact Hi.
        destruct x; cbn in W1 |- *; try contradiction; reflexivity. }
      cbn [adtype]. rewrite Vn. split; [reflexivity|]. split; [reflexivity|]. cbn [wf]. rewrite repeat_length. repeat split; auto; lia.
    - unfold try_prim. rewrite repeat_length, Vf. apply outc_ok. split; [reflexivity|]. split.
      { cbn [logical]. rewrite repeat_length, <- (tab_const n x). apply tab_ext. intros i Hi. rewrite Vv. rewrite nth_repeat_lt by exact Hi.
        destruct x; cbn in W1 |- *; try contradiction; reflexivity. }
      cbn [adtype]. rewrite Vn. split; [reflexivity|]. split; [reflexivity|]. cbn [wf]. rewrite repeat_length. split; [|exact Vw].
      apply Forall_forall. intros z Hz. apply repeat_spec in Hz. subst z. destruct x; cbn in W1; try contradiction; try apply in_range_zero. exact W1.
    - destruct x as [|b|z|s|xs]; cbn [vtyped nullable] in W1 |- *; try contradiction.
      + rewrite W1. unfold try_view. cbn [vfits negb]. apply outc_ok. split; [reflexivity|]. split.
        { cbn [logical vvalid]. rewrite repeat_length. rewrite <- (tab_const n VNull). reflexivity. }
        split; [reflexivity|]. split; [reflexivity|]. apply wf_view_intro; [|exact I| |discriminate].
        * apply Forall_forall. intros w Hw. apply repeat_spec in Hw. subst w. cbn. lia.
        * intros _ s Hs. cbn [logical vvalid] in Hs. apply In_tab in Hs. destruct Hs as (i & _ & Hs). discriminate.
      + unfold try_view. set (w := if nl then VAllValid else VNonNull). assert (vfits w (length (repeat (make_view s 0 0) n)) = true) as -> by (unfold w; destruct nl; reflexivity).
        cbn [negb]. apply outc_ok. assert (forall i, vvalid w i = true) as Ww by (unfold w; destruct nl; reflexivity).
        assert (logical (AView true (repeat (make_view s 0 0) n) (if 12 <=? length s then [s] else []) w) = repeat (VBytes s) n) as L.
        { cbn [logical]. rewrite repeat_length. rewrite <- (tab_const n (VBytes s)). apply tab_ext. intros i Hi. rewrite Ww, nth_repeat_lt by exact Hi.
          unfold make_view. destruct (Nat.leb_spec (length s) 12); [reflexivity|]. destruct (Nat.leb_spec 12 (length s)); [|lia].
          cbn [view_bytes nth Nat.add]. rewrite lslice_full. reflexivity. }
        split; [reflexivity|]. split; [exact L|]. split; [reflexivity|]. split; [intros _; cbn [adtype]; unfold w; destruct nl; reflexivity|].
        apply wf_view_intro; [|unfold w; destruct nl; exact I| |discriminate].
        * apply Forall_forall. intros y Hy. apply repeat_spec in Hy. subst y. unfold make_view. destruct (Nat.leb_spec (length s) 12); [cbn; lia|].
          destruct (Nat.leb_spec 12 (length s)); [|lia]. cbn [view_ok nth length Nat.add]. split; [lia|]. split; [lia|]. split; [lia|]. rewrite lslice_full. reflexivity.
        * intros _ s' Hs. rewrite L in Hs. apply repeat_spec in Hs. injection Hs as ->. exact W1.
    - destruct x as [|b|z|s|xs]; cbn [vtyped nullable] in W1 |- *; try contradiction.
      + rewrite W1. unfold try_view. cbn [vfits negb]. apply outc_ok. split; [reflexivity|]. split.
        { cbn [logical vvalid]. rewrite repeat_length. rewrite <- (tab_const n VNull). reflexivity. }
        split; [reflexivity|]. split; [reflexivity|]. apply wf_view_intro; [|exact I|discriminate|discriminate].
        apply Forall_forall. intros w Hw. apply repeat_spec in Hw. subst w. cbn. lia.
      + unfold try_view. set (w := if nl then VAllValid else VNonNull). assert (vfits w (length (repeat (make_view s 0 0) n)) = true) as -> by (unfold w; destruct nl; reflexivity).
        cbn [negb]. apply outc_ok. assert (forall i, vvalid w i = true) as Ww by (unfold w; destruct nl; reflexivity).
        assert (logical (AView false (repeat (make_view s 0 0) n) (if 12 <=? length s then [s] else []) w) = repeat (VBytes s) n) as L.
        { cbn [logical]. rewrite repeat_length. rewrite <- (tab_const n (VBytes s)). apply tab_ext. intros i Hi. rewrite Ww, nth_repeat_lt by exact Hi.
          unfold make_view. destruct (Nat.leb_spec (length s) 12); [reflexivity|]. destruct (Nat.leb_spec 12 (length s)); [|lia].
          cbn [view_bytes nth Nat.add]. rewrite lslice_full. reflexivity. }
        split; [reflexivity|]. split; [exact L|]. split; [reflexivity|]. split; [intros _; cbn [adtype]; unfold w; destruct nl; reflexivity|].
        apply wf_view_intro; [|unfold w; destruct nl; exact I|discriminate|discriminate].
        apply Forall_forall. intros y Hy. apply repeat_spec in Hy. subst y. unfold make_view. destruct (Nat.leb_spec (length s) 12); [cbn; lia|].
        destruct (Nat.leb_spec 12 (length s)); [|lia]. cbn [view_ok nth length Nat.add]. split; [lia|]. split; [lia|]. split; [lia|]. rewrite lslice_full. reflexivity.
    - cbn. intros H. specialize (W2 H). destruct W2; discriminate.
    - cbn. intros H. specialize (W2 H). destruct W2; discriminate.
  Qed.
  Lemma canon_for p e r sh : depth (AFoR p e r sh) <= M -> canon_ok (AFoR p e r sh).
  Proof.
    intros D f (W & Hp & (n & De) & Hr & Hs) C. cbn [ops_step o_canon]. cbn [depth] in D.
    eapply outc_bind; [apply (into_prim_ok_n f e _ _ _ (g_canon _ _ (Hrec e ltac:(lia)) f W C) De)|].
    intros x _ (l & v & -> & Vn & R & Vw & Ll & L). cbv beta iota. apply outc_ok.
    destruct (for_decompress_is_logical p l v r (Z.to_nat sh)) as [E1 E2].
    split; [reflexivity|]. split; [rewrite E1; rewrite Z2Nat.id by lia; cbn [logical] in *; rewrite <- L; reflexivity|].
    assert (adtype (for_decompress p l v r (Z.to_nat sh)) = adtype (AFoR p e r sh)) as Ed.
    { cbn [adtype]. rewrite De. cbn [nullable]. rewrite <- Vn. reflexivity. }
    split; [rewrite Ed; reflexivity|]. split; [auto|].
    unfold for_decompress. cbn [wf]. split; [|destruct (0 <? Z.to_nat sh); rewrite !map_length; exact Vw].
    destruct (0 <? Z.to_nat sh); apply Forall_map; apply Forall_forall; intros; apply wrap_in_range.
  Qed.
  Lemma canon_zigzag e : depth (AZigZag e) <= M -> canon_ok (AZigZag e).
  Proof.
    intros D f (W & (p & n & De & Hu) & _) C. cbn [ops_step o_canon]. cbn [depth] in D.
    eapply outc_bind; [apply (into_prim_ok_n f e _ _ _ (g_canon _ _ (Hrec e ltac:(lia)) f W C) De)|].
    intros x _ (l & v & -> & Vn & R & Vw & Ll & L). cbv beta iota. unfold zigzag_decode. rewrite Hu. apply outc_ok.
    assert (is_signed (to_signed p) = true) as Hs by (destruct p; auto; discriminate).
    assert (forall z, In z l -> zz_dec (to_signed p) z = zz_decode z) as Z.
    { intros z Hz. apply zz_dec_spec; [exact Hs|]. rewrite bits_to_signed. apply (unsigned_range p z Hu). rewrite Forall_forall in R. apply R, Hz. }
    split; [reflexivity|]. split.
    { change (logical (AZigZag e)) with (map (fun x => match x with VInt z => VInt (zz_decode z) | _ => VNull end) (logical e)). rewrite <- L.
      cbn [logical]. unfold tab. rewrite map_map, map_length. apply map_ext_in. intros i Hi. apply in_seq in Hi.
      destruct (vvalid v i); [|reflexivity]. rewrite (map_nth_lt _ l 0%Z) by lia. rewrite Z by (apply nth_In; lia). reflexivity. }
    cbn [adtype]. rewrite De, Vn. split; [reflexivity|]. split; [reflexivity|]. cbn [wf]. rewrite map_length. split; [|exact Vw].
    apply Forall_map, Forall_forall. intros z Hz. rewrite Z by exact Hz. apply zz_decode_range; [exact Hu|]. rewrite Forall_forall in R. apply R, Hz.
  Qed.
  Lemma canon_runend e vs v o n : depth (ARunEnd e vs v o n) <= M -> canon_ok (ARunEnd e vs v o n).
  Proof.
    intros D f W C. cbn [ops_step o_canon]. cbn [depth] in D. pose proof W as W'. cbn [wf] in W.
    destruct W as (W1 & W2 & (p & De & Hu) & W4 & W5 & W6 & W7 & W8 & W9 & W10 & W11 & W12 & W13 & W14 & W15 & W16).
    specialize (W13 C). destruct (adtype vs) as [| |q nl| | | |] eqn:Dv; try discriminate. cbn [nullable] in W8.
    eapply outc_bind; [apply (into_prim_ok f e _ _ (g_canon _ _ (Hrec e ltac:(lia)) f W1 C) De)|]. intros x _ ->. cbv beta iota.
    eapply outc_bind; [apply (into_prim_ok_n f vs _ _ _ (g_canon _ _ (Hrec vs ltac:(lia)) f W2 C) Dv)|].
    intros x _ (l & vv & -> & Vn & R & Vw & Ll & L). cbv beta iota.
    set (el := ints (logical e)) in *.
    assert (wf f0 (ARunEnd (APrim p el VNonNull) (APrim q l vv) v o n)) as Wd.
    { cbn [wf]. rewrite logical_nonnull_ints. change (tab (length l) _) with (logical (APrim q l vv)). rewrite L.
      cbn [adtype alen vnullable nullable flat]. split.
      { split; [|exact I]. apply Forall_forall. intros z Hz. unfold el, ints in Hz. apply (In_nth _ _ 0%Z) in Hz. destruct Hz as (i & Hi & <-).
        rewrite map_length, logical_length in Hi. apply (nonnull_elem f e p i W1 De Hi). }
      split; [split; assumption|]. split; [exists p; auto|]. split; [unfold el; rewrite ints_length, logical_length, Ll; exact W4|].
      split; [exact I|]. split; [exact W6|]. split; [exact W7|]. split; [congruence|]. split; [exact W9|]. split; [reflexivity|].
      split; [exact W11|]. split; [reflexivity|]. do 3 (split; [discriminate|]). intros [|[|]]; discriminate. }
    destruct (runend_decode_is_logical f0 p el q l vv v o n Wd) as (out & E & H1 & H2 & H3).
    rewrite E. apply outc_ok. split; [reflexivity|]. split.
    { rewrite H1. change (logical (ARunEnd (APrim p el VNonNull) (APrim q l vv) v o n)) with
        (tab n (fun i => if vvalid v i then nth (run_index (ints (logical (APrim p el VNonNull))) (o + i)) (logical (APrim q l vv)) VNull else VNull)).
      rewrite logical_nonnull_ints, L. reflexivity. }
    assert (adtype (APrim q out v) = adtype (ARunEnd e vs v o n)) as Ed by (cbn [adtype]; rewrite Dv, W8; reflexivity).
    split; [rewrite Ed; reflexivity|]. split; [auto|]. cbn [wf]. rewrite H3. split; [|exact W9].
    unfold runend_decode in E. apply bind_ok in E. destruct E as (es & _ & E). apply bind_ok in E. destruct E as (out' & E' & E).
    destruct (vfits v (length out')); [|discriminate]. injection E as E. subst out'.
    clear - E' R. assert (forall ees vals acc r, ree_decode_loop acc ees vals = Ok r -> Forall (in_range q) acc -> Forall (in_range q) vals -> Forall (in_range q) r) as K.
    { induction ees as [|e0 ees IH]; intros [|x vals] acc r; cbn [ree_decode_loop]; try discriminate; try (intros H; injection H as <-; auto; fail).
      intros H1 H2 H3. destruct (e0 <? length acc); [discriminate H1|]. inversion H3; subst. apply (IH _ _ _ H1); [|assumption].
        apply Forall_app. split; [assumption|]. apply Forall_forall. intros z Hz. apply repeat_spec in Hz. subst. assumption. }
    eapply K; eauto.
  Qed.
End Step.
