(** Statements about canonicalisation, take and filter; weakening of flags; the canonical encodings. *)
From Verif Require Import Base Spec SearchModel SearchProofs Arr ArrRead ArrWf ArrReadProofs ArrSearchProofs ArrSlice ArrSliceProofs ArrSliceMain
  ValidityModel PropValidity IntEnc PropIntEnc RunEnc PropRunEnc PropUnary PropDict ArrOps.

(** * Flags *)
Definition keep (f : flags) : flags := Flags false false (fc f) (fC f) (fv f) (ft f) (fT f) (fN f) (fF f) (fk f).
Definition corr (f : flags) : flags := Flags false false (fc f) false (fv f) (ft f) false false false (fk f).
Definition cf (f : flags) : flags := Flags false false (fc f) false (fv f) (ft f) false false false false.
Definition pf (f : flags) : flags := if fT f || fN f then keep f else corr f.
Definition pF (f : flags) : flags := if fF f then keep f else pf f.

(** [g] asks for less than [f]. *)
Definition fle (g f : flags) : Prop :=
  fs g = false /\ fn g = false /\ fc g = fc f /\ fv g = fv f /\ ft g = ft f /\ (fk g = true -> fk f = true) /\
  ((fT g = fT f /\ fN g = fN f /\ fF g = fF f /\ fC g = fC f /\ fk g = fk f) \/
   (fT g = false /\ fN g = false /\ fF g = false /\ fC g = false)).
Lemma fle_keep f : fle (keep f) f.
Proof. unfold fle; cbn. intuition. Qed.
Lemma fle_corr f : fle (corr f) f.
Proof. unfold fle; cbn. intuition. Qed.
Lemma fle_cf f : fle (cf f) f.
Proof. unfold fle; cbn. intuition. Qed.
Lemma fle_pf f : fle (pf f) f.
Proof. unfold pf. destruct (_ || _); [apply fle_keep|apply fle_corr]. Qed.
Lemma fle_pF f : fle (pF f) f.
Proof. unfold pF. destruct (fF f); [apply fle_keep|apply fle_pf]. Qed.
Lemma fle_sliceable g f : fle g f -> fle (sliceable g) (sliceable f).
Proof. unfold fle, sliceable; cbn. intros (-> & -> & H). intuition. Qed.
Lemma cf_sliceable f : cf (sliceable f) = cf f.
Proof. reflexivity. Qed.
Lemma pf_sliceable f : pf (sliceable f) = pf f.
Proof. unfold pf, sliceable, keep, corr; cbn. destruct (_ || _); reflexivity. Qed.
Lemma sliceable_pf f : sliceable (pf f) = pf f.
Proof. unfold pf. destruct (fT f || fN f); reflexivity. Qed.
Lemma sliceable_keep f : sliceable (keep f) = keep f.
Proof. reflexivity. Qed.

Lemma wf_fle a : forall g f, fle g f -> wf f a -> wf g a.
Proof.
  induction a as [n|o b n v|p l v|u w b v|u o b v IHo|ns fls n v IHf|id st IHst|d x n|ix vs o n fl IHi IHv|d cs IHc
    |c vs IHc IHv|e vs v o n IHe IHv|p e r sh IHe|e IHe|p l bw o n v q IHq|l v] using array_ind'; intros g f L W.
  - exact I.
  - exact W.
  - exact W.
  - cbn [wf] in *. destruct L as (_ & _ & _ & _ & _ & Hk & _). intuition.
  - cbn [wf] in *. destruct W as (W1 & W2 & W3 & W4 & W5 & W6 & W7 & W8 & W9 & W10 & W11 & W12).
    split; [eapply IHo; eauto|]. destruct L as (L1 & L2 & L3 & L4 & L5 & Lk & L6). rewrite L3. do 7 (split; [assumption|]).
    destruct L6 as [(H1 & H2 & H3 & H4 & H5)|(H1 & H2 & H3 & H4)]; rewrite H1, H2, H3, H4; [auto|].
    split; [discriminate|]. split; [discriminate|]. auto.
  - apply wf_struct_iff. apply wf_struct_iff in W. destruct W as (W1 & W2 & W3). split; [exact W1|]. split; [exact W2|].
    rewrite Forall_forall in *. intros x Hx. destruct (W3 x Hx). split; [eapply IHf; eauto|auto].
  - cbn [wf] in *. destruct W as [W1 W2]. split; [eapply IHst; eauto|].
    destruct L as (L1 & L2 & L3 & L4 & L5 & Lk & [(H1 & H2 & H3 & H4 & H5)|(H1 & H2 & H3 & H4)]); congruence.
  - cbn [wf] in *. destruct W as [W1 W2]. split; [exact W1|].
    destruct L as (L1 & L2 & L3 & L4 & L5 & Lk & [(H1 & H2 & H3 & H4 & H5)|(H1 & H2 & H3 & H4)]); [rewrite H4; auto|congruence].
  - cbn [wf] in *. destruct W as (W1 & W2 & W3 & W4 & W5 & W6 & W7 & W8 & W9 & W10 & W11 & W12 & W13).
    pose proof (fle_sliceable _ _ L) as LS.
    split; [eapply IHi; eauto|]. split; [eapply IHv; eauto|].
    destruct L as (L1 & L2 & L3 & L4 & L5 & Lk & L6). rewrite L3, L4.
    do 10 (split; [assumption|]).
    destruct L6 as [(H1 & H2 & H3 & H4 & H5)|(H1 & H2 & H3 & H4)]; [rewrite H1, H2, H3, H4, H5; exact W13|].
    rewrite H1, H2, H3. intros [|[|]]; discriminate.
  - cbn [wf] in *. destruct W as (W1 & W2 & W3 & W4 & W5 & W6 & W7 & W8).
    rewrite wf_chunks_iff in *. split.
    { rewrite Forall_forall in *. intros x Hx. destruct (W1 x Hx). split; [eapply IHc; eauto|auto]. }
    destruct L as (L1 & L2 & L3 & L4 & L5 & Lk & L6). rewrite L1, L3, L4.
    split; [discriminate|].
    destruct L6 as [(H1 & H2 & H3 & H4 & H5)|(H1 & H2 & H3 & H4)].
    + rewrite H1, H2, H3, H4, H5. auto 10.
    + rewrite H1, H2, H3, H4. repeat (split; [discriminate || auto|]). discriminate.
  - cbn [wf] in *. destruct W as (W1 & W2 & W3 & W4 & W5 & W6 & W7 & W8).
    split; [eapply IHc; eauto|]. split; [eapply IHv; eauto|]. split; [exact W3|]. split; [exact W4|]. split; [exact W5|].
    destruct L as (L1 & L2 & L3 & L4 & L5 & Lk & L6). rewrite L4. split; [exact W6|].
    destruct L6 as [(H1 & H2 & H3 & H4 & H5)|(H1 & H2 & H3 & H4)]; [rewrite H3, H4; auto|]. rewrite H3. split; [discriminate|auto].
  - cbn [wf] in *. destruct W as (W1 & W2 & W3 & W4 & W5 & W6 & W7 & W8 & W9 & W10 & W11 & W12 & W13 & W14 & W15 & W16).
    split; [eapply IHe; eauto|]. split; [eapply IHv; eauto|]. do 9 (split; [assumption|]).
    destruct L as (L1 & L2 & L3 & L4 & L5 & Lk & L6). split; [exact L1|]. rewrite L3, L5. split; [exact W13|]. split; [exact W14|].
    destruct L6 as [(H1 & H2 & H3 & H4 & H5)|(H1 & H2 & H3 & H4)]; [rewrite H1, H2, H3, H4; auto|].
    rewrite H1, H2, H3, H4. split; [discriminate|]. intros [|[|]]; discriminate.
  - cbn [wf] in *. destruct W as (W1 & W2). split; [eapply IHe; eauto|exact W2].
  - cbn [wf] in *. destruct W as (W1 & W2 & W3). split; [eapply IHe; eauto|]. split; [exact W2|].
    destruct L as (L1 & L2 & L3 & L4 & L5 & Lk & [(H1 & H2 & H3 & H4 & H5)|(H1 & H2 & H3 & H4)]); [rewrite H1, H2, H3, H4; auto|].
    rewrite H1, H2, H3. intros [|[|]]; discriminate.
  - cbn [wf] in *. destruct W as (W1 & W2 & W3 & W4 & W5 & W6 & W7 & W8). do 6 (split; [assumption|]).
    split.
    + destruct q as [q|]; [|exact I]. destruct W7 as (X1 & X2 & X3 & X4 & X5). split; [eapply IHq; eauto|].
      split; [exact X2|]. split; [exact X3|]. split; [|exact X5]. destruct L as (_ & _ & _ & _ & -> & _). exact X4.
    + destruct L as (L1 & L2 & L3 & L4 & L5 & Lk & [(H1 & H2 & H3 & H4 & H5)|(H1 & H2 & H3 & H4)]); [rewrite H1, H2, H3, H4; auto|].
      rewrite H1, H2, H3. intros [|[|]]; discriminate.
  - cbn [wf] in *. destruct W as (W1 & W2 & W3). split; [exact W1|]. split; [exact W2|].
    destruct L as (_ & _ & _ & _ & _ & Hk & _). auto.
Qed.

(** * Statements *)

(** Forget nullability everywhere. *)
Fixpoint derase (d : dtype) : dtype :=
  match d with DStruct ns ts _ => DStruct ns (map derase ts) false | d => erase d end.
Definition is_canon (a : array) : bool :=
  match a with ANull _ | ABool _ _ _ _ | APrim _ _ _ | AView _ _ _ _ | AStruct _ _ _ _ | AExt _ _ => true | _ => false end.
Definition nonnull (x : value) : bool := negb (is_null x).
(** The elements at the given positions. *)
Definition pick (l : list value) (idx : list nat) : list value := map (fun i => nth i l VNull) idx.

Definition lval_post (f : flags) (a : array) (l : lvalidity) : Prop :=
  llen l = alen a /\ (fv f = true -> nullable (adtype a) = true -> lbuf l = map nonnull (logical a)).
Definition canon_post (f : flags) (a : array) (c : array) : Prop :=
  is_canon c = true /\ logical c = logical a /\ erase (adtype c) = erase (adtype a) /\
  (fk f = true \/ is_str (adtype a) = false -> adtype c = adtype a) /\ wf (cf f) c.
Definition Ttake (f : flags) (ip : ptype) (idx : list nat) : Prop :=
  fT f = true \/ (fN f = true /\ idx <> [] /\ ip = U64).
Definition sel_post (g f : flags) (a : array) (idx : list nat) (b : array) : Prop :=
  wf g b /\ logical b = pick (logical a) idx /\ derase (adtype b) = derase (adtype a) /\
  (fk f = true \/ is_prim (adtype a) = true -> adtype b = adtype a) /\ depth b <= depth a.
Definition take_post (f : flags) := sel_post (pf f) f.
Definition filter_post (f : flags) (a : array) (m : mask) := sel_post (pF f) f a (set_indices (mbits m)).

Record ops_good (o : ops_t) (a : array) : Prop := Good {
  g_lval : forall f, wf f a -> fc f = true -> outc (fC f = true) (o_lval o) (lval_post f a);
  g_canon : forall f, wf f a -> fc f = true -> outc (fC f = true) (o_canon o) (canon_post f a);
  g_take : forall f ip idx, wf f a -> fc f = true -> ft f = true -> (Z.of_nat (length idx) <= pmax U64)%Z ->
    Forall (fun i => i < alen a) idx -> outc (Ttake f ip idx) (o_take o ip idx) (take_post f a idx);
  g_filter : forall f m, wf f a -> fc f = true -> ft f = true -> (Z.of_nat (alen a) <= pmax U64)%Z ->
    moff m = 0 -> mlen m = alen a -> length (mbuf m) = mlen m ->
    outc (fF f = true) (o_filter o m) (filter_post f a m);
  g_recanon : is_canon a = true -> exists c, o_canon o = Ok c;
  g_retake : forall f ip idx, wf f a -> is_canon a = true -> flat (adtype a) = true -> Forall (fun i => i < alen a) idx ->
    exists b, o_take o ip idx = Ok b /\ is_canon b = true /\ wf f b /\ logical b = pick (logical a) idx /\
      erase (adtype b) = erase (adtype a) /\ (is_str (adtype a) = false \/ nullable (adtype a) = false -> adtype b = adtype a);
  g_sparse : forall ip idx b, o_take o ip idx = Ok b ->
    match a with ASparse _ _ _ _ fl => exists i v, b = ASparse i v 0 (length idx) fl | _ => True end
}.

(** * Lists *)
Lemma tab_pick n (g : nat -> value) idx : Forall (fun i => i < n) idx ->
  pick (tab n g) idx = tab (length idx) (fun k => g (nth k idx 0)).
Proof.
  intros H. unfold pick. rewrite (map_ext_nth_tab _ idx 0). apply tab_ext. intros k Hk.
  apply nth_tab. apply (Forall_nth_lt _ _ 0 k H Hk).
Qed.
Lemma pick_length l idx : length (pick l idx) = length idx.
Proof. apply map_length. Qed.
Lemma nth_pick l idx k : k < length idx -> nth k (pick l idx) VNull = nth (nth k idx 0) l VNull.
Proof. intros H. unfold pick. apply (map_nth_lt (fun i => nth i l VNull) idx 0). exact H. Qed.
Lemma pick_app l i j : pick l (i ++ j) = pick l i ++ pick l j.
Proof. apply map_app. Qed.
Lemma pick_repeat x n idx : Forall (fun i => i < n) idx -> pick (repeat x n) idx = repeat x (length idx).
Proof.
  intros H. unfold pick. induction H as [|i r Hi Hr IH]; [reflexivity|]. cbn [map length repeat]. rewrite IH, nth_repeat_lt by exact Hi. reflexivity.
Qed.
Lemma pick_map (h : value -> value) l idx : Forall (fun i => i < length l) idx -> pick (map h l) idx = map h (pick l idx).
Proof.
  intros H. unfold pick. rewrite map_map. apply map_ext_in. intros i Hi. rewrite Forall_forall in H.
  apply (map_nth_lt h l VNull). auto.
Qed.
Lemma pick_pick l i j : Forall (fun k => k < length i) j -> pick (pick l i) j = pick l (map (fun k => nth k i 0) j).
Proof.
  intros H. unfold pick at 1 3. rewrite map_map. apply map_ext_in. intros k Hk. rewrite Forall_forall in H. apply nth_pick. auto.
Qed.
Lemma pick_seq l : pick l (seq 0 (length l)) = l.
Proof.
  apply (nth_ext_len _ _ VNull); [rewrite pick_length, seq_length; reflexivity|].
  intros i Hi. rewrite pick_length, seq_length in Hi. rewrite nth_pick by (rewrite seq_length; exact Hi). rewrite seq_nth by exact Hi. reflexivity.
Qed.
Lemma ints_pick p l idx : Forall (vtyped (DPrim p false)) l -> ints (pick l idx) = map (fun i => nth i (ints l) 0%Z) idx.
Proof.
  intros H. unfold ints, pick. rewrite map_map. apply map_ext. intros i.
  destruct (Nat.lt_ge_cases i (length l)) as [Hi|Hi].
  - symmetry. apply (map_nth_lt vint l VNull). exact Hi.
  - rewrite !nth_overflow by (rewrite ?map_length; exact Hi). reflexivity.
Qed.
Lemma ints_pick_ l idx : ints (pick l idx) = map (fun i => nth i (ints l) 0%Z) idx.
Proof.
  unfold ints, pick. rewrite map_map. apply map_ext. intros i.
  destruct (Nat.lt_ge_cases i (length l)) as [Hi|Hi].
  - symmetry. apply (map_nth_lt vint l VNull). exact Hi.
  - rewrite !nth_overflow by (rewrite ?map_length; exact Hi). reflexivity.
Qed.

Lemma gather_ok {A} (l : list A) idx d : Forall (fun i => i < length l) idx -> gather l idx = Ok (map (fun i => nth i l d) idx).
Proof. apply mapM_nth_error. Qed.

Lemma filter_map_S {A} (f : nat -> bool) (g : nat -> A) n s : map g (filter f (seq (S s) n)) = map (fun i => g (S i)) (filter (fun i => f (S i)) (seq s n)).
Proof.
  revert s; induction n as [|n IH]; intros s; [reflexivity|]. cbn [seq filter].
  destruct (f (S s)); cbn [map]; rewrite IH; reflexivity.
Qed.
Lemma set_indices_cons b m : set_indices (b :: m) = (if b then [0] else []) ++ map S (set_indices m).
Proof.
  unfold set_indices. change (seq 0 (length (b :: m))) with (0 :: seq 1 (length m)). set (g := fun i => nth i (b :: m) false).
  change (filter g (0 :: seq 1 (length m))) with (if b then 0 :: filter g (seq 1 (length m)) else filter g (seq 1 (length m))).
  subst g.
  assert (filter (fun i => nth i (b :: m) false) (seq 1 (length m)) = map S (filter (fun i => nth i m false) (seq 0 (length m)))) as E.
  { rewrite <- (map_id (filter _ (seq 1 _))). rewrite filter_map_S. reflexivity. }
  destruct b; cbn [app]; rewrite E; reflexivity.
Qed.
Lemma spec_filter_gather {A} (d : A) l m : length l = length m -> spec_filter l m = map (fun i => nth i l d) (set_indices m).
Proof.
  revert m; induction l as [|x l IH]; intros [|b m] H; cbn in H; try discriminate; [reflexivity|].
  rewrite set_indices_cons, map_app, map_map. cbn [spec_filter nth]. rewrite IH by lia. destruct b; reflexivity.
Qed.
Lemma spec_filter_pick l m : length l = length m -> spec_filter l m = pick l (set_indices m).
Proof. apply spec_filter_gather. Qed.
Lemma set_indices_length m : length (set_indices m) = count id m.
Proof.
  induction m as [|b m IH]; [reflexivity|]. rewrite set_indices_cons, app_length, map_length, IH. unfold count. destruct b; reflexivity.
Qed.
Lemma set_indices_lt m : Forall (fun i => i < length m) (set_indices m).
Proof. apply Forall_forall. intros i Hi. unfold set_indices in Hi. apply filter_In in Hi. destruct Hi as [Hi _]. apply in_seq in Hi. lia. Qed.
Lemma count_id_le m : count id m <= length m.
Proof. apply count_le_length. Qed.

(** * Validities *)
Lemma vtake_ok v n idx : vwf v n -> Forall (fun i => i < n) idx ->
  exists w, vtake v idx = Ok w /\ vwf w (length idx) /\ vnullable w = vnullable v /\
    (forall k, k < length idx -> vvalid w k = vvalid v (nth k idx 0)) /\ vfits w (length idx) = true.
Proof.
  intros W H. destruct v as [| | |l]; cbn [vtake]; try (eexists; split; [reflexivity|]; repeat split; auto).
  cbn in W. rewrite (mapM_nth_error l false) by (rewrite W; exact H). cbn [bind]. eexists. split; [reflexivity|].
  cbn [vwf vnullable vvalid vfits]. rewrite map_length. repeat split; [|apply Nat.eqb_refl].
  intros k Hk. apply (map_nth_lt (fun i => nth i l false) idx 0). exact Hk.
Qed.
Lemma null_buffer_spec v n : vwf v n ->
  match to_null_buffer (to_logical v n) with
  | None => forall i, i < n -> vvalid v i = true
  | Some b => b = vbits v n
  end.
Proof.
  intros W. pose proof (to_logical_inv v n W) as H. destruct (to_logical v n) as [m|m|m]; cbn [to_null_buffer].
  - apply H.
  - destruct H as [-> H]. rewrite <- tab_const. apply tab_ext. intros i Hi. symmetry. apply H, Hi.
  - destruct H as [-> H]. rewrite <- H. symmetry. apply vbits_bits.
Qed.
Lemma null_buffer_nonnull n : to_null_buffer (to_logical VNonNull n) = None.
Proof. reflexivity. Qed.
Lemma arrow_nulls_ok nb nl l : match nb with None => forall k, k < length l -> nth k l false = true | Some b => b = l end ->
  (nl = false -> nb = None) ->
  exists w, arrow_nulls nb nl = Ok w /\ vwf w (length l) /\ vnullable w = nl /\ (forall k, k < length l -> vvalid w k = nth k l false).
Proof.
  intros H1 H2. destruct nl.
  - unfold arrow_nulls. eexists. split; [reflexivity|]. destruct nb as [b|].
    + subst b. destruct (Nat.eqb_spec (count negb l) (length l)) as [E|E].
      * split; [exact I|]. split; [reflexivity|]. intros k Hk. cbn [vvalid]. symmetry.
        destruct (nth k l false) eqn:X; [|reflexivity]. exfalso.
        pose proof (count_lt_length negb l true). rewrite <- X in H at 1. specialize (H (nth_In l false Hk) eq_refl). lia.
      * split; [apply vfrom_wf|]. split; [apply validity_from_bits|]. intros k Hk.
        rewrite <- (vfrom_bits l) at 2. rewrite nth_vbits by exact Hk. reflexivity.
    + split; [exact I|]. split; [reflexivity|]. intros k Hk. symmetry. apply H1, Hk.
  - rewrite H2 by reflexivity. cbn. eexists. split; [reflexivity|]. split; [exact I|]. split; [reflexivity|].
    rewrite H2 in H1 by reflexivity. intros k Hk. symmetry. apply H1, Hk.
Qed.
Lemma drop_nulls_spec b : match drop_nulls b with None => forall k, k < length b -> nth k b false = true | Some c => c = b end.
Proof.
  unfold drop_nulls. destruct (Nat.eqb_spec (count negb b) 0) as [E|E]; [|reflexivity].
  intros k Hk. pose proof (proj1 (count_zero negb b) E (nth k b false) (nth_In b false Hk)). destruct (nth k b false); auto.
Qed.
Lemma filter_validity_ok v n nl m : vwf v n -> length m = n -> (nl = false -> v = VNonNull) ->
  exists w, filter_validity v n nl m = Ok w /\ vwf w (count id m) /\ vnullable w = nl /\
    (forall k, k < count id m -> vvalid w k = vvalid v (nth k (set_indices m) 0)).
Proof.
  intros W L N. unfold filter_validity. pose proof (null_buffer_spec v n W) as H.
  set (l := map (fun i => vvalid v i) (set_indices m)).
  assert (length l = count id m) as Ll by (unfold l; rewrite map_length; apply set_indices_length).
  assert (forall k, k < count id m -> nth k l false = vvalid v (nth k (set_indices m) 0)) as Nl.
  { intros k Hk. unfold l. apply (map_nth_lt (fun i => vvalid v i) (set_indices m) 0). rewrite set_indices_length. exact Hk. }
  assert (forall k, k < count id m -> nth k (set_indices m) 0 < n) as Kn.
  { intros k Hk. subst n. apply (Forall_nth_lt _ _ 0 k (set_indices_lt m)). rewrite set_indices_length. exact Hk. }
  match goal with |- exists w, arrow_nulls ?nb nl = Ok w /\ _ => destruct (arrow_nulls_ok nb nl l) as (w & E & W1 & W2 & W3) end.
  - destruct (to_null_buffer (to_logical v n)) as [b|] eqn:E.
    + assert (bfilter b m = l) as ->.
      { subst b. rewrite bfilter_spec, (spec_filter_gather false) by (rewrite vbits_length; auto). unfold l. apply map_ext_in.
        intros i Hi. apply nth_vbits. pose proof (set_indices_lt m) as F. rewrite Forall_forall in F. specialize (F _ Hi). lia. }
      apply drop_nulls_spec.
    + rewrite Ll. intros k Hk. rewrite Nl by exact Hk. apply H. apply Kn, Hk.
  - intros ->. rewrite N by reflexivity. reflexivity.
  - rewrite Ll in *. exists w. split; [exact E|]. split; [exact W1|]. split; [exact W2|].
    intros k Hk. rewrite W3 by exact Hk. apply Nl, Hk.
Qed.
