(** filter on chunked arrays. *)
From Verif Require Import Base Spec SearchModel SearchProofs Arr ArrRead ArrWf ArrReadProofs ArrSearchProofs ArrSlice ArrSliceProofs ArrSliceMain
  ValidityModel PropValidity IntEnc PropIntEnc RunEnc PropRunEnc PropUnary PropDict ArrOps OpsBase OpsFlat OpsCanon OpsCanon2 OpsCanon3 OpsTake
  OpsVarBin OpsSparse OpsTake2 OpsChunked OpsFilter OpsFilter2.

(** * Filters of single chunks *)
Definition cf_sel (c : chunk_filter) (o : nat) : bool :=
  match c with CFAll => true | CFNone => false | CFSlices l => existsb (fun se => (fst se <=? o) && (o <? snd se)) l end.
Fixpoint chain (p : nat) (l : list (nat * nat)) (q : nat) : Prop :=
  match l with [] => p <= q | (s, e) :: r => p <= s /\ s < e /\ chain e r q end.
Lemma chain_le p l q : chain p l q -> p <= q.
Proof. revert p; induction l as [|[s e] r IH]; intros p; cbn [chain]; [auto|]. intros (H1 & H2 & H3). specialize (IH _ H3). lia. Qed.
Lemma chain_pos l q : chain 0 l q -> l <> [] -> 1 <= q.
Proof. destruct l as [|[s e] r]; [congruence|]. cbn [chain]. intros (H1 & H2 & H3) _. apply chain_le in H3. lia. Qed.
Lemma chain_snoc p l q s e : chain p l q -> q <= s -> s < e -> chain p (l ++ [(s, e)]) e.
Proof.
  revert p; induction l as [|[s' e'] r IH]; intros p; cbn [chain app].
  - intros. repeat split; lia.
  - intros (H1 & H2 & H3) H4 H5. repeat split; auto.
Qed.
Lemma chain_weaken p l q q' : chain p l q -> q <= q' -> chain p l q'.
Proof. revert p; induction l as [|[s e] r IH]; intros p; cbn [chain]; [lia|]. intros (H1 & H2 & H3) H4. eauto. Qed.
Lemma slices_bits p l n : chain p l n -> exists bits, slices_to_bits p l n = Ok bits /\ length bits = n - p /\
  forall x, p <= x -> x < n -> nth (x - p) bits false = existsb (fun se => (fst se <=? x) && (x <? snd se)) l.
Proof.
  revert p; induction l as [|[s e] r IH]; intros p H; cbn [chain] in H; cbn [slices_to_bits].
  - destruct (Nat.ltb_spec n p); [lia|]. eexists. split; [reflexivity|]. rewrite repeat_length. split; [reflexivity|]. intros x H1 H2. apply nth_repeat_lt. lia.
  - destruct H as (H1 & H2 & H3). pose proof (chain_le _ _ _ H3). destruct (IH _ H3) as (bits & E & L & N).
    destruct (Nat.ltb_spec s p); [lia|]. destruct (Nat.ltb_spec e s); [lia|]. cbn [orb]. rewrite E. cbn [bind]. eexists. split; [reflexivity|].
    rewrite !app_length, !repeat_length, L. split; [lia|]. intros x Hx1 Hx2. cbn [existsb fst snd].
    assert (forall y, y < e -> existsb (fun se => (fst se <=? y) && (y <? snd se)) r = false) as LOW.
    { clear - H3. revert e H3; induction r as [|[s' e'] r IH]; intros e H y Hy; [reflexivity|]. cbn [chain existsb fst snd] in *. destruct H as (A1 & A2 & A3).
      destruct (Nat.leb_spec s' y); [lia|]. cbn [andb orb]. apply (IH e' A3). lia. }
    destruct (Nat.lt_ge_cases x s).
    + rewrite app_nth1 by (rewrite repeat_length; lia). rewrite nth_repeat_lt by lia. rewrite LOW by lia. destruct (Nat.leb_spec s x); [lia|reflexivity].
    + rewrite app_nth2 by (rewrite repeat_length; lia). rewrite repeat_length. destruct (Nat.lt_ge_cases x e).
      * rewrite app_nth1 by (rewrite repeat_length; lia). rewrite nth_repeat_lt by lia. destruct (Nat.leb_spec s x), (Nat.ltb_spec x e); try lia; try reflexivity.
      * rewrite app_nth2 by (rewrite repeat_length; lia). rewrite repeat_length. replace (x - p - (s - p) - (e - s)) with (x - e) by lia.
        rewrite N by lia. destruct (Nat.ltb_spec x e); [lia|]. rewrite andb_false_r. reflexivity.
Qed.

Section Chunks.
  Variable lens : list nat.
  Variable bits : list bool.
  Hypothesis Hbits : length bits = list_sum lens.
  Local Notation off k := (list_sum (firstn k lens)).
  Local Notation len k := (nth k lens 0).

  Lemma off_next k j : k < length lens -> k < j -> off k + len k <= off j.
  Proof. intros H1 H2. rewrite <- list_sum_firstn_S by exact H1. apply list_sum_firstn_mono. lia. Qed.
  Lemma off_total k : k < length lens -> off k + len k <= list_sum lens.
  Proof. intros H. rewrite <- list_sum_firstn_S by exact H. rewrite <- (list_sum_firstn_all lens). apply list_sum_firstn_mono. lia. Qed.

  Definition cinv (pos k : nat) (c : chunk_filter) : Prop :=
    (forall o, o < len k -> cf_sel c o = nth (off k + o) bits false && (off k + o <? pos)) /\
    match c with
    | CFAll => off k + len k <= pos
    | CFNone => True
    | CFSlices l => l <> [] /\ exists q, chain 0 l q /\ off k + q <= pos /\ q <= len k
    end.
  Definition finv (pos : nat) (fs : list chunk_filter) : Prop :=
    length fs = length lens /\ forall k, k < length lens -> cinv pos k (nth k fs CFNone).

  Lemma cinv_keep pos e k c : cinv pos k c -> pos <= e ->
    (forall o, o < len k -> pos <= off k + o -> off k + o < e -> nth (off k + o) bits false = false) -> cinv e k c.
  Proof.
    intros [H1 H2] Hp H. split.
    - intros o Ho. rewrite H1 by exact Ho. destruct (Nat.ltb_spec (off k + o) pos), (Nat.ltb_spec (off k + o) e); try lia; try reflexivity.
      rewrite H by lia. reflexivity.
    - destruct c as [| |l]; [lia|exact I|]. destruct H2 as (N & q & Q1 & Q2 & Q3). split; [exact N|]. exists q. repeat split; auto; lia.
  Qed.
  Lemma cinv_add pos e k c os oe : cinv pos k c -> os < oe -> oe <= len k -> pos <= off k + os -> off k + oe <= e ->
    (forall o, o < len k -> o < oe \/ e <= off k + o) ->
    (forall o, o < os -> pos <= off k + o -> nth (off k + o) bits false = false) ->
    (forall o, os <= o -> o < oe -> nth (off k + o) bits false = true) -> cinv e k (cf_add c (os, oe)).
  Proof.
    intros [H1 H2] Ho Hl Hp He Hend Hlow Hhi.
    assert (forall o, o < len k -> nth (off k + o) bits false && (off k + o <? e) =
              cf_sel c o || ((os <=? o) && (o <? oe))) as SEL.
    { intros o Hol. rewrite H1 by exact Hol. destruct (Hend o Hol) as [A|A].
      - destruct (Nat.ltb_spec (off k + o) e); [|lia]. destruct (Nat.ltb_spec o oe); [|lia].
        destruct (Nat.leb_spec os o).
        + rewrite Hhi by lia. rewrite orb_true_r. reflexivity.
        + cbn [andb]. rewrite andb_true_r, orb_false_r. destruct (Nat.ltb_spec (off k + o) pos); [rewrite andb_true_r; reflexivity|]. rewrite Hlow by lia. reflexivity.
      - destruct (Nat.ltb_spec (off k + o) e); [lia|]. destruct (Nat.ltb_spec (off k + o) pos); [lia|]. destruct (Nat.ltb_spec o oe); [lia|].
        rewrite !andb_false_r. reflexivity. }
    destruct c as [| |l].
    - lia.
    - split; [intros o Hol; rewrite SEL by exact Hol; cbn [cf_sel cf_add existsb fst snd]; rewrite orb_false_r; reflexivity|].
      cbn [cf_add]. split; [discriminate|]. exists oe. cbn [chain]. repeat split; lia.
    - destruct H2 as (N & q & Q1 & Q2 & Q3).
      split; [intros o Hol; rewrite SEL by exact Hol; cbn [cf_sel cf_add]; rewrite existsb_app; cbn [existsb fst snd]; rewrite orb_false_r; reflexivity|].
      cbn [cf_add]. split; [destruct l; discriminate|]. exists oe. split; [apply (chain_snoc 0 l q); auto; lia|]. lia.
  Qed.
  Lemma cinv_all e k : off k + len k <= e -> (forall o, o < len k -> nth (off k + o) bits false = true) -> cinv e k CFAll.
  Proof.
    intros H1 H2. split; [|exact H1]. intros o Ho. cbn [cf_sel]. rewrite H2 by exact Ho. destruct (Nat.ltb_spec (off k + o) e); [reflexivity|lia].
  Qed.

  Lemma cf_upd_ok fs k se : k < length fs -> cf_upd fs k se = Ok (list_set fs k (cf_add (nth k fs CFNone) se)).
  Proof. intros H. unfold cf_upd. rewrite (nth_error_nth' fs CFNone) by exact H. reflexivity. Qed.

  Lemma filter_slice_step_ok pos s e fs : lens <> [] -> finv pos fs -> pos <= s -> s < e -> e <= length bits ->
    (forall x, pos <= x -> x < s -> nth x bits false = false) -> (forall x, s <= x -> x < e -> nth x bits false = true) ->
    exists fs', filter_slice_step lens fs (s, e) = Ok fs' /\ finv e fs'.
  Proof.
    intros Hne [FL FI] Hps Hse He Hlow Hhi. unfold filter_slice_step. cbn [fst snd].
    destruct (find_chunk_idx_spec lens s ltac:(lia) Hne) as (ks & os & E1 & K1 & S1 & _ & B1). specialize (B1 ltac:(lia)).
    destruct (find_chunk_idx_spec lens (e - 1) ltac:(lia) Hne) as (ke & oe & E2 & K2 & S2 & _ & B2). specialize (B2 ltac:(lia)).
    pose proof (find_chunk_idx_mono lens s (e - 1) _ _ _ _ ltac:(lia) ltac:(lia) E1 E2) as KK.
    rewrite !filter_chunk_idx_eq by lia. rewrite E1, E2. cbn [bind fst snd]. cbv zeta.
    assert (forall k, k < ks -> off k + len k <= s) as LO by (intros k Hk; pose proof (off_next k ks ltac:(lia) Hk); lia).
    assert (forall k, ke < k -> e <= off k) as HI by (intros k Hk; pose proof (off_next ke k K2 Hk); lia).
    assert (forall k, k < length lens -> k < ks \/ ke < k -> cinv e k (nth k fs CFNone)) as KEEP.
    { intros k Hk Hd. apply (cinv_keep pos); [apply FI; exact Hk|lia|]. intros o Ho H1 H2. destruct Hd as [Hd|Hd]; [apply Hlow; [lia|]; specialize (LO k Hd); lia|specialize (HI k Hd); lia]. }
    destruct (Nat.eqb_spec ks ke) as [<-|NE].
    - rewrite cf_upd_ok by lia. eexists. split; [reflexivity|]. split; [rewrite list_set_length; exact FL|]. intros k Hk.
      rewrite nth_list_set by lia. destruct (Nat.eqb_spec k ks) as [->|Nk]; [|apply KEEP; [exact Hk|lia]].
      apply (cinv_add pos); [apply FI; exact Hk|lia|lia|lia|lia| | |].
      + intros o Ho. destruct (Nat.lt_ge_cases o (oe + 1)); [left; assumption|right; lia].
      + intros o Ho Hx. apply Hlow; lia.
      + intros o H1 H2. apply Hhi; lia.
    - assert (ks < ke) as KL by lia.
      rewrite (nth_error_nth' (offsets_from 0 lens) 0) by (rewrite offsets_from_length; lia).
      rewrite (nth_error_nth' (offsets_from 0 lens) 0) by (rewrite offsets_from_length; lia).
      rewrite !nth_offsets_from by lia. rewrite Nat.add_1_r, !Nat.add_0_l, (list_sum_firstn_S lens ks K1).
      replace (off ks + len ks - off ks) with (len ks) by lia.
      rewrite cf_upd_ok by lia. cbn [bind]. rewrite cf_upd_ok by (rewrite list_set_length; lia). cbn [bind].
      set (fs1 := list_set fs ks (cf_add (nth ks fs CFNone) (os, len ks))).
      assert (length fs1 = length lens) as L1 by (unfold fs1; rewrite list_set_length; exact FL).
      assert (nth ke fs1 CFNone = nth ke fs CFNone) as N1.
      { unfold fs1. rewrite nth_list_set by lia. destruct (Nat.eqb_spec ke ks); [lia|reflexivity]. }
      rewrite N1. set (fs2 := list_set fs1 ke (cf_add (nth ke fs CFNone) (0, oe + 1))).
      assert (length fs2 = length lens) as L2 by (unfold fs2; rewrite list_set_length; exact L1).
      destruct (Nat.ltb_spec ke (S ks)); [lia|]. destruct (Nat.ltb_spec (length fs2) ke); [lia|]. cbn [orb]. eexists. split; [reflexivity|].
      assert (length (firstn (S ks) fs2) = S ks) as LF by (rewrite firstn_length; lia).
      split; [rewrite !app_length, LF, repeat_length, skipn_length; lia|].
      intros k Hk.
      assert (forall k, k < length lens -> nth k fs2 CFNone = if k =? ke then cf_add (nth ke fs CFNone) (0, oe + 1) else
                        if k =? ks then cf_add (nth ks fs CFNone) (os, len ks) else nth k fs CFNone) as N2.
      { intros j Hj. unfold fs2. rewrite nth_list_set by lia. destruct (Nat.eqb_spec j ke); [reflexivity|]. unfold fs1. apply nth_list_set. lia. }
      destruct (Nat.le_gt_cases k ks) as [C1|C1].
      + rewrite app_nth1 by lia. rewrite nth_firstn by lia. rewrite N2 by exact Hk. destruct (Nat.eqb_spec k ke); [lia|].
        destruct (Nat.eqb_spec k ks) as [->|]; [|apply KEEP; [exact Hk|lia]].
        apply (cinv_add pos); [apply FI; exact Hk|lia|lia|lia| | | |].
        * pose proof (off_next ks ke K1 KL). lia.
        * intros o Ho. left. exact Ho.
        * intros o Ho Hx. apply Hlow; lia.
        * intros o H1 H2. pose proof (off_next ks ke K1 KL). apply Hhi; lia.
      + rewrite app_nth2 by lia. rewrite LF. destruct (Nat.lt_ge_cases k ke) as [C2|C2].
        * rewrite app_nth1 by (rewrite repeat_length; lia). rewrite nth_repeat_lt by lia.
          pose proof (off_next k ke Hk C2). pose proof (off_next ks k K1 C1). apply cinv_all; [lia|]. intros o Ho. apply Hhi; lia.
        * rewrite app_nth2 by (rewrite repeat_length; lia). rewrite repeat_length, nth_skipn. replace (ke + (k - S ks - (ke - S ks))) with k by lia.
          rewrite N2 by exact Hk. destruct (Nat.eqb_spec k ke) as [->|]; [|destruct (Nat.eqb_spec k ks); [lia|]; apply KEEP; [exact Hk|lia]].
          pose proof (off_next ks ke K1 KL).
          apply (cinv_add pos); [apply FI; exact Hk|lia|lia|lia|lia| | |].
          -- intros o Ho. destruct (Nat.lt_ge_cases o (oe + 1)); [left; assumption|right; lia].
          -- intros o Ho. lia.
          -- intros o Q1 Q2. apply Hhi; lia.
  Qed.

  Lemma filter_slices_ok ss : forall pos fs, lens <> [] -> finv pos fs -> cover bits pos ss ->
    exists fs' pos', foldM (filter_slice_step lens) fs ss = Ok fs' /\ finv pos' fs' /\ (forall x, pos' <= x -> nth x bits false = false).
  Proof.
    induction ss as [|[s e] r IH]; intros pos fs Hne FI HC; cbn [cover] in HC; cbn [foldM].
    - exists fs, pos. auto.
    - destruct HC as (H1 & H2 & H3 & H4 & H5 & H6). destruct (filter_slice_step_ok pos s e fs Hne FI H1 H2 H3 H4 H5) as (fs1 & E & F1). rewrite E. cbn [bind].
      apply (IH e fs1 Hne F1 H6).
  Qed.
  (** Each chunk gets its part of the mask. *)
  Lemma chunk_filters : lens <> [] -> exists fs, foldM (filter_slice_step lens) (repeat CFNone (length lens)) (set_slices bits) = Ok fs /\
    length fs = length lens /\
    forall k, k < length lens -> (forall o, o < len k -> cf_sel (nth k fs CFNone) o = nth (off k + o) bits false) /\
      match nth k fs CFNone with CFSlices l => chain 0 l (len k) | _ => True end.
  Proof.
    intros Hne. destruct (filter_slices_ok (set_slices bits) 0 (repeat CFNone (length lens)) Hne) as (fs & pos & E & [F1 F2] & F3).
    - split; [apply repeat_length|]. intros k Hk. rewrite nth_repeat_lt by exact Hk. split; [|exact I]. intros o Ho. cbn [cf_sel].
      destruct (Nat.ltb_spec (off k + o) 0); [lia|]. rewrite andb_false_r. reflexivity.
    - apply cover_set_slices.
    - exists fs. split; [exact E|]. split; [exact F1|]. intros k Hk. destruct (F2 k Hk) as [G1 G2]. split.
      + intros o Ho. rewrite G1 by exact Ho. destruct (Nat.ltb_spec (off k + o) pos); [apply andb_true_r|]. rewrite F3 by lia. reflexivity.
      + destruct (nth k fs CFNone) as [| |l]; auto. destruct G2 as (_ & q & Q1 & Q2 & Q3). apply (chain_weaken 0 l q); assumption.
  Qed.

  Lemma filter_ext_in' {A} (f g : A -> bool) l : (forall x, In x l -> f x = g x) -> filter f l = filter g l.
  Proof. intros H. apply filter_ext_in. exact H. Qed.
  Lemma filter_shift a n (h : nat -> bool) : filter h (seq a n) = map (Nat.add a) (filter (fun o => h (a + o)) (seq 0 n)).
  Proof.
    induction n as [|n IH]; [reflexivity|]. rewrite !seq_S, !filter_app, map_app, IH. f_equal. cbn [Nat.add filter]. destruct (h (a + n)); reflexivity.
  Qed.
  Lemma set_indices_chunks n : n <= length lens ->
    concat (map (fun k => map (Nat.add (off k)) (filter (fun o => nth (off k + o) bits false) (seq 0 (len k)))) (seq 0 n)) =
    filter (fun i => nth i bits false) (seq 0 (off n)).
  Proof.
    induction n as [|n IH]; intros Hn; [reflexivity|]. rewrite seq_S, map_app, concat_app, IH by lia. cbn [map concat Nat.add]. rewrite app_nil_r.
    rewrite list_sum_firstn_S by lia. rewrite seq_app, filter_app. f_equal. cbn [Nat.add]. symmetry. apply filter_shift.
  Qed.
End Chunks.

Section Step.
  Variable rec : array -> ops_t.
  Variable M : nat.
  Hypothesis Hrec : forall b, depth b < M -> ops_good (rec b) b.

  Definition cgroups (lens : list nat) (fs : list chunk_filter) (ks : list nat) : list (nat * list nat) :=
    concat (map (fun k => match nth k fs CFNone with CFNone => [] | c => [(k, filter (cf_sel c) (seq 0 (nth k lens 0)))] end) ks).
  Lemma cgroups_collect {C} (Q : nat * list nat -> C -> Prop) lens fs ks xs :
    Forall2 (fun k (x : option C) => match nth k fs CFNone with CFNone => x = None | c => exists y, x = Some y /\ Q (k, filter (cf_sel c) (seq 0 (nth k lens 0))) y end) ks xs ->
    Forall2 Q (cgroups lens fs ks) (filter_map id xs).
  Proof.
    induction 1 as [|k x ks xs H _ IH]; [constructor|]. unfold cgroups. cbn [map concat filter_map]. fold (cgroups lens fs ks).
    destruct (nth k fs CFNone); [destruct H as (y & -> & Hy)|subst x|destruct H as (y & -> & Hy)]; unfold id at 1; cbn [app]; try constructor; assumption.
  Qed.

  Lemma filter_chunked d cs : depth (AChunked d cs) <= M -> filter_ok rec (AChunked d cs).
  Proof.
    intros D f m W C Ft Hl M1 M2 M3. cbn [ops_step o_filter]. unfold with_mask. rewrite M2, Nat.eqb_refl. unfold chunked_filter. rewrite map_map, map_length. cbn [fst].
    change (map (fun x : array => alen x) cs) with (map alen cs). set (lens := map alen cs).
    destruct (mbits_eq m M1 M3) as [EB EI]. rewrite EI, <- EB. pose proof (idx_lt m _ M1 M2 M3) as HI. pose proof (mcount_len m) as MC.
    change (alen (AChunked d cs)) with (list_sum lens) in *.
    pose proof W as W0. cbn [wf] in W. destruct W as (Wc & W2 & W3 & W4 & W5 & W6 & W7 & W8). apply wf_chunks_iff in Wc.
    unfold filter_post. assert (pF f = pf f) as PF by (apply pF_eq; intros X; right; apply W5; exact X).
    assert (length (mbits m) = list_sum lens) as LB by (rewrite EB; lia).
    set (bits := mbits m) in *. set (idx := set_indices bits) in *. cbv zeta.
    assert (fF f = true -> fk f = true \/ is_prim d = true) as HK by (intros X; apply W5; exact X).
    assert (length idx <= list_sum lens) as LI by (rewrite MC; unfold mcount; fold bits; rewrite <- LB; apply count_id_le).
    assert (Z.of_nat (length idx) <= pmax U64)%Z as Hl' by lia.
    assert (length lens = length cs) as LL by apply map_length.
    destruct (Nat.eqb_spec (mcount m) (list_sum lens)) as [EQ|NE].
    { apply outc_ok. rewrite PF. pose proof (ssorted_full idx (list_sum lens) (set_indices_sorted bits) HI ltac:(lia)) as ->. split; [apply (wf_fle _ _ f (fle_pf f)); exact W0|].
      split; [|repeat split; auto].
      assert (length (logical (AChunked d cs)) = list_sum lens) as LA by (rewrite logical_length; reflexivity).
      rewrite <- LA. symmetry. apply pick_seq. }
    destruct (Nat.eqb_spec (mcount m) 0) as [E0|N0].
    { assert (idx = []) as X by (apply length_zero_iff_nil; lia). rewrite X. eapply (chunked_assemble (fF f = true) f (pF f) d cs [] [] []); auto; [apply fle_pF|cbn; pose proof Hl'; lia]. }
    assert (lens <> []) as Hne by (intros X; rewrite X in LI; cbn in LI; lia).
    destruct (4 * list_sum lens <? 5 * mcount m).
    - (* slices *)
      destruct (chunk_filters lens bits LB Hne) as (fs & EF & LF & HF). rewrite LL in EF. rewrite EF. cbn [bind].
      assert (combine (map (fun c => (c, rec c)) cs) fs = map (fun k => ((nth k cs (ANull 0), rec (nth k cs (ANull 0))), nth k fs CFNone)) (seq 0 (length cs))) as EC.
      { apply (nth_ext_len _ _ ((ANull 0, rec (ANull 0)), CFNone)); [rewrite combine_length, !map_length, seq_length; lia|]. rewrite combine_length, map_length. intros k Hk.
        rewrite combine_nth by (rewrite map_length; lia). rewrite (map_nth_lt (fun c => (c, rec c)) cs (ANull 0)) by lia.
        rewrite (map_nth_lt (fun k => ((nth k cs (ANull 0), rec (nth k cs (ANull 0))), nth k fs CFNone)) _ 0) by (rewrite seq_length; lia). rewrite seq_nth by lia. reflexivity. }
      rewrite EC, mapM_map. cbn [fst snd].
      set (Q := fun (kg : nat * list nat) x => fst kg < length cs /\ Forall (fun i => i < alen (nth (fst kg) cs (ANull 0))) (snd kg) /\ sel_post (pF f) f (nth (fst kg) cs (ANull 0)) (snd kg) x).
      eapply outc_bind.
      { apply mapM_outc with (P := fun k (x : option array) => match nth k fs CFNone with CFNone => x = None | c => exists y, x = Some y /\ Q (k, filter (cf_sel c) (seq 0 (nth k lens 0))) y end).
        intros k Hk. apply in_seq in Hk. destruct (HF k ltac:(lia)) as [_ HF2].
        assert (nth k lens 0 = alen (nth k cs (ANull 0))) as EL by (apply (map_nth_lt alen cs (ANull 0)); lia).
        pose proof (Forall_nth_lt _ _ (ANull 0) k Wc ltac:(lia)) as [Wk Dk]. set (c := nth k cs (ANull 0)) in *.
        destruct (nth k fs CFNone) as [| |l] eqn:EN; cbn [apply_chunk_filter fst snd].
        - apply outc_ok. exists c. split; [reflexivity|]. unfold Q. cbn [fst snd]. rewrite filter_all by reflexivity. fold c. rewrite EL. split; [lia|].
          split; [apply Forall_forall; intros i Hi; apply in_seq in Hi; lia|]. split; [apply (wf_fle _ _ f (fle_pF f)); exact Wk|].
          split; [rewrite <- logical_length; symmetry; apply pick_seq|]. auto.
        - apply outc_ok. reflexivity.
        - rewrite EL in HF2. destruct (slices_bits 0 l _ HF2) as (bl & ES & LS & NS). rewrite ES. cbn [bind]. rewrite Nat.sub_0_r in LS.
          assert (k < length cs) as Kc by lia. assert (depth c < M) as Dc.
          { cbn [depth] in D. pose proof (proj1 (list_max_le (map depth cs) _) (le_n _)) as X. rewrite Forall_forall in X. specialize (X _ (in_map depth cs c (nth_In cs (ANull 0) Kc))). lia. }
          eapply outc_bind.
          { apply (g_filter _ _ (Hrec c Dc) f (mask_of bl)); auto; try exact LS.
            assert (alen c <= list_sum lens) as X; [|lia]. rewrite <- EL. pose proof (off_total lens bits LB k ltac:(lia)). lia. }
          intros y _ Py. apply outc_ok. exists y. split; [reflexivity|]. unfold Q. cbn [fst snd]. fold c. rewrite EL. split; [lia|].
          assert (mbits (mask_of bl) = bl) as MB by (apply mbits_eq; reflexivity).
          assert (set_indices bl = filter (cf_sel (CFSlices l)) (seq 0 (alen c))) as SI.
          { unfold set_indices. rewrite LS. apply filter_ext_in. intros i Hi. apply in_seq in Hi. cbn [cf_sel]. specialize (NS i ltac:(lia) ltac:(lia)). rewrite Nat.sub_0_r in NS. exact NS. }
          split; [apply Forall_forall; intros i Hi; apply filter_In in Hi; destruct Hi as [Hi _]; apply in_seq in Hi; lia|].
          unfold filter_post in Py. rewrite MB, SI in Py. exact Py. }
      intros xs _ F2. cbv beta in F2. apply (cgroups_collect Q) in F2.
      eapply chunked_assemble; [apply fle_pF|exact W0|exact HK|exact F2| |exact Hl'].
      unfold idx, set_indices. rewrite LB, <- (list_sum_firstn_all lens), <- (set_indices_chunks lens bits LB (length lens)) by lia. rewrite LL.
      unfold cgroups, gflat.
      assert (forall ks, (forall k, In k ks -> k < length lens) ->
        concat (map (gidx lens) (concat (map (fun k => match nth k fs CFNone with CFNone => [] | c => [(k, filter (cf_sel c) (seq 0 (nth k lens 0)))] end) ks))) =
        concat (map (fun k => map (Nat.add (list_sum (firstn k lens))) (filter (fun o => nth (list_sum (firstn k lens) + o) bits false) (seq 0 (nth k lens 0)))) ks)) as G.
      { induction ks as [|k ks IH]; intros Hks; [reflexivity|]. cbn [map concat]. rewrite map_app, concat_app, IH by (intros; apply Hks; right; auto). f_equal.
        destruct (HF k (Hks k ltac:(left; reflexivity))) as [HF1 _].
        assert (filter (fun o => nth (list_sum (firstn k lens) + o) bits false) (seq 0 (nth k lens 0)) = filter (cf_sel (nth k fs CFNone)) (seq 0 (nth k lens 0))) as ->.
        { apply filter_ext_in. intros o Ho. apply in_seq in Ho. symmetry. apply HF1. lia. }
        destruct (nth k fs CFNone); cbn [map concat]; rewrite ?app_nil_r; [reflexivity| |reflexivity].
        rewrite filter_none by reflexivity. reflexivity. }
      apply G. intros k Hk. apply in_seq in Hk. lia.
    - destruct (index_groups_spec lens idx 0 [] Hne HI ltac:(destruct lens; [congruence|cbn; lia]) ltac:(constructor)) as (G & EG & FG & OG).
      rewrite EG. cbn [bind]. cbn [gidx fst snd map app] in FG. rewrite Forall_forall in OG.
      rewrite (mapM_ok_map _ (fun _ => tt)).
      2:{ intros g Hg. destruct (OG g Hg) as (X & _). rewrite (nth_error_nth' _ (ANull 0, rec (ANull 0))) by (rewrite map_length; lia). reflexivity. }
      cbn [bind]. rewrite PF. eapply outc_bind.
      { apply mapM_outc with (P := fun (g : nat * list nat) x => fst g < length cs /\ Forall (fun i => i < alen (nth (fst g) cs (ANull 0))) (snd g) /\
              sel_post (pf f) f (nth (fst g) cs (ANull 0)) (snd g) x).
        intros g Hg. apply (chunk_take_ok rec M Hrec (fF f = true) f d cs U64 g); auto.
        - pose proof (group_le lens _ _ _ FG Hg). lia.
        - intros X. split; [apply W5; exact X|reflexivity]. }
      intros xs _ F2. eapply chunked_assemble; [apply fle_pf|exact W0|exact HK|exact F2|exact FG|exact Hl'].
  Qed.
End Step.
