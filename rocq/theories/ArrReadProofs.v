(** Proofs about the read path: every well-formed array reads as its meaning. *)
From Verif Require Import Base Spec SearchModel SearchProofs Arr ArrRead ArrWf.

(** * Lists *)
Lemma Forall_tab {A} (P : A -> Prop) n g : (forall i, i < n -> P (g i)) -> Forall P (tab n g).
Proof. intros H. apply Forall_forall. intros x Hx. apply In_tab in Hx. destruct Hx as (i & Hi & ->). auto. Qed.

Lemma pos_of_some z l k : pos_of z l = Some k -> k < length l /\ nth k l 0%Z = z.
Proof.
  revert k; induction l as [|x r IH]; cbn [pos_of]; intros k H; [discriminate|].
  destruct (Z.eqb_spec x z).
  - injection H as <-. cbn. split; [lia|auto].
  - destruct (pos_of z r) as [j|]; [|discriminate]. injection H as <-. destruct (IH j eq_refl). cbn. split; [lia|auto].
Qed.
Lemma pos_of_none z l : pos_of z l = None <-> ~ In z l.
Proof.
  induction l as [|x r IH]; cbn [pos_of In]; [tauto|].
  destruct (Z.eqb_spec x z).
  - split; [discriminate|]. tauto.
  - destruct (pos_of z r) eqn:E.
    + split; [discriminate|]. intros H. exfalso. apply H. right.
      destruct (in_dec Z.eq_dec z r) as [|Hn]; [assumption|]. destruct IH as [_ IH]. specialize (IH Hn). discriminate.
    + split; auto. intros _ [?|?]; [congruence|]. destruct IH as [IH _]. apply IH; auto.
Qed.
Lemma pos_of_nth l k : ssortedZ l -> k < length l -> pos_of (nth k l 0%Z) l = Some k.
Proof.
  revert k; induction l as [|x r IH]; cbn [length ssortedZ]; intros k Hs Hk; [lia|]. destruct Hs as [Hx Hr].
  destruct k as [|k]; cbn [nth pos_of].
  - rewrite Z.eqb_refl. reflexivity.
  - assert (In (nth k r 0%Z) r) as Hin by (apply nth_In; lia).
    specialize (Hx _ Hin). destruct (Z.eqb_spec x (nth k r 0%Z)); [lia|]. rewrite IH by (auto; lia). reflexivity.
Qed.

Lemma sortedZ_nth l i j : sortedZ l -> i <= j -> j < length l -> (nth i l 0 <= nth j l 0)%Z.
Proof.
  revert i j; induction l as [|x r IH]; cbn [length sortedZ]; intros i j Hs Hij Hj; [lia|]. destruct Hs as [Hx Hr].
  destruct i, j; cbn [nth]; try lia.
  - apply Hx, nth_In. lia.
  - apply IH; auto; lia.
Qed.
Lemma ssortedZ_nth l i j : ssortedZ l -> i < j -> j < length l -> (nth i l 0 < nth j l 0)%Z.
Proof.
  revert i j; induction l as [|x r IH]; cbn [length ssortedZ]; intros i j Hs Hij Hj; [lia|]. destruct Hs as [Hx Hr].
  destruct i, j; cbn [nth]; try lia.
  - apply Hx, nth_In. lia.
  - apply IH; auto; lia.
Qed.
Lemma sortedZ_of_nth l : (forall i j, i <= j -> j < length l -> (nth i l 0 <= nth j l 0)%Z) -> sortedZ l.
Proof.
  induction l as [|x r IH]; cbn [length sortedZ]; intros H; [exact I|]. split.
  - intros y Hy. apply In_nth with (d := 0%Z) in Hy. destruct Hy as (k & Hk & <-). apply (H 0 (S k)); lia.
  - apply IH. intros i j Hi Hj. apply (H (S i) (S j)); lia.
Qed.
Lemma ssortedZ_of_nth l : (forall i j, i < j -> j < length l -> (nth i l 0 < nth j l 0)%Z) -> ssortedZ l.
Proof.
  induction l as [|x r IH]; cbn [length ssortedZ]; intros H; [exact I|]. split.
  - intros y Hy. apply In_nth with (d := 0%Z) in Hy. destruct Hy as (k & Hk & <-). apply (H 0 (S k)); lia.
  - apply IH. intros i j Hi Hj. apply (H (S i) (S j)); lia.
Qed.

Lemma search_left_pos l v : ssortedZ l -> to_found (spec_search (map (fun z => Z.compare z v) l) Left) = pos_of v l.
Proof.
  intros Hs. unfold spec_search. rewrite !count_map.
  induction l as [|x r IH]; [reflexivity|]. cbn [ssortedZ] in Hs. destruct Hs as [Hx Hr]. specialize (IH Hr).
  unfold count in *. cbn [filter pos_of].
  assert (x < v \/ x = v \/ v < x)%Z as [L|[->|G]] by lia.
  - rewrite (proj2 (Z.compare_lt_iff x v) L). destruct (Z.eqb_spec x v); [lia|]. cbn [length].
    destruct (length (filter _ r) =? 0) eqn:E; cbn [to_found] in *; rewrite <- IH; reflexivity.
  - rewrite Z.compare_refl, Z.eqb_refl. cbn [length Nat.eqb to_found]. f_equal.
    change (count (fun y => match (y ?= v)%Z with Lt => true | _ => false end) r = 0).
    apply count_zero. intros y Hy. specialize (Hx y Hy). rewrite (proj2 (Z.compare_gt_iff y v)) by lia. reflexivity.
  - rewrite (proj2 (Z.compare_gt_iff x v)) by lia. destruct (Z.eqb_spec x v); [lia|].
    assert (~ In v r) as Hn by (intros Hin; specialize (Hx v Hin); lia).
    rewrite (proj2 (pos_of_none v r) Hn) in *. rewrite IH. reflexivity.
Qed.

Lemma search_right_run l v : to_index (spec_search (map (fun z => Z.compare z v) l) Right) = count (fun e => (e <=? v)%Z) l.
Proof.
  rewrite spec_search_right_index, count_map. apply count_ext. intros x _.
  destruct (Z.compare_spec x v); symmetry; lia.
Qed.

Lemma last_nth {A} (l : list A) d : last l d = nth (length l - 1) l d.
Proof.
  induction l as [|x [|y r] IH]; [reflexivity|reflexivity|].
  change (last (x :: y :: r) d) with (last (y :: r) d). rewrite IH. cbn. rewrite Nat.sub_0_r. reflexivity.
Qed.

Lemma count_le_length {A} (f : A -> bool) l : count f l <= length l.
Proof. unfold count. induction l as [|x r IH]; cbn; [lia|]. destruct (f x); cbn; lia. Qed.

Lemma count_lt_length {A} (f : A -> bool) l x : In x l -> f x = false -> count f l < length l.
Proof.
  unfold count. induction l as [|y r IH]; cbn [In filter length]; [tauto|]. intros [->|H] E.
  - rewrite E. pose proof (count_le_length f r). unfold count in *. lia.
  - specialize (IH H E). destruct (f y); cbn; lia.
Qed.

Lemma run_index_lt el x : el <> [] -> (Z.of_nat x < last el 0)%Z -> run_index el x < length el.
Proof.
  intros Hne H. unfold run_index. rewrite last_nth in H.
  apply count_lt_length with (x := nth (length el - 1) el 0%Z).
  - apply nth_In. destruct el; [congruence|cbn; lia].
  - lia.
Qed.

(** Position [k] is the first element greater than [x] in a sorted list. *)
Lemma run_index_char el x k : sortedZ el -> k <= length el ->
  (forall i, i < k -> (nth i el 0 <= Z.of_nat x)%Z) -> (k < length el -> (Z.of_nat x < nth k el 0)%Z) ->
  run_index el x = k.
Proof.
  unfold run_index, count. revert k; induction el as [|a r IH]; cbn [length sortedZ filter]; intros k Hs Hk H1 H2.
  - destruct k; [reflexivity|lia].
  - destruct Hs as [Ha Hr]. destruct k as [|k].
    + specialize (H2 ltac:(lia)). cbn [nth] in H2. destruct (Z.leb_spec a (Z.of_nat x)); [lia|].
      change (count (fun e => (e <=? Z.of_nat x)%Z) r = 0). apply count_zero.
      intros y Hy. specialize (Ha y Hy). lia.
    + pose proof (H1 0 ltac:(lia)) as H0. cbn [nth] in H0. destruct (Z.leb_spec a (Z.of_nat x)); [|lia].
      cbn [length]. f_equal. apply IH; auto; [lia| |].
      * intros i Hi. apply (H1 (S i)). lia.
      * intros Hk'. apply H2. lia.
Qed.

Lemma run_index_spec el x : sortedZ el ->
  (forall i, i < run_index el x -> (nth i el 0 <= Z.of_nat x)%Z) /\
  (run_index el x < length el -> (Z.of_nat x < nth (run_index el x) el 0)%Z).
Proof.
  intros Hs. unfold run_index.
  destruct (sorted_count_split (fun e => (e <=? Z.of_nat x)%Z) el Hs) as [H1 H2].
  { intros; lia. }
  set (c := count _ el) in *. split.
  - intros i Hi. pose proof (count_le_length (fun e => (e <=? Z.of_nat x)%Z) el). fold c in H.
    specialize (H1 (nth i el 0%Z)). apply Z.leb_le. apply H1.
    rewrite <- nth_firstn with (n := c) by lia. apply nth_In. rewrite firstn_length. lia.
  - intros Hc. specialize (H2 (nth c el 0%Z)). apply Z.leb_gt. apply H2.
    replace c with (c + 0) at 1 by lia. rewrite <- nth_skipn. apply nth_In. rewrite skipn_length. lia.
Qed.

(** * Chunk lookup *)
Lemma offsets_from_length acc lens : length (offsets_from acc lens) = S (length lens).
Proof. revert acc; induction lens as [|n r IH]; intros acc; cbn; [reflexivity|]. f_equal. apply IH. Qed.
Lemma nth_offsets_from acc lens k : k <= length lens -> nth k (offsets_from acc lens) 0 = acc + list_sum (firstn k lens).
Proof.
  revert acc k; induction lens as [|n r IH]; intros acc k Hk.
  - destruct k; cbn in *; lia.
  - destruct k as [|k]; cbn [offsets_from nth firstn]; [cbn; lia|]. rewrite IH by (cbn in Hk; lia).
    change (list_sum (n :: firstn k r)) with (n + list_sum (firstn k r)). lia.
Qed.
Lemma list_sum_firstn_mono l i j : i <= j -> list_sum (firstn i l) <= list_sum (firstn j l).
Proof.
  revert i j; induction l as [|x r IH]; intros i j H; [rewrite !firstn_nil; lia|].
  destruct i, j; cbn [firstn]; try lia; [cbn; lia|]. specialize (IH i j).
  change (x + list_sum (firstn i r) <= x + list_sum (firstn j r)). lia.
Qed.
Lemma list_sum_firstn_S l k : k < length l -> list_sum (firstn (S k) l) = list_sum (firstn k l) + nth k l 0.
Proof.
  revert k; induction l as [|x r IH]; intros k H; cbn [length] in H; [lia|].
  destruct k; rewrite !firstn_cons; cbn [nth].
  - cbn. lia.
  - change (list_sum (x :: firstn (S k) r)) with (x + list_sum (firstn (S k) r)).
    change (list_sum (x :: firstn k r)) with (x + list_sum (firstn k r)). rewrite IH by lia. lia.
Qed.
Lemma list_sum_firstn_all l : list_sum (firstn (length l) l) = list_sum l.
Proof. rewrite firstn_all. reflexivity. Qed.

Lemma offsets_sorted lens : sortedZ (map Z.of_nat (offsets_from 0 lens)).
Proof.
  apply sortedZ_of_nth. rewrite map_length, offsets_from_length. intros i j Hi Hj.
  rewrite !map_nth_lt with (d := 0) by (rewrite offsets_from_length; lia).
  rewrite !nth_offsets_from by lia. pose proof (list_sum_firstn_mono lens i j Hi). lia.
Qed.

Lemma find_chunk_idx_spec lens index : index <= list_sum lens -> lens <> [] ->
  exists k o, find_chunk_idx lens index = Ok (k, o) /\ k < length lens /\ list_sum (firstn k lens) + o = index /\
    o <= nth k lens 0 /\ (index < list_sum lens -> o < nth k lens 0).
Proof.
  intros Hi Hne. unfold find_chunk_idx. destruct (Nat.ltb_spec (list_sum lens) index); [lia|].
  pose proof (offsets_sorted lens) as Hs.
  rewrite search_sorted_list_correct by apply offsets_sorted. cbn [expect bind].
  unfold to_ends_index. rewrite search_right_run.
  destruct (sorted_count_split (fun e => (e <=? Z.of_nat index)%Z) _ Hs) as [H1 H2]; [intros; lia|].
  pose proof (count_le_length (fun e => (e <=? Z.of_nat index)%Z) (map Z.of_nat (offsets_from 0 lens))) as Hc.
  rewrite map_length, offsets_from_length in Hc.
  assert (A1 : forall i, i < count (fun e => (e <=? Z.of_nat index)%Z) (map Z.of_nat (offsets_from 0 lens)) ->
     list_sum (firstn i lens) <= index).
  { intros i Hlt. set (c := count _ _) in *.
    specialize (H1 (nth i (map Z.of_nat (offsets_from 0 lens)) 0%Z)).
    rewrite map_nth_lt with (d := 0) in H1 by (rewrite offsets_from_length; lia).
    rewrite nth_offsets_from in H1 by lia.
    assert ((Z.of_nat (0 + list_sum (firstn i lens)) <=? Z.of_nat index)%Z = true); [|lia].
    apply H1. rewrite <- (nth_offsets_from 0 lens i) by lia.
    rewrite <- map_nth_lt with (d' := 0%Z) by (rewrite offsets_from_length; lia).
    rewrite <- nth_firstn with (n := c) by lia.
    apply nth_In. rewrite firstn_length, map_length, offsets_from_length. lia. }
  assert (A2 : forall i, count (fun e => (e <=? Z.of_nat index)%Z) (map Z.of_nat (offsets_from 0 lens)) <= i -> i <= length lens ->
     index < list_sum (firstn i lens)).
  { intros i Hge Hle. set (c := count _ _) in *.
    specialize (H2 (nth i (map Z.of_nat (offsets_from 0 lens)) 0%Z)).
    rewrite map_nth_lt with (d := 0) in H2 by (rewrite offsets_from_length; lia).
    rewrite nth_offsets_from in H2 by lia.
    assert ((Z.of_nat (0 + list_sum (firstn i lens)) <=? Z.of_nat index)%Z = false); [|lia].
    apply H2. rewrite <- (nth_offsets_from 0 lens i) by lia.
    rewrite <- map_nth_lt with (d' := 0%Z) by (rewrite offsets_from_length; lia).
    replace i with (c + (i - c)) by lia. rewrite <- nth_skipn. apply nth_In.
    rewrite skipn_length, map_length, offsets_from_length. lia. }
  set (c := count _ _) in *.
  assert (1 <= c) as Hc1.
  { destruct c eqn:E; [|lia]. specialize (A2 0 ltac:(lia) ltac:(lia)). cbn in A2. lia. }
  assert (1 <= length lens) as Hl by (destruct lens; [congruence|cbn; lia]).
  destruct (Nat.eqb_spec c (length lens + 1)) as [E|E].
  - destruct (Nat.eqb_spec c 0); [lia|]. cbn [bind].
    assert (index = list_sum lens) as ->.
    { specialize (A1 (length lens) ltac:(lia)). rewrite list_sum_firstn_all in A1. lia. }
    rewrite nth_error_nth' with (d := 0) by (rewrite offsets_from_length; lia).
    rewrite nth_offsets_from by lia. cbn [Nat.add].
    replace (c - 1 - 1) with (length lens - 1) by lia.
    pose proof (list_sum_firstn_S lens (length lens - 1) ltac:(lia)) as HS.
    replace (S (length lens - 1)) with (length lens) in HS by lia. rewrite list_sum_firstn_all in HS.
    destruct (Nat.ltb_spec (list_sum lens) (list_sum (firstn (length lens - 1) lens))); [lia|].
    eexists _, _. split; [reflexivity|]. repeat split; lia.
  - cbn [bind]. rewrite nth_error_nth' with (d := 0) by (rewrite offsets_from_length; lia).
    rewrite nth_offsets_from by lia. cbn [Nat.add].
    pose proof (A1 (c - 1) ltac:(lia)). pose proof (A2 c ltac:(lia) ltac:(lia)).
    pose proof (list_sum_firstn_S lens (c - 1) ltac:(lia)) as HS. replace (S (c - 1)) with c in HS by lia.
    destruct (Nat.ltb_spec index (list_sum (firstn (c - 1) lens))); [lia|].
    eexists _, _. split; [reflexivity|]. repeat split; lia.
Qed.

Lemma nth_concat {A} (ls : list (list A)) k o d : k < length ls -> o < length (nth k ls []) ->
  nth (list_sum (firstn k (map (@length A) ls)) + o) (concat ls) d = nth o (nth k ls []) d.
Proof.
  revert k; induction ls as [|l r IH]; intros k Hk Ho; cbn [length] in Hk; [lia|].
  destruct k as [|k]; cbn [map firstn concat nth] in *.
  - cbn [list_sum fold_right]. rewrite app_nth1 by (cbn; lia). reflexivity.
  - change (list_sum (length l :: firstn k (map (@length A) r))) with (length l + list_sum (firstn k (map (@length A) r))).
    rewrite app_nth2 by lia. rewrite <- IH by lia. f_equal. lia.
Qed.

(** * Types of the elements *)
Lemma vvalid_r_ok v n i : vwf v n -> i < n -> vvalid_r v i = Ok (vvalid v i).
Proof.
  destruct v as [| | |l]; cbn; intros H Hi; auto.
  rewrite nth_error_nth' with (d := false) by lia. reflexivity.
Qed.
Lemma vvalid_nullable v i : vvalid v i = false -> vnullable v = true.
Proof. destruct v; cbn; congruence. Qed.
Lemma vtyped_null d : nullable d = true -> vtyped d VNull.
Proof. exact (fun H => H). Qed.

Lemma in_range_unsigned_pow p bw z : is_unsigned p = true -> (bw <= bits p)%Z -> (0 <= z < 2 ^ bw)%Z -> in_range p z.
Proof.
  intros Hu Hb Hz. assert (2 ^ bw <= 2 ^ bits p)%Z by (apply Z.pow_le_mono_r; lia).
  unfold in_range, pmin, pmax. destruct (is_signed p) eqn:E; [destruct p; discriminate|]. lia.
Qed.

Lemma Forall_nth_default {A} (P : A -> Prop) l d i : Forall P l -> P d -> P (nth i l d).
Proof. intros H Hd. destruct (nth_in_or_default i l d) as [Hin| ->]; [|exact Hd]. rewrite Forall_forall in H. auto. Qed.

Lemma is_unsigned_int p : is_unsigned p = true -> is_int p = true.
Proof. destruct p; cbn; congruence. Qed.

Lemma zz_decode_range p z : is_unsigned p = true -> in_range p z -> in_range (to_signed p) (zz_decode z).
Proof.
  unfold in_range, zz_decode. intros Hu.
  assert (is_signed p = false) by (destruct p; cbn in *; congruence).
  assert (is_signed (to_signed p) = true) by (destruct p; cbn in *; congruence).
  assert (bits (to_signed p) = bits p) as Hb by (destruct p; reflexivity).
  unfold pmin, pmax. rewrite H, H0, Hb.
  pose proof (bits_pos p). pose proof (pow2_split (bits p) ltac:(lia)) as E. rewrite E.
  assert (0 < 2 ^ (bits p - 1))%Z by (apply Z.pow_pos_nonneg; lia).
  set (k := (2 ^ (bits p - 1))%Z) in *. intros Hz.
  destruct (Z.even z); lia.
Qed.

Lemma nth_wf_go_fields ns ts n vs :
  Forall2 (fun t v => vtyped t v) ts vs -> vtyped (DStruct ns ts n) (VStruct vs).
Proof.
  cbn [vtyped]. intros H. induction H; cbn; auto.
Qed.

Lemma wf_varbin_off f u o b v : wf f (AVarBin u o b v) -> wf f o.
Proof. cbn [wf]. tauto. Qed.

Theorem vtyped_logical a : forall f, wf f a -> Forall (vtyped (adtype a)) (logical a).
Proof.
  induction a as [n|o b n v|p l v|u w b v|u o b v IHo|ns fls n v IHf|id st IHst|d x n|ix vs o n fl IHi IHv|d cs IHc
    |c vs IHc IHv|e vs v o n IHe IHv|p e r s IHe|e IHe|p l bw o n v q IHq|l v] using array_ind'; intros f Hwf.
  - cbn [logical adtype]. apply Forall_forall. intros x Hx. apply repeat_spec in Hx. subst. reflexivity.
  - cbn [logical adtype]. apply Forall_tab. intros i Hi. destruct (vvalid v i) eqn:E; cbn; [exact I|]. eapply vvalid_nullable; eauto.
  - cbn [wf] in Hwf. destruct Hwf as [Hr Hv]. cbn [logical adtype]. apply Forall_tab. intros i Hi.
    destruct (vvalid v i) eqn:E; cbn; [|eapply vvalid_nullable; eauto]. apply Forall_nth_lt; auto.
  - cbn [wf] in Hwf. destruct Hwf as (Ho & Hv & Hu & Hk). cbn [adtype]. apply Forall_forall. intros x Hx.
    pose proof Hx as Hx'. cbn [logical] in Hx'. apply In_tab in Hx'. destruct Hx' as (i & Hi & E).
    destruct (vvalid v i) eqn:Ev.
    + destruct u; rewrite E in *; cbn [vtyped]; auto.
    + rewrite E. destruct u; cbn; eapply vvalid_nullable; eauto.
  - cbn [wf] in Hwf. destruct Hwf as (Ho & Hp & H1 & Hs & Hb & Hv & Hu & _). cbn [adtype]. apply Forall_forall. intros x Hx.
    pose proof Hx as Hx'. cbn [logical] in Hx'. apply In_tab in Hx'. destruct Hx' as (i & Hi & E).
    destruct (vvalid v i) eqn:Ev.
    + destruct u; rewrite E in *; cbn [vtyped]; auto.
    + rewrite E. destruct u; cbn; eapply vvalid_nullable; eauto.
  - apply wf_struct_iff in Hwf. destruct Hwf as (Hn & Hv & Hf). cbn [logical adtype]. apply Forall_tab. intros i Hi.
    destruct (vvalid v i) eqn:E; [|cbn; eapply vvalid_nullable; eauto].
    apply nth_wf_go_fields. clear Hn. induction fls as [|x r IH]; cbn [map]; [constructor|].
    inversion IHf; subst. inversion Hf; subst. destruct H3 as [Hw Hl]. constructor; [|auto].
    apply Forall_nth_lt; eauto. rewrite logical_length. lia.
  - cbn [wf] in Hwf. destruct Hwf as [Hw _]. specialize (IHst _ Hw). cbn [logical adtype].
    eapply Forall_impl; [|exact IHst]. intros x Hx. destruct x; cbn in *; auto.
  - cbn [wf] in Hwf. destruct Hwf as [Hx _]. cbn [logical adtype]. apply Forall_forall. intros y Hy. apply repeat_spec in Hy.
    subst. exact Hx.
  - cbn [wf] in Hwf. destruct Hwf as (Hwi & Hwv & Hdi & Hlen & _ & Hs & Hrng & _ & Hfill & _).
    cbn [logical adtype]. apply Forall_tab. intros i Hi. destruct (pos_of _ _) as [k|] eqn:E; [|exact Hfill].
    apply pos_of_some in E. destruct E as [E _]. rewrite ints_length, logical_length in E.
    eapply Forall_nth_lt; [eauto|rewrite logical_length; lia].
  - cbn [wf] in Hwf. destruct Hwf as (Hc & _). apply wf_chunks_iff in Hc. cbn [logical adtype].
    apply Forall_concat. induction cs as [|x r IH]; cbn [map]; [constructor|].
    inversion IHc; subst. inversion Hc; subst. destruct H3 as [Hw <-]. constructor; eauto.
  - cbn [wf] in Hwf. destruct Hwf as (Hwc & Hwv & Hd & Hb & _). cbn [logical adtype].
    apply Forall_map. unfold ints in Hb. rewrite Forall_map in Hb. eapply Forall_impl; [|exact Hb]. cbn. intros x Hx.
    eapply Forall_nth_lt; [eauto|rewrite logical_length; lia].
  - cbn [wf] in Hwf. destruct Hwf as (Hwe & Hwv & Hd & Hlen & _ & Hs & _ & Hn & _ & _ & Hl & _). cbn [logical adtype].
    apply Forall_tab. intros i Hi. destruct (vvalid v i) eqn:Ev.
    2:{ cbn [vtyped]. rewrite Hn. eapply vvalid_nullable; eauto. }
    eapply Forall_nth_lt; [eauto|]. rewrite logical_length, <- Hlen, <- (logical_length e), <- ints_length.
    destruct (ints (logical e)) eqn:El; [lia|]. rewrite <- El in *. apply run_index_lt; [congruence|]. lia.
  - cbn [wf] in Hwf. destruct Hwf as (Hwe & Hi & (n & Hd) & _). specialize (IHe _ Hwe). rewrite Hd in IHe.
    cbn [logical adtype]. rewrite Hd. apply Forall_map. eapply Forall_impl; [|exact IHe].
    intros x Hx. destruct x; cbn [vtyped nullable] in *; try contradiction; auto. apply wrap_in_range.
  - cbn [wf] in Hwf. destruct Hwf as (Hwe & (p & n & Hd & Hu) & _). specialize (IHe _ Hwe). rewrite Hd in IHe.
    cbn [logical adtype]. rewrite Hd. apply Forall_map. eapply Forall_impl; [|exact IHe].
    intros x Hx. destruct x; cbn [vtyped nullable] in *; try contradiction; auto. apply zz_decode_range; auto.
  - cbn [wf] in Hwf. destruct Hwf as (Hu & Hb & Ho & Hlen & Hr & Hv & Hq & _). cbn [logical adtype].
    apply Forall_tab. intros i Hi. destruct (vvalid v i) eqn:Ev; [|cbn; eapply vvalid_nullable; eauto].
    assert (in_range p (nth (o + i) l 0%Z)) as Hp.
    { eapply in_range_unsigned_pow with (bw := bw); [auto|lia|].
      apply Forall_nth_lt with (P := fun z => (0 <= z < 2 ^ bw)%Z); [auto|]. lia. }
    destruct q as [q|].
    + destruct Hq as (Hwq & Hlq & Hdq & _). specialize (IHq _ Hwq). rewrite Hdq in IHq.
      assert (vtyped (DPrim p true) (nth i (logical q) VNull)) as Ht by (apply Forall_nth_default; [auto|reflexivity]).
      destruct (nth i (logical q) VNull); cbn [vtyped] in *; auto.
    + destruct i; cbn; exact Hp.
  - cbn [wf] in Hwf. cbn [logical adtype]. apply Forall_tab. intros i Hi.
    destruct (vvalid v i) eqn:E; cbn; [exact I|]. eapply vvalid_nullable; eauto.
Qed.

(** * Reads return the meaning *)
Definition rd_ok (a : array) : Prop :=
  (forall i, i < alen a -> r_valid (reads a) i = Ok (negb (is_null (nth i (logical a) VNull)))) /\
  (forall i, i < alen a -> nth i (logical a) VNull <> VNull -> r_sat (reads a) i = Ok (nth i (logical a) VNull)) /\
  (forall i, i < alen a -> nth i (logical a) VNull <> VNull -> flat (adtype a) = true ->
     r_satu (reads a) i = Ok (nth i (logical a) VNull)).

(** Integer content, [None] for null. *)
Definition zopt (x : value) : option Z := match x with VInt z => Some z | _ => None end.

Definition se_ok (a : array) : Prop :=
  ss_ok a -> forall p n, adtype a = DPrim p n -> is_int p = true -> sorted_nl (map zopt (logical a)) ->
  forall v s, in_range p v ->
  let spec := spec_search (map (fun x => cmp_null_last x v) (map zopt (logical a))) s in
  exists r, search_sorted_ a (reads a) v s = Ok r /\ to_index r = to_index spec /\ (alen a <> 0 \/ cval a <> Some v -> r = spec).

Lemma is_null_false x : negb (is_null x) = true <-> x <> VNull.
Proof. destruct x; cbn; split; congruence. Qed.

Lemma rd_scalar_at_ a i : rd_ok a -> i < alen a -> scalar_at_ a (reads a) i = Ok (nth i (logical a) VNull).
Proof.
  intros (H1 & H2 & _) Hi. unfold scalar_at_. destruct (Nat.leb_spec (alen a) i); [lia|].
  rewrite H1 by auto. cbn [bind]. destruct (nth i (logical a) VNull) eqn:E; cbn [is_null negb]; [reflexivity| | | |];
    rewrite H2 by (auto; congruence); rewrite E; reflexivity.
Qed.

Lemma sse_gen (l : list (option Z)) v s icmp n : sorted_nl l -> n = length l ->
  (forall i, i < length l -> icmp i = Some (cmp_null_last (nth i l None) v)) ->
  search_sorted_gen icmp s n = Ok (spec_search (map (fun x => cmp_null_last x v) l) s).
Proof.
  intros Hs -> Hi. rewrite <- (map_length (fun x => cmp_null_last x v) l).
  apply search_sorted_gen_correct; [apply sorted_nl_cmps, Hs|].
  intros i Hl. rewrite map_length in Hl. rewrite Hi by auto. f_equal. symmetry. apply (map_nth_lt (fun x => cmp_null_last x v)). exact Hl.
Qed.

(** Elements of an integer-typed array are integers or null. *)
Lemma vtyped_prim p n x : vtyped (DPrim p n) x -> x = VNull \/ exists z, x = VInt z /\ in_range p z.
Proof. destruct x; cbn; intros H; try contradiction; eauto. Qed.

Lemma gen_search_ok f a : wf f a -> rd_ok a -> forall p n, adtype a = DPrim p n ->
  sorted_nl (map zopt (logical a)) -> forall v s,
  gen_search a (reads a) true v s = Ok (spec_search (map (fun x => cmp_null_last x v) (map zopt (logical a))) s).
Proof.
  intros Hw Hr p n Hd Hs v s. unfold gen_search.
  assert (existsb (fun i => is_panic (scalar_at_ a (reads a) i)) (seq 0 (alen a)) = false) as ->.
  { apply Bool.not_true_iff_false. rewrite existsb_exists. intros (i & Hi & Hp). apply in_seq in Hi.
    rewrite rd_scalar_at_ in Hp by (auto; lia). discriminate. }
  apply sse_gen; [exact Hs|rewrite map_length, logical_length; reflexivity|].
  intros i Hi. rewrite map_length, logical_length in Hi. rewrite rd_scalar_at_ by auto.
  rewrite map_nth_lt with (d := VNull) by (rewrite logical_length; auto).
  assert (vtyped (DPrim p n) (nth i (logical a) VNull)) as Ht.
  { rewrite <- Hd. eapply Forall_nth_lt; [eapply vtyped_logical; eauto|]. rewrite logical_length; auto. }
  apply vtyped_prim in Ht. destruct Ht as [->|(z & -> & _)]; reflexivity.
Qed.

Lemma se_generic f a : wf f a -> rd_ok a -> r_ssf (reads a) = None -> se_ok a.
Proof.
  intros Hw Hr Hn _ p n Hd Hp Hs v s Hv spec. exists spec. split; [|auto]. unfold search_sorted_. rewrite Hd, Hp.
  apply in_rangeb_spec in Hv. rewrite Hv, Hn. cbn [andb]. eapply gen_search_ok; eauto.
Qed.

(** Non-nullable special case. *)
Lemma nonnull_ints p l : Forall (vtyped (DPrim p false)) l -> l = map VInt (ints l).
Proof.
  induction 1 as [|x r Hx Hr IH]; [reflexivity|]. cbn [ints map]. fold (ints r). rewrite <- IH. f_equal.
  destruct x; cbn in *; try contradiction; try discriminate. reflexivity.
Qed.
Lemma nonnull_zopt p l : Forall (vtyped (DPrim p false)) l -> map zopt l = map Some (ints l).
Proof. intros H. rewrite (nonnull_ints p l H) at 1. rewrite map_map. reflexivity. Qed.

Lemma se_full a p n : se_ok a -> ss_ok a -> adtype a = DPrim p n -> is_int p = true -> sorted_nl (map zopt (logical a)) ->
  forall v s, in_range p v -> alen a <> 0 \/ cval a <> Some v ->
  search_sorted_ a (reads a) v s = Ok (spec_search (map (fun x => cmp_null_last x v) (map zopt (logical a))) s).
Proof. intros Hse Hss Hd Hp Hs v s Hv Hc. destruct (Hse Hss p n Hd Hp Hs v s Hv) as (r & E & _ & X). rewrite E, (X Hc). reflexivity. Qed.

Lemma se_nonnull_index f a p : wf f a -> se_ok a -> ss_ok a -> adtype a = DPrim p false -> is_int p = true ->
  sortedZ (ints (logical a)) -> forall v s, in_range p v ->
  exists r, search_sorted_ a (reads a) v s = Ok r /\ to_index r = to_index (spec_search (map (fun z => Z.compare z v) (ints (logical a))) s) /\
    (alen a <> 0 \/ cval a <> Some v -> r = spec_search (map (fun z => Z.compare z v) (ints (logical a))) s).
Proof.
  intros Hw Hse Hss Hd Hp Hs v s Hv.
  assert (map zopt (logical a) = map Some (ints (logical a))) as E.
  { apply nonnull_zopt with (p := p). rewrite <- Hd. eapply vtyped_logical; eauto. }
  destruct (Hse Hss p false Hd Hp) with (v := v) (s := s) as (r & E1 & E2 & E3); [|exact Hv|].
  { rewrite E. exists (ints (logical a)), 0. cbn. rewrite app_nil_r. auto. }
  rewrite E, map_map in E2, E3. exists r. auto.
Qed.
Lemma se_nonnull f a p : wf f a -> se_ok a -> ss_ok a -> adtype a = DPrim p false -> is_int p = true ->
  sortedZ (ints (logical a)) -> forall v s, in_range p v -> alen a <> 0 \/ cval a <> Some v ->
  search_sorted_ a (reads a) v s = Ok (spec_search (map (fun z => Z.compare z v) (ints (logical a))) s).
Proof.
  intros Hw Hse Hss Hd Hp Hs v s Hv Hc. destruct (se_nonnull_index f a p Hw Hse Hss Hd Hp Hs v s Hv) as (r & E & _ & X).
  rewrite E, (X Hc). reflexivity.
Qed.

Lemma nonnull_elem f a p i : wf f a -> adtype a = DPrim p false -> i < alen a ->
  nth i (logical a) VNull = VInt (nth i (ints (logical a)) 0%Z) /\ in_range p (nth i (ints (logical a)) 0%Z).
Proof.
  intros Hw Hd Hi.
  assert (vtyped (DPrim p false) (nth i (logical a) VNull)) as Ht.
  { rewrite <- Hd. eapply Forall_nth_lt; [eapply vtyped_logical; eauto|]. rewrite logical_length; auto. }
  unfold ints. rewrite map_nth_lt with (d := VNull) by (rewrite logical_length; auto).
  destruct (nth i (logical a) VNull); cbn in *; try contradiction; try discriminate. auto.
Qed.

Lemma wf_patch_eq p l bw o n v idx vals soff slen fill f :
  wf f (ABitPacked p l bw o n v (Some (ASparse idx vals soff slen fill))) ->
  wf f (ASparse idx vals soff slen fill) /\ n = slen /\ fill = VNull /\ alen idx <> 0 /\ non_null (logical vals) /\
  (exists w, adtype vals = DPrim p w) /\ adtype vals = DPrim p true.
Proof. cbn [wf]. intros (H1 & H2 & H3 & H4 & H5 & H6 & (H7 & H8 & H9 & H10 & H11) & H12). cbn in H8, H9. intuition. Qed.

(** sparse reads, shared by ASparse and by BitPacked patches *)
Lemma sparse_rd f idx vals off len fill : wf f (ASparse idx vals off len fill) -> rd_ok idx -> se_ok idx -> rd_ok vals ->
  rd_ok (ASparse idx vals off len fill).
Proof.
  intros Hw Hri Hsi (Hv1 & Hv2 & Hv3).
  pose proof Hw as Hw'. cbn [wf] in Hw.
  destruct Hw as (Hwi & Hwv & Hdi & Hlen & Hss & Hs & Hrng & Hmax & Hfill & Hflat & _).
  assert (E : forall i, i < len -> sparse_search_index idx (reads idx) off i =
     Ok (spec_search (map (fun z => Z.compare z (Z.of_nat (off + i))) (ints (logical idx))) Left)).
  { intros i Hi. destruct Hss as [Hss Hc]. unfold sparse_search_index. eapply se_nonnull; eauto; [apply ssorted_sorted; exact Hs| |].
    - unfold in_range. change (pmin U64) with 0%Z. lia.
    - destruct (Nat.eq_dec (alen idx) 0) as [Z0|Z0]; [|auto]. right. intros C. apply (Hc Z0 _ C). lia. }
  assert (L : forall i, i < len -> nth i (logical (ASparse idx vals off len fill)) VNull =
     match pos_of (Z.of_nat (off + i)) (ints (logical idx)) with Some k => nth k (logical vals) VNull | None => fill end).
  { intros i Hi. cbn [logical]. rewrite nth_tab by auto. reflexivity. }
  assert (K : forall i k, pos_of (Z.of_nat (off + i)) (ints (logical idx)) = Some k -> k < alen vals).
  { intros i k Hk. apply pos_of_some in Hk. rewrite ints_length, logical_length in Hk. lia. }
  repeat split; intros i Hi; cbn [alen] in Hi; rewrite (L i Hi); cbn [reads sparse_reads r_valid r_sat r_satu];
    rewrite (E i Hi); cbn [expect bind]; rewrite (search_left_pos _ _ Hs);
    destruct (pos_of _ _) as [k|] eqn:Ek; auto; intros; first [apply Hv1|apply Hv3]; eauto.
Qed.

Lemma map_ext_nth_tab {A B} (g : A -> B) l d : map g l = tab (length l) (fun i => g (nth i l d)).
Proof.
  apply nth_error_ext. intros i. rewrite nth_error_tab. destruct (Nat.ltb_spec i (length l)).
  - rewrite nth_error_map, nth_error_nth' with (d := d) by auto. reflexivity.
  - apply nth_error_None. rewrite map_length. lia.
Qed.

Lemma valid_prefix (l : list bool) n (g : nat -> Z) :
  length l = n -> sorted_nl (map zopt (tab n (fun i => if nth i l false then VInt (g i) else VNull))) ->
  forall i, i < n -> nth i l false = (i <? count (fun b => b) l).
Proof.
  intros Hl (vs & k & E & _). set (m := length vs).
  assert (n = m + k) as Hn.
  { apply (f_equal (@length _)) in E. rewrite map_length, tab_length, app_length, map_length, repeat_length in E. exact E. }
  assert (A : forall i, i < n -> nth i l false = (i <? m)).
  { intros i Hi. apply (f_equal (fun x => nth i x None)) in E.
    rewrite map_nth_lt with (d := VNull) in E by (rewrite tab_length; auto). rewrite nth_tab in E by auto.
    destruct (Nat.ltb_spec i m).
    - rewrite app_nth1 in E by (rewrite map_length; fold m; lia). rewrite map_nth_lt with (d := 0%Z) in E by (fold m; lia).
      destruct (nth i l false); [reflexivity|discriminate].
    - rewrite app_nth2 in E by (rewrite map_length; fold m; lia).
      destruct (nth i l false); [|reflexivity]. cbn [zopt] in E.
      rewrite nth_repeat in E. discriminate. }
  assert (l = repeat true m ++ repeat false k) as ->.
  { apply nth_ext with (d := false) (d' := false); [rewrite app_length, !repeat_length; lia|].
    intros i Hi. rewrite A by lia. destruct (Nat.ltb_spec i m).
    - rewrite app_nth1 by (rewrite repeat_length; lia). rewrite nth_indep with (d' := true) by (rewrite repeat_length; lia).
      rewrite nth_repeat. reflexivity.
    - rewrite app_nth2 by (rewrite repeat_length; lia). rewrite nth_repeat. reflexivity. }
  intros i Hi. rewrite A by auto. rewrite count_app, count_repeat_true, count_repeat_false by reflexivity. f_equal. lia.
Qed.

Lemma combine_map {A B} (g : A -> B) l : combine l (map g l) = map (fun x => (x, g x)) l.
Proof. induction l; cbn; f_equal; auto. Qed.

Lemma mapM_map {A B C} (h : B -> result C) (g : A -> B) l : mapM h (map g l) = mapM (fun x => h (g x)) l.
Proof. induction l as [|x r IH]; cbn; [reflexivity|]. destruct (h (g x)); cbn; rewrite ?IH; reflexivity. Qed.


Lemma view_bytes_at_ok bufs w : view_ok bufs w -> view_bytes_at bufs w = Ok (view_bytes bufs w).
Proof.
  destruct w as [s|size pre b off]; cbn [view_ok view_bytes_at view_bytes]; [reflexivity|]. intros (H1 & H2 & H3 & H4).
  rewrite nth_error_nth' with (d := []) by auto. destruct (Nat.ltb_spec (length (nth b bufs [])) (off + size)); [lia|reflexivity].
Qed.

Lemma vsel_null {v : validity} {i} {x : value} : (if vvalid v i then x else VNull) <> VNull ->
  vvalid v i = true /\ x <> VNull.
Proof. destruct (vvalid v i); [auto|congruence]. Qed.

(** The unsigned wrap used when reading offsets does nothing to non-negative 64-bit values. *)
Lemma in_range_nonneg_u64 p z : in_range p z -> (0 <= z)%Z -> is_int p = true -> wrap U64 z = z.
Proof.
  intros H Hz Hp. apply wrap_id. unfold in_range in *. change (pmin U64) with 0%Z. split; [lia|].
  assert (pmax p <= pmax U64)%Z by (destruct p; cbn in *; try discriminate; vm_compute; congruence). lia.
Qed.

Lemma for_step p ref shift z : is_int p = true -> (0 <= shift)%Z ->
  wrap p (wrap p (Z.shiftl (wrap p z) shift) + ref) = for_decode p ref shift z.
Proof.
  intros Hp Hs. unfold for_decode. apply wrap_eq.
  assert (2 ^ bits p <> 0)%Z as Hnz by (apply Z.pow_nonzero; pose proof (bits_pos p); lia).
  rewrite (Zplus_mod (wrap p _)), (Zplus_mod (wrap p (Z.shiftl z shift))). f_equal. f_equal.
  rewrite !wrap_mod, !Z.shiftl_mul_pow2 by auto. rewrite Zmult_mod, wrap_mod, <- Zmult_mod. reflexivity.
Qed.

Lemma for_decode_noshift p ref z : is_int p = true -> in_range p ref -> (0 <= z)%Z -> (z + ref <= pmax p)%Z ->
  for_decode p ref 0 z = (z + ref)%Z.
Proof.
  intros Hp Hr Hz Hm. unfold for_decode. rewrite Z.shiftl_0_r.
  rewrite <- (wrap_id p (z + ref)) by (unfold in_range in *; lia). apply wrap_eq.
  rewrite Zplus_mod, wrap_mod, <- Zplus_mod. reflexivity.
Qed.

Lemma in_range_nonneg p z : is_unsigned p = true -> in_range p z -> (0 <= z)%Z.
Proof. unfold in_range, pmin. destruct p; cbn; intros; try discriminate; lia. Qed.

Lemma is_unsigned_to_unsigned p : is_int p = true -> is_unsigned (to_unsigned p) = true.
Proof. destruct p; cbn; congruence. Qed.

Lemma unsigned_range_diff p v ref : is_int p = true -> in_range p v -> in_range p ref -> (ref <= v)%Z ->
  in_range (to_unsigned p) (v - ref).
Proof.
  unfold in_range, pmin, pmax. intros Hp Hv Hr Hle.
  pose proof (bits_pos p). pose proof (pow2_split (bits p) ltac:(lia)) as E.
  rewrite bits_to_unsigned.
  assert (is_signed (to_unsigned p) = false) as -> by (destruct p; cbn in *; congruence).
  destruct (is_signed p); lia.
Qed.

Lemma count_split_lt {A} (f : A -> bool) l1 l2 : count f (l1 ++ l2) = count f l1 + count f l2.
Proof. apply count_app. Qed.

Lemma nth_map_zopt l i : nth i (map zopt l) None = zopt (nth i l VNull).
Proof. exact (map_nth zopt l VNull i). Qed.

Section Patched.
  Variables (f : flags) (p : ptype) (packed : list Z) (bw : Z) (off len : nat) (v : validity).
  Variables (idx vals : array) (soff : nat).
  Let Q := ASparse idx vals soff len VNull.
  Let A := ABitPacked p packed bw off len v (Some Q).
  Hypothesis Hwf : wf f A.
  Hypothesis Hpx : patches_exact bw v idx vals soff.
  Hypothesis Hss : ss_ok vals.
  Hypothesis Hri : rd_ok idx.
  Hypothesis Hsv : se_ok vals.
  Hypothesis Hsorted : sorted_nl (map zopt (logical A)).

  Let il := ints (logical idx).
  Let vl := ints (logical vals).

  Let facts : alen idx = alen vals /\ alen idx <> 0 /\ ssortedZ il /\
    (forall j, j < alen idx -> (Z.of_nat soff <= nth j il 0 < Z.of_nat (soff + len))%Z) /\
    adtype idx = DPrim U64 false /\ adtype vals = DPrim p true /\ is_unsigned p = true /\
    (exists g, wf g idx) /\ (exists g, wf g vals) /\
    (forall j, j < alen vals -> nth j (logical vals) VNull = VInt (nth j vl 0%Z)).
  Proof.
    unfold A, Q in Hwf. pose proof (wf_patch_eq _ _ _ _ _ _ _ _ _ _ _ _ Hwf) as (Hq & _ & _ & Hne & Hnn & _ & Hdv).
    cbn [wf] in Hq. destruct Hq as (Hwi & Hwv & Hdi & Hl & _ & Hs & Hr & _).
    cbn [wf] in Hwf. destruct Hwf as (Hu & _).
    repeat split; auto; eauto.
    - pose proof (Forall_nth_lt _ _ 0%Z j Hr) as B. rewrite ints_length, logical_length in B. specialize (B H). apply B.
    - pose proof (Forall_nth_lt _ _ 0%Z j Hr) as B. rewrite ints_length, logical_length in B. specialize (B H). apply B.
    - intros j Hj. pose proof (vtyped_logical _ _ Hwv) as Ht. rewrite Hdv in Ht.
      unfold vl, ints. rewrite map_nth_lt with (d := VNull) by (rewrite logical_length; auto).
      pose proof (Forall_nth_lt _ _ VNull j Ht ltac:(rewrite logical_length; auto)) as T.
      pose proof (Forall_nth_lt _ _ VNull j Hnn ltac:(rewrite logical_length; auto)) as N.
      apply vtyped_prim in T. destruct T as [E|(z & -> & _)]; [congruence|reflexivity].
  Qed.

  Let elem (i : nat) : i < len -> nth i (logical A) VNull =
    if vvalid v i then
      match pos_of (Z.of_nat (soff + i)) il with Some k => VInt (nth k vl 0%Z) | None => VInt (nth (off + i) packed 0%Z) end
    else VNull.
  Proof.
    intros Hi. unfold A. cbn [logical]. rewrite nth_tab by auto. destruct (vvalid v i); [|reflexivity].
    unfold Q. cbn [logical]. rewrite nth_tab by auto. fold il.
    destruct (pos_of (Z.of_nat (soff + i)) il) as [k|] eqn:E; [|reflexivity].
    apply pos_of_some in E. destruct E as [E _]. unfold il in E. rewrite ints_length, logical_length in E.
    destruct facts as (F1 & _ & _ & _ & _ & _ & _ & _ & _ & F). rewrite F by lia. reflexivity.
  Qed.

  (** The patches are exactly the positions from [i0] up to the end of the valid prefix [m]. *)
  Lemma patched_shape : exists i0 m,
    i0 + alen idx = m /\ m <= len /\
    (forall i, i < len -> vvalid v i = (i <? m)) /\
    (forall t, t < alen idx -> nth t il 0%Z = Z.of_nat (soff + i0 + t)) /\
    (forall i, i < i0 -> nth i (logical A) VNull = VInt (nth (off + i) packed 0%Z) /\ (nth (off + i) packed 0 <= 2 ^ bw - 1)%Z) /\
    (forall t, t < alen idx -> nth (i0 + t) (logical A) VNull = VInt (nth t vl 0%Z)) /\
    (forall i, m <= i -> i < len -> nth i (logical A) VNull = VNull) /\ sortedZ vl.
  Proof.
    destruct facts as (Hl & Hne & Hs & Hr & Hdi & Hdv & Hu & _ & _ & Hv).
    destruct Hpx as [Hbig Hval]. fold vl in Hbig. fold il in Hval.
    assert (IL : length il = alen idx) by (unfold il; rewrite ints_length, logical_length; reflexivity).
    assert (VL : length vl = alen idx) by (unfold vl; rewrite ints_length, logical_length; auto).
    assert (LA : length (logical A) = len) by (rewrite logical_length; reflexivity).
    destruct Hsorted as (vs & k & E & Hvs).
    assert (len = length vs + k) as Hlen.
    { apply (f_equal (@length _)) in E. rewrite map_length, LA, app_length, map_length, repeat_length in E. exact E. }
    set (m := length vs) in *.
    assert (Em : forall i, i < len -> zopt (nth i (logical A) VNull) = if i <? m then Some (nth i vs 0%Z) else None).
    { intros i Hi. rewrite <- nth_map_zopt, E. destruct (Nat.ltb_spec i m).
      - rewrite app_nth1 by (rewrite map_length; fold m; lia). apply map_nth_lt. exact H.
      - rewrite app_nth2 by (rewrite map_length; fold m; lia). apply nth_repeat. }
    assert (Ev : forall i, i < len -> vvalid v i = (i <? m)).
    { intros i Hi. specialize (Em i Hi). rewrite (elem i Hi) in Em. destruct (vvalid v i).
      - destruct (i <? m); [reflexivity|]. destruct (pos_of _ _); discriminate.
      - destruct (i <? m); [discriminate|reflexivity]. }
    set (pos := fun t => Z.to_nat (nth t il 0%Z) - soff).
    assert (Hpos : forall t, t < alen idx -> nth t il 0%Z = Z.of_nat (soff + pos t) /\ pos t < m).
    { intros t Ht. specialize (Hr t Ht). pose proof (Forall_nth_lt _ _ 0%Z t Hval ltac:(lia)) as V. cbn beta in V.
      unfold pos. split; [lia|]. rewrite Ev in V by lia. apply Nat.ltb_lt in V. exact V. }
    assert (Hat : forall t, t < alen idx -> nth (pos t) (logical A) VNull = VInt (nth t vl 0%Z)).
    { intros t Ht. destruct (Hpos t Ht) as [P1 P2]. rewrite elem by lia. rewrite Ev by lia.
      destruct (Nat.ltb_spec (pos t) m); [|lia]. rewrite <- P1, pos_of_nth by (auto; lia). reflexivity. }
    assert (Hvsat : forall t, t < alen idx -> nth (pos t) vs 0%Z = nth t vl 0%Z).
    { intros t Ht. destruct (Hpos t Ht) as [P1 P2]. specialize (Em (pos t) ltac:(lia)). rewrite Hat in Em by auto.
      destruct (Nat.ltb_spec (pos t) m); [|lia]. cbn in Em. congruence. }
    assert (HB : Forall (fun z => (0 <= z < 2 ^ bw)%Z) packed /\ length packed = 1024 * ((len + off + 1023) / 1024)).
    { unfold A in Hwf. cbn [wf] in Hwf. tauto. }
    destruct HB as [HB HBl].
    (* every valid position from pos 0 on is patched *)
    assert (Hfull : forall i, pos 0 <= i -> i < m -> exists t, t < alen idx /\ pos t = i).
    { intros i Hi Him. destruct (pos_of (Z.of_nat (soff + i)) il) as [t|] eqn:Et.
      - apply pos_of_some in Et. destruct Et as [T1 T2]. exists t. split; [lia|]. unfold pos. lia.
      - exfalso. pose proof (elem i ltac:(lia)) as Ei. rewrite Ev, Et in Ei by lia.
        destruct (Nat.ltb_spec i m); [|lia]. specialize (Em i ltac:(lia)). rewrite Ei in Em.
        destruct (Nat.ltb_spec i m); [|lia]. cbn in Em. injection Em as Em.
        pose proof (sortedZ_nth vs (pos 0) i Hvs ltac:(lia) ltac:(fold m; lia)) as S.
        rewrite (Hvsat 0) in S by lia.
        pose proof (Forall_nth_lt _ _ 0%Z 0 Hbig ltac:(lia)) as B. cbn beta in B.
        pose proof (Forall_nth_lt _ _ 0%Z (off + i) HB ltac:(lia)) as C. cbn beta in C. lia. }
    assert (Hmono : forall t u, t < u -> u < alen idx -> pos t < pos u).
    { intros t u Htu Hu'. pose proof (ssortedZ_nth il t u Hs Htu ltac:(lia)).
      pose proof (Hpos t ltac:(lia)). pose proof (Hpos u ltac:(lia)). lia. }
    assert (Hcons : forall t, t < alen idx -> pos t = pos 0 + t).
    { induction t as [|t IH]; intros Ht; [lia|]. specialize (IH ltac:(lia)).
      pose proof (Hmono t (S t) ltac:(lia) Ht). pose proof (Hpos (S t) Ht) as [_ P].
      destruct (Hfull (pos 0 + S t) ltac:(lia) ltac:(lia)) as (u & Hu' & Eu).
      assert (u <= t \/ u = S t \/ S t < u) as [C|[->|C]] by lia; [| exact Eu |].
      - assert (u = t \/ u < t) as [->|C'] by lia; [lia|]. pose proof (Hmono u t C' ltac:(lia)). lia.
      - pose proof (Hmono (S t) u C Hu'). lia. }
    assert (Hm : pos 0 + alen idx = m).
    { pose proof (Hpos (alen idx - 1) ltac:(lia)) as [_ P]. rewrite Hcons in P by lia.
      destruct (Nat.eq_dec (pos 0 + alen idx) m) as [|C]; [assumption|].
      destruct (Hfull (m - 1) ltac:(lia) ltac:(lia)) as (u & Hu' & Eu). rewrite Hcons in Eu by lia. lia. }
    exists (pos 0), m. repeat split.
    - exact Hm.
    - lia.
    - exact Ev.
    - intros t Ht. destruct (Hpos t Ht) as [P _]. rewrite P, Hcons by auto. f_equal. lia.
    - rewrite elem by lia. rewrite Ev by lia. destruct (Nat.ltb_spec i m); [|lia].
      destruct (pos_of (Z.of_nat (soff + i)) il) as [t|] eqn:Et; [|reflexivity].
      apply pos_of_some in Et. destruct Et as [T1 T2]. pose proof (Hpos t ltac:(lia)) as [P _].
      rewrite Hcons in P by lia. lia.
    - pose proof (Forall_nth_lt _ _ 0%Z (off + i) HB ltac:(lia)) as C. cbn beta in C. lia.
    - intros t Ht. rewrite <- Hcons by auto. auto.
    - intros i Hi1 Hi2. rewrite elem, Ev by auto. destruct (Nat.ltb_spec i m); [lia|reflexivity].
    - apply sortedZ_of_nth. intros i j Hij Hj. rewrite <- !Hvsat by lia.
      apply sortedZ_nth; auto; [rewrite (Hcons i), (Hcons j) by lia; lia|]. fold m. apply Hpos. lia.
  Qed.

  Theorem patched_search x s : in_range p x ->
    search_sorted_ A (reads A) x s = Ok (spec_search (map (fun y => cmp_null_last y x) (map zopt (logical A))) s).
  Proof.
    intros Hx. destruct facts as (Hl & Hne & Hs & Hr & Hdi & Hdv & Hu & (gi & Hwi) & (gv & Hwv) & Hv).
    destruct patched_shape as (i0 & m & Hm & Hml & Ev & Hidx & Hlo & Hhi & Hnull & Hvs).
    assert (IL : length il = alen idx) by (unfold il; rewrite ints_length, logical_length; reflexivity).
    assert (VL : length vl = alen idx) by (unfold vl; rewrite ints_length, logical_length; auto).
    assert (LA : length (logical A) = len) by (rewrite logical_length; reflexivity).
    assert (Hread : forall t, t < alen idx -> scalar_at_ idx (reads idx) t = Ok (VInt (Z.of_nat (soff + i0 + t)))).
    { intros t Ht. rewrite rd_scalar_at_ by auto. destruct (nonnull_elem _ _ _ _ Hwi Hdi Ht) as [-> _]. fold il. rewrite Hidx by auto. reflexivity. }
    unfold search_sorted_. unfold A at 1. cbn [adtype]. rewrite (is_unsigned_int _ Hu). pose proof Hx as Hx'. apply in_rangeb_spec in Hx'. rewrite Hx'. cbn [andb].
    unfold A at 1. unfold Q. cbn [reads bp_reads r_ssf]. unfold bp_search. destruct (Z.ltb_spec (2 ^ bw - 1) x) as [Hbx|Hbx].
    - (* search the patches *)
      cbn [pr_R sparse_reads r_ssf]. unfold sparse_search.
      assert (ZV : map zopt (logical vals) = map Some vl).
      { apply nth_ext with (d := None) (d' := None); [rewrite !map_length, logical_length; lia|].
        intros j Hj. rewrite map_length, logical_length in Hj. rewrite nth_map_zopt, Hv by auto.
        rewrite map_nth_lt with (d := 0%Z) by lia. reflexivity. }
      assert (ZS : sorted_nl (map zopt (logical vals))).
      { rewrite ZV. exists vl, 0. cbn. rewrite app_nil_r. auto. }
      rewrite (se_full vals p true Hsv Hss Hdv (is_unsigned_int _ Hu) ZS x s Hx) by (left; lia). cbn [bind]. rewrite ZV, map_map. cbn [cmp_null_last].
      (* comparisons against the whole array *)
      assert (EQ : map (fun y => cmp_null_last y x) (map zopt (logical A)) =
                   repeat Lt i0 ++ map (fun z => Z.compare z x) vl ++ repeat Gt (len - m)).
      { apply nth_ext with (d := Gt) (d' := Gt); [rewrite !map_length, !app_length, !repeat_length, map_length; lia|].
        intros i Hi. rewrite !map_length in Hi. rewrite map_map. rewrite map_nth_lt with (d := VNull) by lia.
        destruct (Nat.ltb_spec i i0).
        - rewrite app_nth1 by (rewrite repeat_length; lia). rewrite nth_indep with (d' := Lt) by (rewrite repeat_length; lia).
          rewrite nth_repeat. destruct (Hlo i H) as [-> B]. cbn. apply Z.compare_lt_iff. lia.
        - rewrite app_nth2 by (rewrite repeat_length; lia). rewrite repeat_length. destruct (Nat.ltb_spec i m).
          + rewrite app_nth1 by (rewrite map_length; lia). rewrite map_nth_lt with (d := 0%Z) by lia.
            replace i with (i0 + (i - i0)) at 1 by lia. rewrite Hhi by lia. reflexivity.
          + rewrite app_nth2 by (rewrite map_length; lia). rewrite nth_repeat. rewrite Hnull by lia. reflexivity. }
      rewrite EQ. unfold spec_search. rewrite !count_app.
      rewrite !(count_repeat_false _ Gt) by reflexivity. rewrite (count_repeat_true (fun c => match c with Lt => true | _ => false end) Lt) by reflexivity.
      rewrite (count_repeat_false (fun c => match c with Eq => true | _ => false end) Lt) by reflexivity.
      rewrite !Nat.add_0_r. cbn [Nat.add].
      set (lt := count (fun c => match c with Lt => true | _ => false end) (map _ vl)).
      set (eq := count (fun c => match c with Eq => true | _ => false end) (map _ vl)).
      assert (lt + eq <= alen idx) as Hle.
      { unfold lt, eq. rewrite !count_map, <- VL. clear. unfold count. induction vl as [|z r IH]; cbn; [lia|].
        destruct (z ?= x)%Z; cbn; lia. }
      destruct (Nat.eqb_spec eq 0) as [E0|E0].
      + unfold to_offsets_index. rewrite Hread by lia. cbn [bind to_usize].
        rewrite (proj2 (Z.leb_le _ _)) by lia. cbn [bind]. rewrite Nat2Z.id.
        destruct (Nat.eqb_spec lt 0).
        * destruct (Nat.ltb_spec (soff + i0 + (lt - 1)) soff); [lia|]. do 2 f_equal. lia.
        * destruct (Nat.ltb_spec (soff + i0 + (lt - 1) + 1) soff); [lia|]. do 2 f_equal. lia.
      + assert (match s with Left => lt | Right => lt + eq end <= alen idx) as B by (destruct s; lia).
        set (r := match s with Left => lt | Right => lt + eq end) in *.
        unfold to_offsets_index.
        assert ((if r =? alen idx then r - 1 else r) < alen idx) as B2 by (destruct (Nat.eqb_spec r (alen idx)); lia).
        rewrite Hread by exact B2. cbn [bind to_usize]. rewrite (proj2 (Z.leb_le _ _)) by lia. cbn [bind]. rewrite Nat2Z.id.
        match goal with |- context [if ?k <? soff then _ else _] => assert (k = soff + (i0 + r)) as -> by (destruct (Nat.eqb_spec r (alen idx)); lia) end.
        destruct (Nat.ltb_spec (soff + (i0 + r)) soff); [lia|]. do 2 f_equal. unfold r. destruct s; lia.
    - (* search the packed prefix *)
      unfold bp_searcher. cbn [pr_idx pr_Ri pr_off]. unfold sparse_min_index.
      destruct (Nat.eqb_spec (alen idx) 0) as [E0|_]; [congruence|].
      rewrite Hread by lia. cbn [expect bind to_usize]. rewrite (proj2 (Z.leb_le _ _)) by lia. cbn [expect bind]. rewrite Nat2Z.id.
      destruct (Nat.ltb_spec (soff + i0 + 0) soff); [lia|]. cbn [bind].
      replace (soff + i0 + 0 - soff) with i0 by lia.
      apply sse_gen; [exact Hsorted|rewrite map_length, LA; reflexivity|].
      intros i Hi. rewrite map_length, LA in Hi. rewrite nth_map_zopt.
      assert (Hfn : i0 <= match v with VNonNull | VAllValid => len | VAllInvalid => 0 | VBits l => count (fun b => b) l end).
      { pose proof Hwf as W. unfold A in W. cbn [wf] in W. destruct W as (_ & _ & _ & _ & _ & Hvw & _).
        destruct v as [| | |bs]; cbn [vvalid vwf] in *; try lia.
        - specialize (Ev i0 ltac:(lia)). destruct (Nat.ltb_spec i0 m); [discriminate|lia].
        - assert (bs = repeat true m ++ repeat false (len - m)) as ->.
          { apply nth_ext with (d := false) (d' := false); [rewrite app_length, !repeat_length; lia|].
            intros j Hj. rewrite Ev by lia. destruct (Nat.ltb_spec j m).
            - rewrite app_nth1 by (rewrite repeat_length; lia). rewrite nth_indep with (d' := true) by (rewrite repeat_length; lia).
              rewrite nth_repeat. reflexivity.
            - rewrite app_nth2 by (rewrite repeat_length; lia). rewrite nth_repeat. reflexivity. }
          rewrite count_app, count_repeat_true, count_repeat_false by reflexivity. lia. }
      rewrite Nat.min_l by exact Hfn. destruct (Nat.leb_spec i0 i).
      + f_equal. destruct (Nat.ltb_spec i m).
        * replace i with (i0 + (i - i0)) by lia. rewrite Hhi by lia. cbn. symmetry. apply Z.compare_gt_iff.
          destruct Hpx as [Hbig _]. fold vl in Hbig. pose proof (Forall_nth_lt _ _ 0%Z (i - i0) Hbig ltac:(lia)) as B. cbn beta in B. lia.
        * rewrite Hnull by lia. reflexivity.
      + destruct (Hlo i ltac:(lia)) as [-> _]. replace (i + off) with (off + i) by lia. reflexivity.
  Qed.
End Patched.

(** Constants of positive length. *)
Lemma const_search_ok d x n p nn v s : adtype (AConst d x n) = DPrim p nn -> is_int p = true -> in_range p v ->
  vtyped d x -> n <> 0 ->
  search_sorted_ (AConst d x n) (reads (AConst d x n)) v s =
  Ok (spec_search (map (fun y => cmp_null_last y v) (map zopt (logical (AConst d x n)))) s).
Proof.
  cbn [adtype]. intros -> Hp Hv Ht Hn. unfold search_sorted_. cbn [adtype]. rewrite Hp. apply in_rangeb_spec in Hv. rewrite Hv.
  cbn [andb reads const_reads r_ssf logical]. f_equal. unfold spec_search. rewrite !map_map, !count_map.
  apply vtyped_prim in Ht. destruct Ht as [->|(z & -> & _)]; cbn [cmp_val zopt cmp_null_last const_search].
  - rewrite !count_repeat_false by reflexivity. reflexivity.
  - destruct (Z.compare_spec z v) as [->|L|G].
    + rewrite count_repeat_true by (cbn; rewrite Z.compare_refl; reflexivity).
      rewrite count_repeat_false by (cbn; rewrite Z.compare_refl; reflexivity).
      destruct (Nat.eqb_spec n 0); [congruence|]. cbn [const_search]. destruct s; reflexivity.
    + rewrite count_repeat_false by (cbn; rewrite (proj2 (Z.compare_lt_iff z v) L); reflexivity).
      rewrite count_repeat_true by (cbn; rewrite (proj2 (Z.compare_lt_iff z v) L); reflexivity). reflexivity.
    + rewrite count_repeat_false by (cbn; rewrite (proj2 (Z.compare_gt_iff z v)) by lia; reflexivity).
      rewrite count_repeat_false by (cbn; rewrite (proj2 (Z.compare_gt_iff z v)) by lia; reflexivity). reflexivity.
Qed.

(** Frame of reference: decoding without wrap-around, and the search in terms of quotient and remainder. *)
Lemma for_decode_exact p ref sh z : is_int p = true -> in_range p ref -> (0 <= sh)%Z -> (0 <= z)%Z -> (z * 2 ^ sh + ref <= pmax p)%Z ->
  for_decode p ref sh z = (z * 2 ^ sh + ref)%Z.
Proof.
  intros Hp Hr Hs Hz Hm. unfold for_decode. rewrite Z.shiftl_mul_pow2 by exact Hs.
  assert (0 <= 2 ^ sh)%Z by (apply Z.pow_nonneg; lia).
  rewrite <- (wrap_id p (z * 2 ^ sh + ref)) by (unfold in_range in *; nia). apply wrap_eq.
  rewrite Zplus_mod, wrap_mod, <- Zplus_mod. reflexivity.
Qed.

Lemma for_search_eq p e R r sh x s : is_int p = true -> (0 <= sh < bits p)%Z -> sh = 0%Z \/ is_unsigned p = true ->
  in_range p x -> in_range p r -> (r <= x)%Z ->
  for_search p e R r sh x s =
  (if ((x - r) mod 2 ^ sh =? 0)%Z then search_sorted_ e R ((x - r) / 2 ^ sh)%Z s
   else do q <- search_sorted_ e R ((x - r) / 2 ^ sh + 1)%Z Left; Ok (NotFound (to_index q))) /\
  in_range (to_unsigned p) ((x - r) / 2 ^ sh)%Z /\
  (((x - r) mod 2 ^ sh <> 0)%Z -> in_range (to_unsigned p) ((x - r) / 2 ^ sh + 1)%Z).
Proof.
  intros Hp Hsh Hc Hx Hr Hrx. unfold for_search. destruct (Z.ltb_spec x r); [lia|].
  pose proof (unsigned_range_diff p x r Hp Hx Hr Hrx) as Hd.
  destruct (Z.eq_dec sh 0) as [->|Hne].
  - rewrite Z.pow_0_r, Z.mod_1_r, Z.div_1_r, Z.eqb_refl. split; [|split; [exact Hd|congruence]].
    rewrite Z.shiftr_0_r, Z.shiftl_0_r.
    assert (wrap p (wrap p (wrap p (x - r)) + r) = x) as ->.
    { rewrite wrap_wrap by reflexivity. rewrite <- (wrap_id p x Hx) at 2. apply wrap_eq.
      rewrite Zplus_mod, wrap_mod, <- Zplus_mod. f_equal. lia. }
    rewrite Z.eqb_refl. cbv zeta. rewrite wrap_wrap by apply bits_to_unsigned. rewrite wrap_id by exact Hd.
    destruct (search_sorted_ e R (x - r) s) as [[i|i]| |]; reflexivity.
  - destruct Hc as [|Hu]; [contradiction|].
    assert (to_unsigned p = p) as Eu by (destruct p; cbn in Hu; try discriminate; reflexivity). rewrite Eu in *.
    assert (pmin p = 0)%Z as P0 by (destruct p; cbn in Hu; try discriminate; reflexivity).
    assert (2 <= 2 ^ sh)%Z as H2 by (change 2%Z with (2 ^ 1)%Z at 1; apply Z.pow_le_mono_r; lia).
    pose proof (Z.div_mod (x - r) (2 ^ sh) ltac:(lia)) as DM. pose proof (Z.mod_pos_bound (x - r) (2 ^ sh) ltac:(lia)) as MB.
    assert (0 <= (x - r) / 2 ^ sh)%Z as Q0 by (apply Z.div_pos; lia).
    rewrite (wrap_id p (x - r) Hd). rewrite Z.shiftr_div_pow2, Z.shiftl_mul_pow2 by lia.
    set (t := ((x - r) / 2 ^ sh)%Z) in *. set (m := ((x - r) mod 2 ^ sh)%Z) in *. unfold in_range in *. rewrite P0 in *.
    rewrite (wrap_id p (t * 2 ^ sh)) by (unfold in_range; rewrite P0; nia).
    rewrite (wrap_id p (t * 2 ^ sh + r)) by (unfold in_range; rewrite P0; nia).
    assert (RI : (0 <= t <= pmax p)%Z) by nia.
    assert (RI1 : m <> 0%Z -> (0 <= t + 1 <= pmax p)%Z) by (intros; nia).
    split; [|auto].
    destruct (Z.eqb_spec m 0) as [M0|M0].
    + replace (t * 2 ^ sh + r =? x)%Z with true by (symmetry; apply Z.eqb_eq; lia).
      cbv zeta. rewrite wrap_id by (unfold in_range; rewrite P0; exact RI).
      destruct (search_sorted_ e R t s) as [[i|i]| |]; reflexivity.
    + replace (t * 2 ^ sh + r =? x)%Z with false by (symmetry; apply Z.eqb_neq; lia).
      cbv zeta. rewrite (wrap_id p (t + 1)) by (unfold in_range; rewrite P0; auto).
      rewrite wrap_id by (unfold in_range; rewrite P0; auto). destruct (search_sorted_ e R (t + 1) Left) as [[i|i]| |]; reflexivity.
Qed.

Theorem reads_ok a : forall f, wf f a -> rd_ok a /\ se_ok a.
Proof.
  induction a as [n|o b n v|p l v|u w b v|u o b v IHo|ns fls n v IHf|id st IHst|d x n|ix vs o n fl IHi IHv|d cs IHc
    |c vs IHc IHv|e vs v o n IHe IHv|p e r sh IHe|e IHe|p l bw o n v q IHq|l v] using array_ind_p; intros f Hwf.
  - (* Null *)
    assert (rd_ok (ANull n)) as Hr; [|split; [exact Hr|eapply se_generic; eauto]].
    repeat split; cbn; intros i Hi; rewrite nth_repeat; try reflexivity; congruence.
  - (* Bool *)
    assert (rd_ok (ABool o b n v)) as Hr; [|split; [exact Hr|eapply se_generic; eauto]].
    cbn [wf] in Hwf. destruct Hwf as (Ho & Hb & Hv).
    repeat split; cbn [alen logical reads bool_reads r_valid r_sat r_satu]; intros i Hi; rewrite nth_tab by auto.
    + rewrite (vvalid_r_ok v n) by auto. destruct (vvalid v i); reflexivity.
    + intros Hn. apply vsel_null in Hn. destruct Hn as [-> _]. rewrite nth_error_nth' with (d := false) by lia. reflexivity.
    + intros Hn _. apply vsel_null in Hn. destruct Hn as [-> _]. rewrite nth_error_nth' with (d := false) by lia. reflexivity.
  - (* Prim *)
    cbn [wf] in Hwf. destruct Hwf as [Hl Hv]. split.
    + repeat split; cbn [alen logical reads prim_reads r_valid r_sat r_satu]; intros i Hi; rewrite nth_tab by auto.
      * rewrite (vvalid_r_ok v (length l)) by auto. destruct (vvalid v i); reflexivity.
      * intros Hn. apply vsel_null in Hn. destruct Hn as [-> _]. rewrite nth_error_nth' with (d := 0%Z) by lia. reflexivity.
      * intros Hn _. apply vsel_null in Hn. destruct Hn as [-> _]. rewrite nth_error_nth' with (d := 0%Z) by lia. reflexivity.
    + intros _ p0 n Hd Hp Hs x s Hx spec. cbn [adtype] in Hd. injection Hd as <- Hn. exists spec. split; [|auto]. unfold spec. clear spec.
      unfold search_sorted_. cbn [adtype]. rewrite Hp. apply in_rangeb_spec in Hx. rewrite Hx. cbn [andb].
      cbn [reads prim_reads r_ssf]. unfold prim_search.
      assert (LEN : length l = length (map zopt (logical (APrim p l v)))) by (rewrite map_length, logical_length; reflexivity).
      assert (NTH : forall i, i < length l -> nth i (map zopt (logical (APrim p l v))) None =
                 if vvalid v i then Some (nth i l 0%Z) else None).
      { intros i Hi. rewrite map_nth_lt with (d := VNull) by (rewrite logical_length; auto).
        cbn [logical]. rewrite nth_tab by auto. destruct (vvalid v i); reflexivity. }
      destruct v as [| | |bs]; cbn [vvalid] in NTH.
      * apply sse_gen; auto. intros i Hi. rewrite <- LEN in Hi. rewrite NTH by auto. reflexivity.
      * apply sse_gen; auto. intros i Hi. rewrite <- LEN in Hi. rewrite NTH by auto. reflexivity.
      * assert (map zopt (logical (APrim p l VAllInvalid)) = repeat None (length l)) as ->.
        { apply nth_ext with (d := None) (d' := None); [rewrite repeat_length; auto|].
          intros i Hi. rewrite <- LEN in Hi. rewrite NTH by auto. rewrite nth_repeat. reflexivity. }
        unfold spec_search. rewrite !count_map. cbn [cmp_null_last].
        rewrite !count_repeat_false by reflexivity. reflexivity.
      * apply sse_gen; auto. intros i Hi. rewrite <- LEN in Hi. rewrite NTH by auto. destruct (nth i bs false); reflexivity.
  - (* View *)
    assert (rd_ok (AView u w b v)) as Hr; [|split; [exact Hr|eapply se_generic; eauto]].
    pose proof Hwf as Hwf'. cbn [wf] in Hwf. destruct Hwf as (Ho & Hv & Hu & _).
    assert (S : forall i, i < length w -> vvalid v i = true ->
      view_sat u w b i = Ok (VBytes (view_bytes b (nth i w (VInl []))))).
    { intros i Hi Ev. unfold view_sat. rewrite nth_error_nth' with (d := VInl []) by auto.
      rewrite view_bytes_at_ok by (apply Forall_nth_lt; auto). cbn [bind]. unfold bytes_scalar.
      destruct u; [|reflexivity]. rewrite Hu; [reflexivity|reflexivity|].
      cbn [logical]. apply In_tab. exists i. rewrite Ev. auto. }
    repeat split; cbn [alen]; intros i Hi; cbn [logical reads view_reads r_valid r_sat r_satu]; rewrite nth_tab by auto.
    + rewrite (vvalid_r_ok v (length w)) by auto. destruct (vvalid v i); reflexivity.
    + intros Hn. apply vsel_null in Hn. destruct Hn as [Ev _]. rewrite Ev. auto.
    + intros Hn _. apply vsel_null in Hn. destruct Hn as [Ev _]. rewrite Ev, S by auto. reflexivity.
  - (* VarBin *)
    assert (rd_ok (AVarBin u o b v)) as Hr; [|split; [exact Hr|eapply se_generic; eauto]].
    pose proof Hwf as Hwf'. cbn [wf] in Hwf. destruct Hwf as (Hwo & (p & Hd & Hp) & H1 & Hs & Hb & Hv & Hu & _).
    destruct (IHo _ Hwo) as [Hro _].
    assert (OFF : forall i, i < alen o -> varbin_offset_at o (reads o) i = Ok (nth i (ints (logical o)) 0%Z)).
    { intros i Hi. destruct (nonnull_elem f o p i Hwo Hd Hi) as [E R].
      assert (0 <= nth i (ints (logical o)) 0)%Z as P.
      { pose proof (Forall_nth_lt _ _ 0%Z i Hb ltac:(rewrite ints_length, logical_length; auto)) as B. cbn beta in B. lia. }
      unfold varbin_offset_at. pose proof (rd_scalar_at_ o i Hro Hi) as SA.
      destruct o; try (rewrite SA, E; rewrite (proj2 (Z.leb_le _ _)) by auto; reflexivity).
      (* primitive offsets: raw values *)
      assert (nth_error vals i = Some (nth i (ints (logical (APrim p0 vals v0))) 0%Z)) as ->.
      { cbn [adtype] in Hd. injection Hd as -> Hn. cbn [alen] in Hi. rewrite nth_error_nth' with (d := 0%Z) by auto. f_equal.
        unfold ints. cbn [logical]. rewrite map_nth_lt with (d := VNull) by (rewrite tab_length; auto). rewrite nth_tab by auto.
        destruct v0; try discriminate. reflexivity. }
      f_equal. eapply in_range_nonneg_u64; eauto. }
    assert (BY : forall i, i < alen o - 1 -> varbin_bytes_at o (reads o) b i =
       Ok (lslice b (nth i (nats (ints (logical o))) 0) (nth (i + 1) (nats (ints (logical o))) 0))).
    { intros i Hi. unfold varbin_bytes_at. rewrite !OFF by lia. cbn [bind]. unfold bytes_slice.
      assert (IL : length (ints (logical o)) = alen o) by (rewrite ints_length, logical_length; reflexivity).
      pose proof (Forall_nth_lt _ _ 0%Z i Hb ltac:(lia)) as B1.
      pose proof (Forall_nth_lt _ _ 0%Z (i + 1) Hb ltac:(lia)) as B2. cbn beta in B1, B2.
      pose proof (sortedZ_nth _ i (i + 1) Hs ltac:(lia) ltac:(lia)).
      match goal with |- context [if ?c then _ else _] => assert (c = false) as -> by lia end.
      unfold nats. rewrite !map_nth_lt with (d := 0%Z) by lia. reflexivity. }
    assert (S : forall i, i < alen o - 1 -> vvalid v i = true -> varbin_sat u o (reads o) b i =
       Ok (VBytes (lslice b (nth i (nats (ints (logical o))) 0) (nth (i + 1) (nats (ints (logical o))) 0)))).
    { intros i Hi Ev. unfold varbin_sat. rewrite BY by auto. cbn [bind]. unfold bytes_scalar.
      destruct u; [|reflexivity]. rewrite Hu; [reflexivity|reflexivity|].
      cbn [logical]. apply In_tab. exists i. rewrite Ev. rewrite nats_length, ints_length, logical_length. auto. }
    assert (LL : length (nats (ints (logical o))) - 1 = alen o - 1) by (rewrite nats_length, ints_length, logical_length; reflexivity).
    repeat split; cbn [alen]; intros i Hi; cbn [logical reads varbin_reads r_valid r_sat r_satu]; rewrite nth_tab by lia.
    + rewrite (vvalid_r_ok v (alen o - 1)) by auto. destruct (vvalid v i); reflexivity.
    + intros Hn. apply vsel_null in Hn. destruct Hn as [Ev _]. rewrite Ev. auto.
    + intros Hn _. apply vsel_null in Hn. destruct Hn as [Ev _]. rewrite Ev, S by auto. reflexivity.
  - (* Struct *)
    assert (rd_ok (AStruct ns fls n v)) as Hr; [|split; [exact Hr|eapply se_generic; eauto]].
    apply wf_struct_iff in Hwf. destruct Hwf as (Hn & Hv & Hf).
    repeat split; cbn [alen]; intros i Hi; cbn [logical reads struct_reads r_valid r_sat r_satu]; rewrite nth_tab by auto.
    + rewrite (vvalid_r_ok v n) by auto. destruct (vvalid v i); reflexivity.
    + intros Hne. apply vsel_null in Hne. destruct Hne as [-> _].
      rewrite combine_map, mapM_map. cbn [fst snd].
      rewrite mapM_ok_map with (g := fun x => nth i (logical x) VNull).
      * cbn [bind]. rewrite map_map. reflexivity.
      * intros x Hx. rewrite Forall_forall in Hf, IHf. destruct (Hf x Hx) as [Hw Hl].
        destruct (IHf x Hx f Hw) as [Hrx _]. apply rd_scalar_at_; [auto|lia].
    + cbn [adtype flat]. discriminate.
  - (* Ext *)
    assert (rd_ok (AExt id st)) as Hr; [|split; [exact Hr|eapply se_generic; eauto]].
    cbn [wf] in Hwf. destruct Hwf as [Hw _]. destruct (IHst _ Hw) as [Hrs _]. pose proof Hrs as (H1 & H2 & H3).
    repeat split; cbn [alen logical reads ext_reads r_valid r_sat r_satu]; intros i Hi; auto.
    + intros _. apply rd_scalar_at_; auto.
    + cbn [adtype flat]. discriminate.
  - (* Constant *)
    split.
    { repeat split; cbn [alen logical reads const_reads r_valid r_sat r_satu]; intros i Hi;
        rewrite nth_indep with (d' := x) by (rewrite repeat_length; auto); rewrite nth_repeat; reflexivity. }
    intros _ p0 n0 Hd Hp _ v s Hv spec. cbn [wf] in Hwf. destruct Hwf as [Ht _].
    destruct (Nat.eq_dec n 0) as [->|Hn].
    + cbn [adtype] in Hd. subst d. unfold search_sorted_. cbn [adtype]. rewrite Hp. apply in_rangeb_spec in Hv. rewrite Hv.
      cbn [andb reads const_reads r_ssf]. eexists. split; [reflexivity|].
      apply vtyped_prim in Ht. destruct Ht as [->|(z & -> & _)].
      * split; [reflexivity|]. intros _. reflexivity.
      * cbn [cmp_val]. unfold spec. cbn [logical repeat map]. destruct (Z.compare_spec z v) as [->|L|G]; cbn [const_search].
        -- split; [destruct s; reflexivity|]. cbn [alen cval]. intros [C|C]; congruence.
        -- split; [reflexivity|]. intros _. reflexivity.
        -- split; [reflexivity|]. intros _. reflexivity.
    + exists spec. split; [|auto]. eapply const_search_ok; eauto.
  - (* Sparse *)
    split; [|intros []].
    pose proof Hwf as Hwf'. cbn [wf] in Hwf. destruct Hwf as (Hwi & Hwv & _).
    destruct (IHi _ Hwi) as [Hri Hsi]. destruct (IHv _ Hwv) as [Hrv _]. eapply sparse_rd; eauto.
  - (* Chunked *)
    assert (rd_ok (AChunked d cs)) as Hr; [|split; [exact Hr|eapply se_generic; eauto]].
    cbn [wf] in Hwf. destruct Hwf as (Hc & _). apply wf_chunks_iff in Hc.
    assert (LENS : map (fun cr : array * reads_t => alen (fst cr)) (combine cs (map reads cs)) = map alen cs).
    { rewrite combine_map, map_map. reflexivity. }
    assert (LL : map (@length value) (map logical cs) = map alen cs).
    { rewrite map_map. apply map_ext. apply logical_length. }
    assert (K : forall i, i < list_sum (map alen cs) -> exists k o c, find_chunk_idx (map alen cs) i = Ok (k, o) /\
       nth_error (combine cs (map reads cs)) k = Some (c, reads c) /\ o < alen c /\ rd_ok c /\ adtype c = d /\
       nth i (concat (map logical cs)) VNull = nth o (logical c) VNull).
    { intros i Hi. destruct (find_chunk_idx_spec (map alen cs) i) as (k & o & E & Hk & Hs & _ & Ho); [lia| |].
      { destruct cs; [cbn in Hi; lia|discriminate]. }
      specialize (Ho Hi). rewrite map_length in Hk. rewrite map_nth_lt with (d := ANull 0) in Ho by auto.
      exists k, o, (nth k cs (ANull 0)).
      pose proof (Forall_nth_lt _ _ (ANull 0) k Hc Hk) as [Hw Hd]. pose proof (Forall_nth_lt _ _ (ANull 0) k IHc Hk) as IH.
      destruct (IH _ Hw) as [Hrk _].
      repeat (split; auto).
      - rewrite combine_map, nth_error_map, nth_error_nth' with (d := ANull 0) by auto. reflexivity.
      - rewrite <- Hs, <- LL. rewrite nth_concat; [|rewrite map_length; auto|].
        + rewrite map_nth_lt with (d := ANull 0) by auto. reflexivity.
        + rewrite map_nth_lt with (d := ANull 0) by auto. rewrite logical_length. auto. }
    repeat split; cbn [alen]; intros i Hi; destruct (K i Hi) as (k & o & c & E & Ec & Ho & Hrc & Hd & En);
      cbn [logical reads chunked_reads r_valid r_sat r_satu]; cbv zeta; rewrite LENS, E; cbn [bind fst snd]; rewrite Ec, En; cbn [fst snd].
    + apply Hrc; auto.
    + intros _. apply rd_scalar_at_; auto.
    + intros Hn Hfl. cbn [adtype] in Hfl. rewrite <- Hd in Hfl. apply Hrc; auto.
  - (* Dict *)
    assert (rd_ok (ADict c vs)) as Hr; [|split; [exact Hr|eapply se_generic; eauto]].
    cbn [wf] in Hwf. destruct Hwf as (Hwc & Hwv & (p & Hd & Hu) & Hb & Hfl & _).
    destruct (IHc _ Hwc) as [Hrc _]. destruct (IHv _ Hwv) as [(Hv1 & Hv2 & Hv3) _]. pose proof Hrc as (Hc1 & Hc2 & Hc3).
    assert (C : forall i, i < alen c -> exists z, nth i (logical c) VNull = VInt z /\ (0 <= z)%Z /\ Z.to_nat z < alen vs /\
        nth i (logical (ADict c vs)) VNull = nth (Z.to_nat z) (logical vs) VNull).
    { intros i Hi. destruct (nonnull_elem f c p i Hwc Hd Hi) as [E R].
      exists (nth i (ints (logical c)) 0%Z).
      assert (0 <= nth i (ints (logical c)) 0 < Z.of_nat (alen vs))%Z as P.
      { apply Forall_nth_lt with (P := fun z => (0 <= z < Z.of_nat (alen vs))%Z); [auto|]. rewrite ints_length, logical_length. auto. }
      split; [exact E|]. split; [lia|]. split; [lia|].
      cbn [logical]. rewrite map_nth_lt with (d := VNull) by (rewrite logical_length; auto). rewrite E. reflexivity. }
    repeat split; cbn [alen]; intros i Hi; destruct (C i Hi) as (z & Ez & Pz & Lz & ->); cbn [reads dict_reads r_valid r_sat r_satu].
    + rewrite rd_scalar_at_, Ez by auto. cbn [expect bind to_usize]. rewrite (proj2 (Z.leb_le _ _)) by auto. cbn [expect bind]. auto.
    + intros Hn. rewrite rd_scalar_at_, Ez by auto. cbn [expect bind to_usize]. rewrite (proj2 (Z.leb_le _ _)) by auto. cbn [bind]. auto.
    + intros Hn _. rewrite Hc3 by (first [exact Hi|rewrite Ez; discriminate|rewrite Hd; reflexivity]). rewrite Ez. cbn [bind to_usize]. rewrite (proj2 (Z.leb_le _ _)) by auto. cbn [expect bind]. auto.
  - (* RunEnd *)
    assert (rd_ok (ARunEnd e vs v o n)) as Hr; [|split; [exact Hr|eapply se_generic; eauto]].
    pose proof Hwf as Hwf'. cbn [wf] in Hwf.
    destruct Hwf as (Hwe & Hwv & (p & Hd & Hu) & Hlen & Hss & Hs & Hnn & Hnu & Hv & Hfl & Hl & _).
    destruct (IHe _ Hwe) as [Hre Hse]. destruct (IHv _ Hwv) as [Hrv _].
    assert (F : forall i, i < n -> runend_find e (reads e) o i = Ok (run_index (ints (logical e)) (o + i)) /\
       run_index (ints (logical e)) (o + i) < alen vs).
    { intros i Hi. assert (run_index (ints (logical e)) (o + i) < alen vs) as Hlt.
      { rewrite <- Hlen, <- (logical_length e), <- ints_length.
        destruct (ints (logical e)) eqn:El; [lia|]. rewrite <- El in *. apply run_index_lt; [congruence|]. lia. }
      split; [|exact Hlt]. unfold runend_find.
      destruct (se_nonnull_index f e p Hwe Hse Hss Hd (is_unsigned_int _ Hu) (ssorted_sorted _ Hs) (Z.of_nat (i + o)) Right) as (rr & -> & ER & _).
      2:{ cbn [bind]. unfold to_ends_index. rewrite ER, search_right_run.
        replace (i + o) with (o + i) by lia. fold (run_index (ints (logical e)) (o + i)).
        destruct (Nat.eqb_spec (run_index (ints (logical e)) (o + i)) (alen e)); [lia|]. reflexivity. }
      1:{ (* the position fits the ends type because the last end exceeds it *)
        assert (ints (logical e) <> []) as Hne by (intros E0; rewrite E0 in Hl; lia).
        assert (in_range p (last (ints (logical e)) 0)%Z) as HL.
        { rewrite last_nth. rewrite ints_length, logical_length.
          assert (length (ints (logical e)) <> 0) by (destruct (ints (logical e)); [congruence|cbn; lia]).
          rewrite ints_length, logical_length in H. eapply nonnull_elem; eauto. lia. }
        destruct (ints (logical e)) eqn:El; [congruence|]. rewrite <- El in *.
        unfold in_range in *. assert (pmin p = 0)%Z by (destruct p; cbn in *; try discriminate; reflexivity). lia. } }
    assert (V : forall k, k < alen vs -> nth k (logical vs) VNull <> VNull).
    { intros k Hk. unfold non_null in Hnn. apply Forall_nth_lt; [exact Hnn|]. rewrite logical_length. auto. }
    repeat split; cbn [alen]; intros i Hi; cbn [logical reads runend_reads r_valid r_sat r_satu]; rewrite nth_tab by auto;
      destruct (F i Hi) as [Fi Li].
    + rewrite (vvalid_r_ok v n) by auto. destruct (vvalid v i) eqn:Ev; [|reflexivity].
      f_equal. symmetry. apply is_null_false. auto.
    + intros Hn. apply vsel_null in Hn. destruct Hn as [-> Hn]. rewrite Fi. cbn [bind]. apply rd_scalar_at_; auto.
    + intros Hn _. apply vsel_null in Hn. destruct Hn as [-> Hn]. rewrite Fi. cbn [expect bind]. apply Hrv; auto.
  - (* FoR *)
    pose proof Hwf as Hwf'. cbn [wf] in Hwf. destruct Hwf as (Hwe & Hp & (n & Hd) & Href & Hsh).
    destruct (IHe _ Hwe) as [Hre Hse]. pose proof Hre as (He1 & He2 & He3).
    pose proof (vtyped_logical e _ Hwe) as Hty. rewrite Hd in Hty.
    assert (T : forall i, i < alen e -> nth i (logical e) VNull = VNull \/
        exists z, nth i (logical e) VNull = VInt z /\ in_range (to_unsigned p) z).
    { intros i Hi. eapply vtyped_prim. apply Forall_nth_lt; [exact Hty|]. rewrite logical_length; auto. }
    assert (N : forall i, i < alen e -> nth i (logical (AFoR p e r sh)) VNull =
        match nth i (logical e) VNull with VInt z => VInt (for_decode p r sh z) | _ => VNull end).
    { intros i Hi. cbn [logical]. rewrite map_nth_lt with (d := VNull) by (rewrite logical_length; auto). reflexivity. }
    assert (SAT : forall i, i < alen e -> nth i (logical (AFoR p e r sh)) VNull <> VNull ->
        for_sat p r sh (reads e) i = Ok (nth i (logical (AFoR p e r sh)) VNull)).
    { intros i Hi Hn. rewrite N in * by auto. destruct (T i Hi) as [E|(z & E & Hz)]; rewrite E in *; [congruence|].
      unfold for_sat. rewrite He3 by (first [exact Hi|rewrite E; discriminate|rewrite Hd; reflexivity]). rewrite E. cbn [bind].
      rewrite for_step by (auto; lia). reflexivity. }
    split.
    + repeat split; cbn [alen]; intros i Hi; cbn [reads for_reads r_valid r_sat r_satu].
      * rewrite He1, N by auto. destruct (T i Hi) as [E|(z & E & Hz)]; rewrite E; reflexivity.
      * intros Hn. apply SAT; auto.
      * intros Hn _. apply SAT; auto.
    + intros Hss p0 n0 Hd0 _ Hs x s Hx spec. cbn [ss_ok] in Hss. destruct Hss as (Hsu & Hmax & Hss).
      cbn [adtype] in Hd0. injection Hd0 as <- _.
      unfold search_sorted_. cbn [adtype]. rewrite Hp. pose proof Hx as Hx'. apply in_rangeb_spec in Hx'. rewrite Hx'. cbn [andb].
      cbn [reads for_reads r_ssf].
      assert (P2 : (0 < 2 ^ sh)%Z) by (apply Z.pow_pos_nonneg; lia).
      assert (ZO : map zopt (logical (AFoR p e r sh)) = map (option_map (fun z => (z * 2 ^ sh + r)%Z)) (map zopt (logical e))).
      { cbn [logical]. rewrite !map_map. apply map_ext_in. intros y Hy. rewrite Forall_forall in Hty.
        pose proof (vtyped_prim _ _ _ (Hty y Hy)) as [->|(z & -> & Hz)]; [reflexivity|]. cbn [zopt option_map].
        f_equal. apply for_decode_exact; auto; [lia| |].
        - eapply in_range_nonneg; [|exact Hz]. apply is_unsigned_to_unsigned; auto.
        - apply Hmax. unfold ints. apply in_map_iff. exists (VInt z). auto. }
      assert (SE : sorted_nl (map zopt (logical e))).
      { rewrite ZO in Hs. destruct Hs as (vs & k & Evs & Hsv).
        exists (map (fun z => ((z - r) / 2 ^ sh)%Z) vs), k. split.
        - assert (map zopt (logical e) = map (option_map (fun z => ((z - r) / 2 ^ sh)%Z)) (map (option_map (fun z => (z * 2 ^ sh + r)%Z)) (map zopt (logical e)))) as ->.
          { rewrite !map_map. apply map_ext. intros y. destruct (zopt y); cbn [option_map]; [f_equal|reflexivity].
            replace (z * 2 ^ sh + r - r)%Z with (z * 2 ^ sh)%Z by lia. rewrite Z.div_mul by lia. reflexivity. }
          rewrite Evs, map_app, !map_map. f_equal. clear. induction k; cbn; [reflexivity|]. f_equal; auto.
        - clear - Hsv P2. induction vs as [|y ys IH]; cbn [map sortedZ] in *; [exact I|]. destruct Hsv as [H1 H2]. split; [|auto].
          intros w Hw. apply in_map_iff in Hw. destruct Hw as (w' & <- & Hw'). specialize (H1 w' Hw'). apply Z.div_le_mono; lia. }
      assert (NZ : forall y z, In y (logical e) -> zopt y = Some z -> (0 <= z)%Z).
      { intros y z Hy Ez. rewrite Forall_forall in Hty. pose proof (vtyped_prim _ _ _ (Hty y Hy)) as [->|(z' & -> & Hz)]; [discriminate|].
        cbn in Ez. injection Ez as <-. eapply in_range_nonneg; [|exact Hz]; apply is_unsigned_to_unsigned; auto. }
      destruct (Z.ltb_spec x r) as [Hlt|Hge].
      * (* below the reference *)
        exists spec. split; [|auto]. unfold for_search. destruct (Z.ltb_spec x r); [|lia].
        f_equal. unfold spec. rewrite ZO. unfold spec_search. rewrite !count_map.
        assert (forall P : comparison -> bool, P Gt = false ->
           count (fun y => P (cmp_null_last (option_map (fun z => (z * 2 ^ sh + r)%Z) (zopt y)) x)) (logical e) = 0) as C0.
        { intros P HP. apply count_zero. intros y Hy. destruct (zopt y) as [z|] eqn:Ez; cbn [option_map cmp_null_last]; [|exact HP].
          pose proof (NZ y z Hy Ez).
          rewrite (proj2 (Z.compare_gt_iff (z * 2 ^ sh + r) x)) by nia. exact HP. }
        rewrite (C0 (fun c => match c with Eq => true | _ => false end)) by reflexivity.
        rewrite (C0 (fun c => match c with Lt => true | _ => false end)) by reflexivity. reflexivity.
      * destruct (for_search_eq p e (reads e) r sh x s Hp Hsh Hsu Hx Href Hge) as (EQ & R1 & R2). rewrite EQ. clear EQ.
        pose proof (Z.div_mod (x - r) (2 ^ sh) ltac:(lia)) as DM. pose proof (Z.mod_pos_bound (x - r) (2 ^ sh) ltac:(lia)) as MB.
        assert (IU : is_int (to_unsigned p) = true) by (apply is_unsigned_int, is_unsigned_to_unsigned; auto).
        set (t := ((x - r) / 2 ^ sh)%Z) in *. set (m := ((x - r) mod 2 ^ sh)%Z) in *.
        destruct (Z.eqb_spec m 0) as [M0|M0].
        -- destruct (Hse Hss (to_unsigned p) n Hd IU SE t s R1) as (q & Eq & Iq & Xq). exists q. split; [exact Eq|].
           assert (map (fun y => cmp_null_last y x) (map zopt (logical (AFoR p e r sh))) =
                   map (fun y => cmp_null_last y t) (map zopt (logical e))) as ES.
           { rewrite ZO, map_map. apply map_ext. intros [y|]; cbn; [|reflexivity].
             destruct (Z.compare_spec (y * 2 ^ sh + r) x), (Z.compare_spec y t); (reflexivity || nia). }
           unfold spec. rewrite ES. split; [exact Iq|]. cbn [alen cval]. intros C. apply Xq. destruct C as [C|C]; [auto|]. right.
           intros Ct. apply C. rewrite Ct. f_equal. unfold in_range in Hx. rewrite for_decode_exact by (auto; try lia; unfold t; apply Z.div_pos; lia). lia.
        -- destruct (Hse Hss (to_unsigned p) n Hd IU SE (t + 1)%Z Left (R2 M0)) as (q & Eq & Iq & _). rewrite Eq. cbn [bind].
           rewrite spec_search_left_index in Iq.
           assert (NotFound (to_index q) = spec) as ->; [|exists spec; auto].
           unfold spec, spec_search. rewrite ZO, !count_map. rewrite Iq, !count_map.
           assert (count (fun y => match cmp_null_last (option_map (fun z => (z * 2 ^ sh + r)%Z) (zopt y)) x with Eq => true | _ => false end) (logical e) = 0) as ->.
           { apply count_zero. intros y _. destruct (zopt y) as [z|]; cbn [option_map cmp_null_last]; [|reflexivity].
             destruct (Z.compare_spec (z * 2 ^ sh + r) x) as [E0|E0|E0]; try reflexivity. exfalso. assert (z <= t \/ t + 1 <= z)%Z as [Q|Q] by lia; nia. }
           cbn [Nat.eqb]. f_equal. apply count_ext. intros y _. destruct (zopt y) as [z|]; cbn [option_map cmp_null_last]; [|reflexivity].
           destruct (Z.compare_spec (z * 2 ^ sh + r) x), (Z.compare_spec z (t + 1)); (reflexivity || (exfalso; assert (z <= t \/ t + 1 <= z)%Z as [Q|Q] by lia; nia)).
  - (* ZigZag *)
    assert (rd_ok (AZigZag e)) as Hr; [|split; [exact Hr|eapply se_generic; eauto]].
    cbn [wf] in Hwf. destruct Hwf as (Hwe & (p & n & Hd & Hu) & _).
    destruct (IHe _ Hwe) as [(He1 & He2 & He3) _].
    pose proof (vtyped_logical e _ Hwe) as Hty. rewrite Hd in Hty.
    assert (T : forall i, i < alen e -> nth i (logical e) VNull = VNull \/ exists z, nth i (logical e) VNull = VInt z /\ in_range p z).
    { intros i Hi. eapply vtyped_prim. apply Forall_nth_lt; [exact Hty|]. rewrite logical_length; auto. }
    assert (N : forall i, i < alen e -> nth i (logical (AZigZag e)) VNull =
        match nth i (logical e) VNull with VInt z => VInt (zz_decode z) | _ => VNull end).
    { intros i Hi. cbn [logical]. rewrite map_nth_lt with (d := VNull) by (rewrite logical_length; auto). reflexivity. }
    assert (SAT : forall i, i < alen e -> nth i (logical (AZigZag e)) VNull <> VNull ->
        zz_sat (reads e) i = Ok (nth i (logical (AZigZag e)) VNull)).
    { intros i Hi Hn. rewrite N in * by auto. destruct (T i Hi) as [E|(z & E & Hz)]; rewrite E in *; [congruence|].
      unfold zz_sat. rewrite He3 by (first [exact Hi|rewrite E; discriminate|rewrite Hd; reflexivity]). rewrite E. reflexivity. }
    repeat split; cbn [alen]; intros i Hi; cbn [reads zz_reads r_valid r_sat r_satu].
    + rewrite He1, N by auto. destruct (T i Hi) as [E|(z & E & Hz)]; rewrite E; reflexivity.
    + intros Hn. apply SAT; auto.
    + intros Hn _. rewrite SAT by auto. reflexivity.
  - (* BitPacked *)
    pose proof Hwf as Hwf'. cbn [wf] in Hwf. destruct Hwf as (Hu & Hb & Ho & Hlen & Hr & Hv & Hq & _).
    assert (LP : forall i, i < n -> nth_error l (o + i) = Some (nth (o + i) l 0%Z)).
    { intros i Hi. apply nth_error_nth'. lia. }
    split.
    + destruct q as [q|].
      * destruct Hq as (Hwq & Hlq & Hdq & _ & Hsp).
        destruct q as [| | | | | | | |idx vals soff slen fill| | | | | | |]; try contradiction.
        destruct Hsp as (-> & _ & Hnn & (w & Hw)). destruct IHq as [IHq _]. destruct (IHq _ Hwq) as [(Hq1 & Hq2 & Hq3) _].
        cbn [alen] in Hlq. subst slen. cbn [alen] in Hq1, Hq2, Hq3.
        pose proof (vtyped_logical _ _ Hwq) as Hty. rewrite Hdq in Hty.
        set (Q := ASparse idx vals soff n VNull) in *.
        assert (T : forall i, i < n -> nth i (logical Q) VNull = VNull \/ exists z, nth i (logical Q) VNull = VInt z /\ in_range p z).
        { intros i Hi. eapply vtyped_prim. apply Forall_nth_lt; [exact Hty|]. rewrite logical_length; auto. }
        assert (SAT : forall i, i < n -> vvalid v i = true ->
          bp_sat l o (vnullable v) (Some (PatchReads idx (reads idx) soff (reads Q))) i =
          Ok (match nth i (logical Q) VNull with VInt z => VInt z | _ => VInt (nth (o + i) l 0%Z) end)).
        { intros i Hi Ev. unfold bp_sat. cbn [pr_R]. rewrite Hq1 by auto. cbn [bind].
          destruct (T i Hi) as [E|(z & E & Hz)].
          - rewrite E. cbn [is_null negb]. rewrite LP by auto. reflexivity.
          - rewrite E. cbn [is_null negb]. rewrite Hq3 by (first [exact Hi|rewrite E; discriminate|rewrite Hdq; reflexivity]). rewrite E. cbn [bind]. reflexivity. }
        repeat split; cbn [alen]; intros i Hi; cbn [logical reads bp_reads r_valid r_sat r_satu]; rewrite nth_tab by auto;
          fold Q; change (sparse_reads idx vals (reads idx) (reads vals) soff VNull) with (reads Q).
        -- rewrite (vvalid_r_ok v n) by auto. destruct (vvalid v i); [|reflexivity]. destruct (nth i (logical Q) VNull); reflexivity.
        -- intros Hn. apply vsel_null in Hn. destruct Hn as [Ev _]. rewrite Ev. auto.
        -- intros Hn _. apply vsel_null in Hn. destruct Hn as [Ev _]. rewrite Ev, SAT by auto. reflexivity.
      * assert (P0 : forall i, nth i ([] : list value) VNull = VNull) by (intros [|]; reflexivity).
        repeat split; cbn [alen]; intros i Hi; cbn [logical reads bp_reads r_valid r_sat r_satu]; rewrite nth_tab, P0 by auto.
        -- rewrite (vvalid_r_ok v n) by auto. destruct (vvalid v i); reflexivity.
        -- intros Hn. apply vsel_null in Hn. destruct Hn as [Ev _]. rewrite Ev. unfold bp_sat. rewrite LP by auto. reflexivity.
        -- intros Hn _. apply vsel_null in Hn. destruct Hn as [Ev _]. rewrite Ev. unfold bp_sat. rewrite LP by auto. reflexivity.
    + intros Hss p0 n0 Hd _ Hs x s Hx spec. cbn [ss_ok] in Hss. cbn [adtype] in Hd. injection Hd as <- _. exists spec. split; [|auto].
      destruct q as [q|].
      { destruct q as [| | | | | | | |idx vals soff slen fill| | | | | | |]; try contradiction. destruct Hss as [Hpx Hss].
        destruct (wf_patch_eq _ _ _ _ _ _ _ _ _ _ _ _ Hwf') as (Wq & <- & -> & _). cbn [wf] in Wq. destruct Wq as (Wi & Wv & _).
        destruct IHq as [_ [IHi IHv]]. destruct (IHi _ Wi) as [Hri _]. destruct (IHv _ Wv) as [_ Hsv].
        eapply patched_search; eauto. }
      assert (P0 : forall i, nth i ([] : list value) VNull = VNull) by (intros [|]; reflexivity).
      unfold search_sorted_. cbn [adtype]. rewrite (is_unsigned_int _ Hu). apply in_rangeb_spec in Hx. rewrite Hx. cbn [andb].
      cbn [reads bp_reads r_ssf]. unfold bp_search, bp_searcher. cbn [bind].
      apply sse_gen; [exact Hs|rewrite map_length, logical_length; reflexivity|].
      intros i Hi. rewrite map_length, logical_length in Hi. cbn [alen] in Hi.
      rewrite map_nth_lt with (d := VNull) by (rewrite logical_length; auto). cbn [logical]. rewrite nth_tab, P0 by auto.
      replace (i + o) with (o + i) by lia.
      destruct v as [| | |bs]; cbn [vvalid].
      * destruct (Nat.leb_spec (Nat.min n n) i); [lia|]. reflexivity.
      * destruct (Nat.leb_spec (Nat.min n n) i); [lia|]. reflexivity.
      * destruct (Nat.leb_spec (Nat.min n 0) i); [|lia]. reflexivity.
      * cbn [vwf] in Hv. assert (V : forall j, j < n -> nth j bs false = (j <? count (fun b => b) bs)).
        { apply valid_prefix with (g := fun j => nth (o + j) l 0%Z); [auto|].
          cbn [logical vvalid] in Hs. erewrite tab_ext; [exact Hs|]. intros j Hj. cbn beta. rewrite P0. reflexivity. }
        rewrite V by auto. pose proof (count_le_length (fun b => b) bs).
        destruct (Nat.leb_spec (Nat.min n (count (fun b => b) bs)) i), (Nat.ltb_spec i (count (fun b => b) bs)); (reflexivity || lia).
  - (* ByteBool *)
    assert (rd_ok (AByteBool l v)) as Hr; [|split; [exact Hr|eapply se_generic; eauto]].
    cbn [wf] in Hwf. destruct Hwf as (Hb & Hv & _).
    repeat split; cbn [alen logical reads bytebool_reads r_valid r_sat r_satu]; intros i Hi; rewrite nth_tab by auto.
    + rewrite (vvalid_r_ok v (length l)) by auto. destruct (vvalid v i); reflexivity.
    + intros Hn. apply vsel_null in Hn. destruct Hn as [-> _]. rewrite nth_error_nth' with (d := 0%Z) by lia. reflexivity.
    + intros Hn _. apply vsel_null in Hn. destruct Hn as [-> _]. rewrite nth_error_nth' with (d := 0%Z) by lia. reflexivity.
Qed.
