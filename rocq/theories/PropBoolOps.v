(** C51: inverting boolean arrays, and the positions of their set values. *)
From Verif Require Import Base Spec Arr ArrRead ArrWf ArrReadProofs ArrSlice ArrSliceProofs IntEnc RunEnc ArrOps OpsBase OpsCanon OpsCanon2 OpsFlat OpsMain PropOps PropIntEnc BoolOps PropIter PropOpsX.

(** * Specification *)
Definition not_value (x : value) : value := match x with VBool b => VBool (negb b) | x => x end.
(** In increasing order, every row that is true, no row that is false; rows that are null may or may not be there. *)
Fixpoint increasing (l : list nat) : Prop := match l with [] => True | x :: r => Forall (fun y => x < y) r /\ increasing r end.
Definition are_the_set_positions (rows : list value) (l : list nat) : Prop :=
  increasing l /\ Forall (fun i => i < length rows /\ nth i rows VNull <> VBool false) l /\
  forall i, i < length rows -> nth i rows VNull = VBool true -> In i l.
(** The positions in ranges (start, end). *)
Definition positions_in (l : list (nat * nat)) : list nat := concat (map (fun se => seq (fst se) (snd se - fst se)) l).

(** * Inversion *)
Theorem invert_negates_every_row :
  forall f a r n, wf f a -> ArrWf.fc f = true -> adtype a = DBool n -> invert a = Ok r ->
  logical r = map not_value (logical a) /\ wf f0 r /\ (adtype r = adtype a \/ exists d x k, a = AConst d x k /\ adtype r = DBool false).
Proof.
  intros f a r n W C T E. unfold invert in E. destruct (negb (is_bool_view a)); [discriminate E|].
  assert (forall l v, into_bool (canon a) = Ok (l, v) -> try_bool 0 (map negb l) (length l) v = Ok r -> logical r = map not_value (logical a) /\ wf f0 r /\ adtype r = adtype a) as D.
  { intros l v EI TB. pose proof (g_canon _ _ (ops_correct (depth a) a (le_n _)) f W C) as H. fold (canon a) in H.
    pose proof (into_bool_ok f a _ n H T) as H1. rewrite EI in H1. cbn [outc fst snd] in H1. destruct H1 as (L1 & N & V & LG).
    unfold try_bool in TB. destruct (vfits v (length l)); [|discriminate TB]. injection TB as <-. change (skipn (8 * (0 / 8)) (map negb l)) with (map negb l). change (0 mod 8) with 0.
    split; [|split].
    - rewrite LG, map_tab. cbn [logical]. apply tab_ext. intros i Hi. destruct (vvalid v i); [|reflexivity]. cbn [not_value]. f_equal. apply (map_nth_lt negb _ false). exact Hi.
    - cbn [wf]. rewrite map_length. split; [lia|]. split; [lia|exact V].
    - cbn [adtype]. rewrite T, N. reflexivity. }
  destruct a as [|o b k v|p l v|u w b v|u o b v|ns fls k v|id st|d x k|ix vs o k fl|d cs|c vs|e vs v o k|p e rf sh|e|p l bw o k v q|l v];
    try (destruct (into_bool (canon _)) as [[l' v']| |] eqn:EI; cbn [bind] in E; [|discriminate E|discriminate E]; destruct (D l' v' eq_refl E) as (D1 & D2 & D3); auto; fail).
  cbn [adtype] in T. subst d. destruct x as [|b| | |]; try discriminate E; injection E as <-.
  - split; [|split; [|left; reflexivity]].
    + cbn [logical]. clear. induction k as [|k IH]; cbn [repeat map]; [reflexivity|]. rewrite <- IH. reflexivity.
    + destruct W as [W _]. split; [exact W|]. discriminate.
  - split; [|split; [|right; eauto]].
    + cbn [logical]. clear. induction k as [|k IH]; cbn [repeat map]; [reflexivity|]. rewrite <- IH. reflexivity.
    + split; [exact I|discriminate].
Qed.
Print Assumptions invert_negates_every_row.
Theorem invert_succeeds :
  forall f a n, wf f a -> ArrWf.fc f = true -> ArrWf.fC f = true -> adtype a = DBool n -> is_bool_view a = true -> exists r, invert a = Ok r.
Proof.
  intros f a n W C CC T B. unfold invert. rewrite B. cbn [negb].
  assert (exists r, (do (l, v) <- into_bool (canon a); try_bool 0 (map negb l) (length l) v) = Ok r) as D.
  { pose proof (g_canon _ _ (ops_correct (depth a) a (le_n _)) f W C) as H. fold (canon a) in H.
    pose proof (into_bool_ok f a _ n H T) as H1. unfold outc in H1. destruct (into_bool (canon a)) as [[l v]| |]; [|contradiction (H1 CC)|contradiction (H1 CC)].
    cbn [fst snd] in H1. destruct H1 as (_ & _ & V & _). cbn [bind]. unfold try_bool. rewrite (proj2 (vfits_vwf v (length l)) V). eauto. }
  destruct a as [|o b k v|p l v|u w b v|u o b v|ns fls k v|id st|d x k|ix vs o k fl|d cs|c vs|e vs v o k|p e rf sh|e|p l bw o k v q|l v]; try exact D.
  cbn [adtype] in T. subst d. destruct W as [Tx _]. destruct x as [|b| | |]; try contradiction Tx; eauto.
Qed.
Print Assumptions invert_succeeds.
(** Twice is the identity on the rows. *)
Theorem invert_twice :
  forall f a r s n, wf f a -> ArrWf.fc f = true -> adtype a = DBool n -> invert a = Ok r -> invert r = Ok s -> logical s = logical a.
Proof.
  intros f a r s n W C T E1 E2. destruct (invert_negates_every_row f a r n W C T E1) as (L1 & W1 & D1).
  assert (forall x, In x (logical a) -> not_value (not_value x) = x) as NN by (intros [|b| | |]; cbn [not_value]; rewrite ?Bool.negb_involutive; reflexivity).
  assert (logical s = map not_value (logical r)) as L2.
  { assert (exists k, adtype r = DBool k) as [k Tr] by (destruct D1 as [-> |(_ & _ & _ & _ & ->)]; eauto). clear -W1 E1 E2 Tr W.
    unfold invert in E1. destruct (negb (is_bool_view a)); [discriminate E1|].
    assert ((exists o b m v, r = ABool o b m v) \/ (exists d x m, r = AConst d x m)) as [(o & b & m & v & ->)|(d & x & m & ->)].
    { destruct a as [|? ? ? ?|? ? ?|? ? ? ?|? ? ? ?|? ? ? ?|? ?|d x k0|? ? ? ? ?|? ?|? ?|? ? ? ? ?|? ? ? ?|?|? ? ? ? ? ? ?|? ?];
      try (destruct (into_bool (canon _)) as [[l' v']| |]; cbn [bind] in E1; try discriminate E1; unfold try_bool in E1; destruct (vfits v' (length l')); try discriminate E1; injection E1 as <-; left; eauto; fail).
      right. destruct x; try discriminate E1; injection E1 as <-; eauto. }
    - assert (wf (Flags false false true false false false false false false false) (ABool o b m v)) as W2 by exact W1.
      exact (proj1 (invert_negates_every_row _ _ _ _ W2 eq_refl Tr E2)).
    - cbn [adtype] in Tr. subst d. unfold invert in E2. cbn [is_bool_view adtype is_bool negb] in E2. destruct x; try discriminate E2; injection E2 as <-; cbn [logical];
        clear; (induction m as [|m IH]; cbn [repeat map]; [reflexivity|rewrite <- IH; reflexivity]). }
  rewrite L2, L1, map_map. rewrite <- (map_id (logical a)) at 2. apply map_ext_in. exact NN.
Qed.
Print Assumptions invert_twice.
(** A nullable constant loses its nullability. *)
Theorem invert_keeps_the_type_refuted :
  ~ (forall f a r n, wf f a -> adtype a = DBool n -> invert a = Ok r -> adtype r = adtype a).
Proof. intros H. specialize (H f0 (AConst (DBool true) (VBool true) 2) _ true (conj I (fun C => match Bool.diff_false_true C with end)) eq_refl eq_refl). discriminate H. Qed.
Print Assumptions invert_keeps_the_type_refuted.

(** * Positions of set values *)
Lemma increasing_seq s n : increasing (seq s n).
Proof. revert s; induction n as [|n IH]; intros s; cbn [seq increasing]; [exact I|]. split; [|apply IH]. apply Forall_forall. intros y H. apply in_seq in H. lia. Qed.
Lemma increasing_filter g l : increasing l -> increasing (filter g l).
Proof.
  induction l as [|x l IH]; cbn [increasing filter]; [auto|]. intros [H1 H2]. destruct (g x); [|auto]. cbn [increasing]. split; [|auto].
  apply Forall_forall. intros y Hy. apply filter_In in Hy. rewrite Forall_forall in H1. apply H1, Hy.
Qed.
(** Boolean arrays whose bits start at the first bit of the buffer, and constants. *)
Theorem set_positions_are_the_true_rows :
  forall f a l n, wf f a -> adtype a = DBool n ->
  match a with ABool o _ _ _ => o = 0 | AConst _ _ _ => True | _ => False end ->
  set_positions a = Ok l -> are_the_set_positions (logical a) l.
Proof.
  intros f a l n W T K E. destruct a as [|o b k v|p l0 v|u w b v|u o b v|ns fls k v|id st|d x k|ix vs o k fl|d cs|c vs|e vs v o k|p e rf sh|e|p l0 bw o k v q|l0 v]; try contradiction K.
  - subst o. unfold set_positions in E. cbn [is_bool_view negb] in E. injection E as <-. destruct W as (_ & W2 & _). unfold are_the_set_positions. rewrite logical_length. cbn [alen].
    assert (forall i, i < k -> nth i (logical (ABool 0 b k v)) VNull = if vvalid v i then VBool (nth i b false) else VNull) as N by (intros i Hi; cbn [logical]; rewrite nth_tab by exact Hi; reflexivity).
    assert (forall i, i < k -> nth i (lslice b 0 k) false = nth i b false) as NB by (intros i Hi; rewrite nth_lslice by lia; reflexivity).
    assert (length (lslice b 0 k) = k) as LB by (rewrite lslice_length; lia).
    unfold set_indices. rewrite LB. split; [apply increasing_filter, increasing_seq|]. split.
    + apply Forall_forall. intros i Hi. apply filter_In in Hi. destruct Hi as [Hi Hb]. apply in_seq in Hi. split; [lia|]. rewrite N by lia. rewrite NB in Hb by lia. rewrite Hb. destruct (vvalid v i); discriminate.
    + intros i Hi Hv. rewrite N in Hv by exact Hi. apply filter_In. split; [apply in_seq; lia|]. rewrite NB by exact Hi. destruct (vvalid v i); [congruence|discriminate Hv].
  - cbn [adtype] in T. subst d. destruct W as [Tx _]. unfold set_positions in E. cbn [is_bool_view adtype is_bool negb] in E. unfold are_the_set_positions. cbn [logical]. rewrite repeat_length.
    assert (forall i, i < k -> nth i (repeat x k) VNull = x) as N by (intros i Hi; rewrite (nth_indep _ VNull x) by (rewrite repeat_length; exact Hi); apply nth_repeat).
    destruct x as [|[|]| | |]; try contradiction Tx; injection E as <-.
    + split; [exact I|]. split; [constructor|]. intros i Hi H. rewrite N in H by exact Hi. discriminate H.
    + split; [apply increasing_seq|]. split.
      * apply Forall_forall. intros i Hi. apply in_seq in Hi. split; [lia|]. rewrite N by lia. discriminate.
      * intros i Hi _. apply in_seq. lia.
    + split; [exact I|]. split; [constructor|]. intros i Hi H. rewrite N in H by exact Hi. discriminate H.
Qed.
Print Assumptions set_positions_are_the_true_rows.
(** The ranges hold the same positions in the same order. *)
Lemma slices_positions l : forall pos s, (match s with Some x => x <= pos | None => True end) ->
  positions_in (set_slices_from pos s l) = match s with Some x => seq x (pos - x) | None => [] end ++ map (fun i => pos + i) (set_indices l).
Proof.
  induction l as [|b l IH]; intros pos s H.
  - destruct s as [x|]; cbn [set_slices_from]; unfold positions_in; cbn [map concat fst snd]; rewrite ?app_nil_r; reflexivity.
  - rewrite set_indices_cons, map_app, map_map. assert (map (fun i => pos + S i) (set_indices l) = map (fun i => S pos + i) (set_indices l)) as -> by (apply map_ext; intros i; lia).
    destruct b, s as [x|]; cbn [set_slices_from].
    + rewrite IH by lia. replace (S pos - x) with (pos - x + 1) by lia. rewrite seq_app. cbn [seq map app]. rewrite <- app_assoc. replace (x + (pos - x)) with pos by lia. rewrite Nat.add_0_r. reflexivity.
    + rewrite IH by lia. replace (S pos - pos) with 1 by lia. cbn [seq map app]. rewrite Nat.add_0_r. reflexivity.
    + change (positions_in ((x, pos) :: set_slices_from (S pos) None l)) with (seq x (pos - x) ++ positions_in (set_slices_from (S pos) None l)). rewrite IH by exact I. reflexivity.
    + rewrite IH by exact I. reflexivity.
Qed.
Theorem set_ranges_cover_the_set_positions :
  forall a l q, set_positions a = Ok l -> set_ranges a = Ok q -> positions_in q = l.
Proof.
  intros a l q E1 E2. unfold set_positions, set_ranges in *. destruct (negb (is_bool_view a)); [discriminate E1|].
  destruct a as [|o b k v|p l0 v|u w b v|u o b v|ns fls k v|id st|d x k|ix vs o k fl|d cs|c vs|e vs v o k|p e rf sh|e|p l0 bw o k v q0|l0 v]; try discriminate E2.
  - injection E1 as <-. injection E2 as <-. unfold set_slices. rewrite slices_positions by exact I. cbn [app]. rewrite <- (map_id (set_indices _)) at 2. apply map_ext. intros i. reflexivity.
  - destruct x as [|[|]| | |]; try discriminate E2; injection E1 as <-; injection E2 as <-; try reflexivity. unfold positions_in. cbn [map concat fst snd]. rewrite app_nil_r. f_equal. lia.
Qed.
Print Assumptions set_ranges_cover_the_set_positions.

(** * What they do not do *)
(** A boolean array sliced inside a byte: its positions are those of the bits before the slice. *)
Theorem set_positions_of_a_slice_refuted :
  ~ (forall f o b k v l, wf f (ABool o b k v) -> set_positions (ABool o b k v) = Ok l -> are_the_set_positions (logical (ABool o b k v)) l).
Proof.
  intros H. specialize (H f0 1 [true; false; false] 2 VNonNull [0]). destruct H as (_ & H & _); [|reflexivity|].
  - cbn. lia.
  - inversion H as [|? ? [_ H1] _]. cbn in H1. congruence.
Qed.
Print Assumptions set_positions_of_a_slice_refuted.
(** A sparse array's positions are those of its patches, true or false; a fill value of true is not seen. *)
Theorem set_positions_of_sparse_refuted :
  ~ (forall f a l, wf f a -> adtype a = DBool false -> set_positions a = Ok l -> Forall (fun i => nth i (logical a) VNull <> VBool false) l) /\
  ~ (forall f a l, wf f a -> adtype a = DBool false -> set_positions a = Ok l -> forall i, nth i (logical a) VNull = VBool true -> In i l).
Proof.
  assert (forall x, wf f0 (ASparse (APrim U64 [1%Z] VNonNull) (ABool 0 [false] 1 VNonNull) 0 3 (VBool x))) as W.
  { intros x. cbn [wf]. repeat split; try reflexivity; try discriminate; try (repeat constructor; cbn; (lia || discriminate)); try (cbn; lia); try (intros; discriminate); try (cbn; intuition discriminate); try (cbn; intros; contradiction). }
  split; intros H.
  - specialize (H f0 _ [1] (W false) eq_refl eq_refl). inversion H as [|? ? H1 _]. cbn in H1. congruence.
  - specialize (H f0 _ [1] (W true) eq_refl eq_refl 0 eq_refl). destruct H as [H|H]; [discriminate H|destruct H].
Qed.
Print Assumptions set_positions_of_sparse_refuted.
(** Chunked and byte-bool arrays panic. *)
Theorem set_positions_total_refuted :
  ~ (forall f a n, wf f a -> adtype a = DBool n -> set_positions a <> Panic).
Proof.
  intros H. apply (H f0 (AByteBool [1%Z] VNonNull) false); [|reflexivity|reflexivity]. cbn [wf]. repeat split; try (repeat constructor; cbn; lia); try discriminate; auto.
Qed.
Print Assumptions set_positions_total_refuted.

(** * Concrete cases *)
Example positions_ex : set_positions (ABool 0 [true; true; false; true; true] 4 (VBits [true; false; true; true])) = Ok [0; 1; 3] /\
  set_ranges (ABool 0 [true; true; false; true; true] 4 (VBits [true; false; true; true])) = Ok [(0, 2); (3, 4)] /\ wf f0 (ABool 0 [true; true; false; true; true] 4 (VBits [true; false; true; true])).
Proof. split; [reflexivity|]. split; [reflexivity|]. cbn. lia. Qed.
Definition chunked_bools : array := AChunked (DBool true) [ABool 3 [false; false; false; true; false] 2 (VBits [true; false]); AByteBool [1; 0]%Z VAllValid].
Example invert_ex : wf f_any chunked_bools /\ adtype chunked_bools = DBool true /\ is_bool_view chunked_bools = true /\
  rmap logical (invert chunked_bools) = Ok [VBool false; VNull; VBool false; VBool true].
Proof. split; [wf_tac|]. repeat split. Qed.
