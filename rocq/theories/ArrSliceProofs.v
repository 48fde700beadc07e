(** Slicing: the result denotes the slice of the meaning, stays well-formed, and keeps its data type. *)
From Verif Require Import Base Spec SearchModel SearchProofs Arr ArrRead ArrWf ArrReadProofs ArrSlice.

(** Outcome of an operation: a successful result satisfies [P]; a failure is only possible outside [T]. *)
Definition outc {A} (T : Prop) (r : result A) (P : A -> Prop) : Prop :=
  match r with Ok b => P b | _ => ~ T end.

Lemma outc_bind {A B} (T : Prop) (r : result A) (P : A -> Prop) (k : A -> result B) (Q : B -> Prop) :
  outc T r P -> (forall b, r = Ok b -> P b -> outc T (k b) Q) -> outc T (bind r k) Q.
Proof. destruct r; cbn; auto. Qed.
Lemma outc_weaken {A} (T T' : Prop) (r : result A) (P P' : A -> Prop) :
  outc T r P -> (T' -> T) -> (forall b, r = Ok b -> P b -> P' b) -> outc T' r P'.
Proof. destruct r; cbn; auto. Qed.
Lemma outc_ok {A} (T : Prop) (b : A) (P : A -> Prop) : P b -> outc T (Ok b) P.
Proof. auto. Qed.
Lemma outc_impl {A} (T : Prop) (r : result A) (P P' : A -> Prop) :
  outc T r P -> (forall b, P b -> P' b) -> outc T r P'.
Proof. destruct r; cbn; auto. Qed.

(** * Slices of lists *)
Lemma lslice_tab {A} n (g : nat -> A) i j : j <= n -> lslice (tab n g) i j = tab (j - i) (fun k => g (i + k)).
Proof.
  intros H. apply nth_error_ext. intros k. rewrite nth_error_lslice, !nth_error_tab.
  destruct (Nat.ltb_spec k (j - i)); [|reflexivity]. destruct (Nat.ltb_spec (i + k) n); [reflexivity|lia].
Qed.
Lemma lslice_repeat {A} (x : A) n i j : j <= n -> lslice (repeat x n) i j = repeat x (j - i).
Proof.
  intros H. apply nth_error_ext. intros k. rewrite nth_error_lslice.
  destruct (Nat.ltb_spec k (j - i)).
  - rewrite !nth_error_repeat by lia. reflexivity.
  - symmetry. apply nth_error_None. rewrite repeat_length. lia.
Qed.
Lemma In_lslice {A} (l : list A) i j x : In x (lslice l i j) -> In x l.
Proof. unfold lslice. intros H. revert H. rewrite <- (firstn_skipn i l) at 2. intros H. apply in_or_app. right.
  rewrite <- (firstn_skipn (j - i) (skipn i l)). apply in_or_app. left. exact H. Qed.
Lemma ints_lslice l i j : ints (lslice l i j) = lslice (ints l) i j.
Proof. unfold ints. rewrite lslice_map. reflexivity. Qed.
Lemma nats_lslice l i j : nats (lslice l i j) = lslice (nats l) i j.
Proof. unfold nats. rewrite lslice_map. reflexivity. Qed.
Lemma sortedZ_lslice l i j : sortedZ l -> sortedZ (lslice l i j).
Proof.
  intros H. unfold lslice. rewrite <- (firstn_skipn i l) in H. apply sortedZ_app in H. destruct H as (_ & H & _).
  rewrite <- (firstn_skipn (j - i) (skipn i l)) in H. apply sortedZ_app in H. tauto.
Qed.
Lemma ssortedZ_lslice l i j : ssortedZ l -> ssortedZ (lslice l i j).
Proof.
  intros H. apply ssortedZ_of_nth. intros a b Hab Hb.
  assert (length (lslice l i j) <= j - i) by (unfold lslice; rewrite firstn_length; lia).
  assert (i + length (lslice l i j) <= length l \/ length (lslice l i j) = 0).
  { unfold lslice. rewrite firstn_length, skipn_length. lia. }
  rewrite !nth_lslice by lia. apply ssortedZ_nth; auto; lia.
Qed.
Lemma ssortedb_spec l : ssortedb l = true <-> ssortedZ l.
Proof.
  induction l as [|x r IH]; cbn [ssortedb ssortedZ]; [tauto|]. rewrite andb_true_iff, IH, forallb_forall.
  split; intros [H1 H2]; split; auto; intros y Hy; specialize (H1 y Hy); lia.
Qed.
Lemma non_null_lslice l i j : non_null l -> non_null (lslice l i j).
Proof. apply Forall_lslice. Qed.

(** * Validity *)
Lemma vfits_vwf v n : vfits v n = true <-> vwf v n.
Proof. destruct v; cbn; rewrite ?Nat.eqb_eq; intuition. Qed.

Definition same_null (v w : validity) : Prop :=
  vnullable w = vnullable v /\ (v = VNonNull <-> w = VNonNull).

Lemma vslice_ok v n i j : vwf v n -> i <= j -> j <= n ->
  exists w, vslice v i j = Ok w /\ vwf w (j - i) /\ vnullable w = vnullable v /\
    (forall k, k < j - i -> vvalid w k = vvalid v (i + k)) /\ (v = VNonNull <-> w = VNonNull) /\ vfits w (j - i) = true.
Proof.
  intros Hw Hij Hj. destruct v as [| | |l]; cbn [vslice vwf] in *.
  1-3: eexists; split; [reflexivity|]; repeat split; auto.
  unfold slice_bad. match goal with |- context [if ?c then _ else _] => assert (c = false) as -> by lia end.
  eexists; split; [reflexivity|]. cbn [vwf vvalid vnullable vfits]. rewrite lslice_length by lia.
  repeat split; try discriminate; [|apply Nat.eqb_refl].
  intros k Hk. rewrite nth_lslice by lia. reflexivity.
Qed.

(** * The statement *)
Definition Tslice (f : flags) (i j : nat) : Prop := fs f = true \/ (fn f = true /\ i < j).

(** Extra information about the children of a sliced sparse array. *)
Definition sparse_shape (a b : array) (i j : nat) : Prop :=
  match a with
  | ASparse idx vals off _ fill =>
      exists idx' vals' s e, b = ASparse idx' vals' (off + i) (j - i) fill /\ adtype vals' = adtype vals /\
        logical vals' = lslice (logical vals) s e /\ logical idx' = lslice (logical idx) s e /\ (ss_ok vals -> ss_ok vals')
  | _ => True
  end.

Definition slice_post (f : flags) (a : array) (i j : nat) (b : array) : Prop :=
  wf f b /\ logical b = lslice (logical a) i j /\ adtype b = adtype a /\ (ss_ok a -> ss_ok b) /\ (ss64_ok a -> ss64_ok b) /\
  sparse_shape a b i j /\ cval b = cval a.

(** Constants under frames of reference. *)
Lemma cval_logical a z : cval a = Some z -> logical a = repeat (VInt z) (alen a).
Proof.
  revert z. induction a as [| | | | | | |d x n| | | | |p e r sh IHe| | |] using array_ind'; intros z; cbn [cval]; try discriminate.
  - destruct x; try discriminate. intros [= ->]. reflexivity.
  - destruct (cval e) as [w|] eqn:E; [|discriminate]. intros [= <-]. cbn [logical alen]. rewrite (IHe w eq_refl).
    clear. induction (alen e); cbn; [reflexivity|]. f_equal; auto.
Qed.
Lemma cval_repeat a z : cval a = Some z -> ints (logical a) = repeat z (alen a).
Proof. intros H. rewrite (cval_logical a z H). unfold ints. clear. induction (alen a); cbn; [reflexivity|]. f_equal; auto. Qed.

Lemma slice_good n i j : i <= j -> j <= n -> slice_bad n i j = false.
Proof. unfold slice_bad. lia. Qed.

Lemma post_alen f a i j b : j <= alen a -> slice_post f a i j b -> alen b = j - i.
Proof. intros Hj (_ & H & _). rewrite <- logical_length, H. apply lslice_length. rewrite logical_length. exact Hj. Qed.

(** run index of a slice of the ends *)
Lemma run_index_slice el s e x : sortedZ el -> s <= e -> e <= length el ->
  s <= run_index el x -> run_index el x < e -> run_index el x = s + run_index (lslice el s e) x.
Proof.
  intros Hs Hse He H1 H2.
  destruct (run_index_spec el x Hs) as [A B]. set (r := run_index el x) in *.
  assert (run_index (lslice el s e) x = r - s); [|lia].
  apply run_index_char.
  - apply sortedZ_lslice; auto.
  - rewrite lslice_length by lia. lia.
  - intros i Hi. rewrite nth_lslice by lia. apply A. lia.
  - intros _. rewrite nth_lslice by lia. replace (s + (r - s)) with r by lia. apply B. lia.
Qed.

Lemma run_index_mono el x y : x <= y -> run_index el x <= run_index el y.
Proof.
  intros H. unfold run_index, count. induction el as [|a r IH]; cbn [filter length]; [lia|].
  destruct (Z.leb_spec a (Z.of_nat x)), (Z.leb_spec a (Z.of_nat y)); cbn [length]; lia.
Qed.

(** positions of indices in a slice of a strictly sorted list *)
Lemma pos_of_slice il s e z : ssortedZ il -> s <= e -> e <= length il ->
  (forall k, k < s -> (nth k il 0 < z)%Z) -> (forall k, e <= k -> k < length il -> (z < nth k il 0)%Z) ->
  pos_of z il = option_map (fun k => s + k) (pos_of z (lslice il s e)).
Proof.
  intros Hs Hse He H1 H2. destruct (pos_of z il) as [k|] eqn:E.
  - apply pos_of_some in E. destruct E as [K1 K2].
    assert (s <= k /\ k < e) as [A B].
    { split; [destruct (le_lt_dec s k); auto; specialize (H1 k ltac:(lia)); lia|].
      destruct (le_lt_dec e k); auto. specialize (H2 k ltac:(lia) ltac:(lia)). lia. }
    replace z with (nth (k - s) (lslice il s e) 0%Z) by (rewrite nth_lslice by lia; replace (s + (k - s)) with k by lia; exact K2).
    rewrite pos_of_nth; [cbn; f_equal; lia|apply ssortedZ_lslice; auto|rewrite lslice_length by lia; lia].
  - apply pos_of_none in E. assert (pos_of z (lslice il s e) = None) as ->; [|reflexivity].
    apply pos_of_none. intros H. apply E. eapply In_lslice; eauto.
Qed.

Lemma spec_left_bounds l v : sortedZ l ->
  let s := to_index (spec_search (map (fun z => Z.compare z v) l) Left) in
  s <= length l /\ (forall k, k < s -> (nth k l 0 < v)%Z) /\ (forall k, s <= k -> k < length l -> (v <= nth k l 0)%Z).
Proof.
  intros Hs s. unfold s. rewrite spec_search_left_index, count_map.
  assert (count (fun x => match (x ?= v)%Z with Lt => true | _ => false end) l = count (fun x => (x <? v)%Z) l) as ->.
  { apply count_ext. intros x _. destruct (Z.compare_spec x v); symmetry; lia. }
  destruct (sorted_count_split (fun x => (x <? v)%Z) l Hs) as [A B]; [intros; lia|].
  pose proof (count_le_length (fun x => (x <? v)%Z) l) as C. set (c := count _ l) in *.
  repeat split.
  - exact C.
  - intros k Hk. specialize (A (nth k l 0%Z)). apply Z.ltb_lt, A.
    rewrite <- nth_firstn with (n := c) by lia. apply nth_In. rewrite firstn_length. lia.
  - intros k Hk Hk2. specialize (B (nth k l 0%Z)). apply Z.ltb_ge, B.
    replace k with (c + (k - c)) by lia. rewrite <- nth_skipn. apply nth_In. rewrite skipn_length. lia.
Qed.

(** * Concatenation *)
Lemma lslice_concat_one {A} (ls : list (list A)) k o1 o2 :
  k < length ls -> o1 <= o2 -> o2 <= length (nth k ls []) ->
  lslice (concat ls) (list_sum (firstn k (map (@length A) ls)) + o1) (list_sum (firstn k (map (@length A) ls)) + o2) =
  lslice (nth k ls []) o1 o2.
Proof.
  intros Hk H1 H2. apply nth_error_ext. intros t. rewrite !nth_error_lslice.
  replace (list_sum (firstn k (map (@length A) ls)) + o2 - (list_sum (firstn k (map (@length A) ls)) + o1)) with (o2 - o1) by lia.
  destruct (Nat.ltb_spec t (o2 - o1)); [|reflexivity].
  revert k Hk H2. induction ls as [|l r IH]; intros k Hk H2; cbn [length] in Hk; [lia|].
  destruct k as [|k]; cbn [nth concat firstn map] in *.
  - cbn [list_sum fold_right]. rewrite nth_error_app1 by (cbn; lia). f_equal.
  - change (list_sum (length l :: firstn k (map (@length A) r))) with (length l + list_sum (firstn k (map (@length A) r))).
    rewrite nth_error_app2 by lia. rewrite <- IH by lia. f_equal. lia.
Qed.

Lemma concat_length_sum {A} (ls : list (list A)) : length (concat ls) = list_sum (map (@length A) ls).
Proof. induction ls as [|l r IH]; [reflexivity|]. cbn [concat map]. rewrite app_length, IH. reflexivity. Qed.

Lemma lslice_concat_many {A} (ls : list (list A)) k1 k2 o1 o2 :
  k1 < k2 -> k2 < length ls -> o1 <= length (nth k1 ls []) -> o2 <= length (nth k2 ls []) ->
  lslice (concat ls) (list_sum (firstn k1 (map (@length A) ls)) + o1) (list_sum (firstn k2 (map (@length A) ls)) + o2) =
  lslice (nth k1 ls []) o1 (length (nth k1 ls [])) ++ concat (lslice ls (k1 + 1) k2) ++ lslice (nth k2 ls []) 0 o2.
Proof.
  intros H12 H2 Ho1 Ho2.
  assert (E : ls = firstn k1 ls ++ [nth k1 ls []] ++ lslice ls (k1 + 1) k2 ++ [nth k2 ls []] ++ skipn (k2 + 1) ls).
  { apply nth_error_ext. intros t.
    assert (length (firstn k1 ls) = k1) as L1 by (rewrite firstn_length; lia).
    assert (length (lslice ls (k1 + 1) k2) = k2 - (k1 + 1)) as L2 by (apply lslice_length; lia).
    destruct (Nat.ltb_spec t k1).
    { rewrite nth_error_app1 by lia. rewrite nth_error_firstn. destruct (Nat.ltb_spec t k1); [reflexivity|lia]. }
    rewrite nth_error_app2 by lia. rewrite L1. cbn [app].
    destruct (t - k1) as [|u] eqn:Eu.
    { cbn. replace t with k1 by lia. apply nth_error_nth'. lia. }
    cbn [nth_error]. destruct (Nat.ltb_spec u (k2 - (k1 + 1))).
    { rewrite nth_error_app1 by lia. rewrite nth_error_lslice. destruct (Nat.ltb_spec u (k2 - (k1 + 1))); [|lia]. f_equal. lia. }
    rewrite nth_error_app2 by lia. rewrite L2. destruct (u - (k2 - (k1 + 1))) as [|w] eqn:Ew.
    { cbn. replace t with k2 by lia. apply nth_error_nth'. lia. }
    cbn [nth_error]. rewrite nth_error_skipn. f_equal. lia. }
  set (P := firstn k1 ls) in *. set (X := nth k1 ls []) in *. set (M := lslice ls (k1 + 1) k2) in *.
  set (Y := nth k2 ls []) in *. set (R := skipn (k2 + 1) ls) in *.
  assert (S1 : list_sum (firstn k1 (map (@length A) ls)) = length (concat P)).
  { rewrite concat_length_sum. unfold P. rewrite <- firstn_map. reflexivity. }
  assert (S2 : list_sum (firstn k2 (map (@length A) ls)) = length (concat P) + length X + length (concat M)).
  { assert (firstn k2 ls = P ++ [X] ++ M) as E2.
    { rewrite E at 1. assert (length P = k1) as LP by (unfold P; rewrite firstn_length; lia).
      rewrite firstn_app, LP. rewrite (firstn_all2 P) by lia. f_equal. cbn [app]. replace (k2 - k1) with (S (k2 - (k1 + 1))) by lia. cbn [firstn]. f_equal.
      assert (length M = k2 - (k1 + 1)) as LM by (apply lslice_length; lia).
      rewrite firstn_app, LM, Nat.sub_diag, firstn_O, app_nil_r. rewrite <- LM. apply firstn_all. }
    rewrite firstn_map, E2, !map_app. rewrite !concat_length_sum. unfold list_sum. rewrite !fold_right_app. cbn [map fold_right].
    fold (list_sum (map (@length A) M)).
    assert (G : forall l c, fold_right Nat.add c l = fold_right Nat.add 0 l + c).
    { induction l as [|x l IH]; intros c; cbn; [reflexivity|]. rewrite IH. lia. }
    rewrite (G (map (@length A) P)). unfold list_sum. lia. }
  rewrite S1, S2. clear S1 S2. rewrite E at 1. rewrite !concat_app. cbn [concat]. rewrite !app_nil_r.
  generalize (concat P) (concat M) (concat R). clear E P M R. intros P M R.
  unfold lslice. rewrite skipn_app. rewrite (skipn_all2 P) by lia. cbn [app].
  replace (length P + o1 - length P) with o1 by lia.
  rewrite skipn_app. replace (o1 - length X) with 0 by lia. cbn [skipn].
  replace (length P + length X + length M + o2 - (length P + o1)) with (length (skipn o1 X) + (length M + o2)) by (rewrite skipn_length; lia).
  rewrite firstn_app_2, firstn_app_2. rewrite Nat.sub_0_r.
  rewrite (firstn_all2 (skipn o1 X)) by (rewrite skipn_length; lia).
  do 2 f_equal. rewrite firstn_app. replace (o2 - length Y) with 0 by lia. cbn [firstn]. apply app_nil_r.
Qed.

Lemma mapM_outc {A B} (T : Prop) (h : A -> result B) (P : A -> B -> Prop) l :
  (forall x, In x l -> outc T (h x) (P x)) -> outc T (mapM h l) (fun ys => Forall2 P l ys).
Proof.
  induction l as [|x r IH]; intros H; cbn [mapM]; [apply outc_ok; constructor|].
  eapply outc_bind; [apply H; left; reflexivity|]. intros y _ Hy.
  eapply outc_bind; [apply IH; intros; apply H; right; auto|]. intros ys _ Hys. apply outc_ok. constructor; auto.
Qed.

Lemma Tslice_sliceable f i j i' j' : Tslice f i j -> Tslice (sliceable f) i' j'.
Proof. unfold Tslice, sliceable. cbn. intros [->|[-> _]]; left; [reflexivity|apply orb_true_r]. Qed.
