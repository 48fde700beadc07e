(** C49: iterating over arrays, and element-wise functions. *)
From Verif Require Import Base Spec Arr ArrRead ArrWf ArrReadProofs ArrSlice ArrSliceProofs ValidityModel PropValidity ArrOps IntEnc OpsBase OpsCanon PropIntEnc PropOps DateTime Alp PropAlp Iter.

(** * Specification *)
(** An iterator's item as a value. *)
Definition item (o : option Z) : value := match o with Some z => VInt z | None => VNull end.
(** Batches of 1024 elements, the last one possibly shorter, never an empty one: the [k]-th starts at element 1024 k. *)
Definition full_batches (n : nat) (bs : list batch) : Prop :=
  Z.of_nat (length bs) = ((Z.of_nat n + 1023) / 1024)%Z /\
  forall k, k < length bs -> Z.of_nat (length (fst (nth k bs ([], VNonNull)))) = Z.min 1024 (Z.of_nat n - 1024 * Z.of_nat k).
(** Iterating from the start: batches that flatten to the rows. *)
Definition iterates (c : acc) (rows : list value) : Prop :=
  exists bs items, yields c 0 bs /\ mapM flatten bs = Ok items /\ map item (concat items) = rows /\ full_batches (length rows) bs /\
    forall bs', yields c 0 bs' -> bs' = bs.
(** A function of two values, null if one is null. *)
Definition lift1 (f : Z -> Z) (x : value) : value := match x with VInt a => VInt (f a) | _ => VNull end.
Definition lift2 (f : Z -> Z -> Z) (x y : value) : value := match x, y with VInt a, VInt b => VInt (f a b) | _, _ => VNull end.

(** * Lemmas *)
Lemma yields_det c i bs : yields c i bs -> forall bs', yields c i bs' -> bs' = bs.
Proof.
  induction 1 as [i E|i b i' bs E Y IH]; intros bs' Y'; inversion Y' as [? E'|? ? ? ? E' Y'']; subst; try congruence.
  rewrite E in E'. injection E' as <- <-. f_equal. auto.
Qed.
Lemma tab_split {A} m k (g : nat -> A) : tab (m + k) g = tab m g ++ tab k (fun i => g (m + i)).
Proof.
  unfold tab. rewrite seq_app, map_app. f_equal. cbn [Nat.add]. revert m; induction k as [|k IH]; intros m; [reflexivity|].
  cbn [seq map]. f_equal; [f_equal; lia|]. rewrite IH. rewrite <- seq_shift, map_map. apply map_ext. intros i. f_equal. lia.
Qed.
Lemma map_tab {A B} (h : A -> B) n (g : nat -> A) : map h (tab n g) = tab n (fun i => h (g i)).
Proof. unfold tab. apply map_map. Qed.
Lemma batch_max_z : Z.of_nat batch_max = 1024%Z.
Proof. unfold batch_max. apply Z2Nat.id. lia. Qed.
Lemma firstn_skipn_nth {A} (l : list A) i m k d : k < m -> nth k (firstn m (skipn i l)) d = nth (i + k) l d.
Proof. intros H. rewrite nth_firstn by exact H. apply nth_skipn. Qed.

(** An accessor over the values [vals]. *)
Definition acc_over (c : acc) (vals : list Z) : Prop :=
  c_len c = length vals /\ vwf (c_validity c) (length vals) /\
  forall i, i < length vals -> c_batch c i = Ok (firstn (batch_size (length vals) i) (skipn i vals)).
Definition row_at (c : acc) (vals : list Z) (i : nat) : option Z := if vvalid (c_validity c) i then Some (nth i vals 0%Z) else None.

Lemma next_ok c vals i : acc_over c vals -> i < length vals ->
  let m := batch_size (length vals) i in
  exists v', iter_next c i = Ok (Some ((firstn m (skipn i vals), v'), i + m)) /\
    flatten (firstn m (skipn i vals), v') = Ok (tab m (fun k => row_at c vals (i + k))).
Proof.
  intros (L & V & B) Hi m. pose proof batch_max_z as BZ. assert (1 <= m <= length vals - i) as Hm by (unfold m, batch_size; lia).
  assert (length (firstn m (skipn i vals)) = m) as LF by (rewrite firstn_length, skipn_length; lia).
  destruct (validity_slice _ _ i (i + m) V ltac:(lia) ltac:(lia)) as (v' & E & W' & _ & Bt). replace (i + m - i) with m in * by lia.
  exists v'. split.
  - unfold iter_next. rewrite L. destruct (Nat.eqb_spec i (length vals)); [lia|]. rewrite B by exact Hi. fold m. cbn [bind]. rewrite LF, E. reflexivity.
  - unfold flatten. cbn [fst snd]. rewrite LF. unfold tab. apply mapM_ok_map. intros k Hk. apply in_seq in Hk.
    rewrite (vvalid_r_ok v' m) by (auto; lia). cbn [bind]. f_equal. unfold row_at.
    assert (vvalid v' k = vvalid (c_validity c) (i + k)) as ->.
    { rewrite <- (nth_vbits v' m k false) by lia. rewrite Bt. unfold spec_slice. rewrite firstn_skipn_nth by lia. apply nth_vbits. lia. }
    destruct (vvalid _ _); [|reflexivity]. rewrite (nth_error_nth' _ 0%Z) by lia. rewrite firstn_skipn_nth by lia. reflexivity.
Qed.
Lemma yields_from c vals : acc_over c vals -> forall n i, i <= length vals -> length vals - i <= n ->
  exists bs items, yields c i bs /\ mapM flatten bs = Ok items /\ concat items = tab (length vals - i) (fun k => row_at c vals (i + k)) /\
    full_batches (length vals - i) bs.
Proof.
  intros H. induction n as [|n IH]; intros i Hi Hn.
  - exists [], []. assert (i = length vals) as -> by lia. rewrite Nat.sub_diag. split; [apply y_done; unfold iter_next; rewrite (proj1 H), Nat.eqb_refl; reflexivity|].
    split; [reflexivity|]. split; [reflexivity|]. split; [reflexivity|]. cbn [length]. intros k X. lia.
  - destruct (Nat.eq_dec i (length vals)) as [->|N].
    { exists [], []. rewrite Nat.sub_diag. split; [apply y_done; unfold iter_next; rewrite (proj1 H), Nat.eqb_refl; reflexivity|].
      split; [reflexivity|]. split; [reflexivity|]. split; [reflexivity|]. cbn [length]. intros k X. lia. }
    assert (i < length vals) as Hl by lia. pose proof batch_max_z as BZ.
    destruct (next_ok c vals i H Hl) as (v' & E & F). cbv zeta in E, F. set (m := batch_size (length vals) i) in *.
    assert (1 <= m <= length vals - i) as Hm by (unfold m, batch_size; lia).
    assert (Z.of_nat m = Z.min 1024 (Z.of_nat (length vals) - Z.of_nat i)) as Zm by (unfold m, batch_size; lia).
    destruct (IH (i + m)) as (bs & items & Y & Fl & C & (B1 & B2)); [lia|lia|].
    exists ((firstn m (skipn i vals), v') :: bs), (tab m (fun k => row_at c vals (i + k)) :: items).
    split; [eapply y_next; [exact E|exact Y]|]. split; [cbn [mapM]; rewrite F; cbn [bind]; rewrite Fl; reflexivity|].
    split. { cbn [concat]. rewrite C. replace (length vals - i) with (m + (length vals - (i + m))) by lia. rewrite tab_split. f_equal. apply tab_ext. intros k Hk. f_equal. lia. }
    assert (length (firstn m (skipn i vals)) = m) as LF by (rewrite firstn_length, skipn_length; lia).
    split.
    { cbn [length]. rewrite Nat2Z.inj_succ, B1. destruct (Z_le_gt_dec 1024 (Z.of_nat (length vals) - Z.of_nat i)) as [G|G].
      - replace (Z.of_nat (length vals - i) + 1023)%Z with (Z.of_nat (length vals - (i + m)) + 1023 + 1 * 1024)%Z by lia. rewrite Z.div_add by lia. lia.
      - replace (length vals - (i + m)) with 0 by lia. change ((Z.of_nat 0 + 1023) / 1024)%Z with 0%Z.
        assert ((Z.of_nat (length vals - i) + 1023) / 1024 = 1)%Z as ->; [|lia]. symmetry. apply (Z.div_unique _ _ 1 (Z.of_nat (length vals - i) - 1)); lia. }
    intros k Hk. destruct k as [|k].
    + change (nth 0 ((firstn m (skipn i vals), v') :: bs) ([], VNonNull)) with (firstn m (skipn i vals), v'). cbn [fst]. rewrite LF. lia.
    + change (nth (S k) ((firstn m (skipn i vals), v') :: bs) ([], VNonNull)) with (nth k bs ([], VNonNull)). cbn [length] in Hk.
      rewrite B2 by lia. destruct (Z_le_gt_dec 1024 (Z.of_nat (length vals) - Z.of_nat i)) as [G|G]; [lia|].
      exfalso. replace (length vals - (i + m)) with 0 in B1 by lia. change ((Z.of_nat 0 + 1023) / 1024)%Z with 0%Z in B1. lia.
Qed.
Lemma iterates_over c vals rows : acc_over c vals -> rows = tab (length vals) (fun i => item (row_at c vals i)) -> iterates c rows.
Proof.
  intros H ->. destruct (yields_from c vals H (length vals) 0) as (bs & items & Y & F & C & B); [lia|lia|]. rewrite Nat.sub_0_r in *.
  exists bs, items. split; [exact Y|]. split; [exact F|]. split; [rewrite C; apply map_tab|]. split; [rewrite tab_length; exact B|]. apply yields_det. exact Y.
Qed.

Lemma prim_acc_over l v : vwf v (length l) -> acc_over (prim_acc l v) l.
Proof. intros V. split; [reflexivity|]. split; [exact V|]. reflexivity. Qed.
Lemma const_acc_over z n : acc_over (const_acc (VInt z) n) (repeat z n).
Proof.
  split; [cbn [const_acc c_len]; rewrite repeat_length; reflexivity|]. split; [exact I|]. intros i Hi. rewrite repeat_length in *. cbn [const_acc c_batch]. unfold default_batch.
  rewrite (mapM_ok_map _ (fun _ => z)) by reflexivity. f_equal.
  apply (nth_ext_len _ _ z); [rewrite map_length, seq_length, firstn_length, skipn_length, repeat_length; unfold batch_size; lia|].
  intros k Hk. rewrite map_length, seq_length in Hk. rewrite firstn_skipn_nth by exact Hk. rewrite nth_repeat. clear Hi. revert Hk. generalize (batch_size n i). intros m Hk. change (map (fun _ => z) (seq 0 m)) with (tab m (fun _ : nat => z)). rewrite nth_tab by exact Hk. reflexivity.
Qed.

(** * Batched iteration *)
(** Iterating over a primitive array, or over a constant array that is not null, yields its rows in order, in full batches. *)
Theorem iteration_yields_the_rows :
  forall f p a c, wf f a -> accessor p a = Some c -> (forall d n, a = AConst d VNull n -> n = 0) -> iterates c (logical a).
Proof.
  intros f p a c W E N. destruct a as [| |q l v| | | | |d x n| | | | | | | |]; try (destruct p; discriminate E).
  - assert (c = prim_acc l v) as -> by (destruct p; cbn [accessor] in E; try discriminate E; destruct (ptype_eqb _ _) in E; try discriminate E; congruence).
    apply (iterates_over _ l); [apply prim_acc_over, W|]. cbn [logical]. apply tab_ext. intros i Hi. unfold row_at, item. cbn [prim_acc c_validity]. destruct (vvalid v i); reflexivity.
  - destruct d as [| |q b| | | |]; try (destruct p; discriminate E).
    assert (c = const_acc x n) as -> by (destruct p; cbn [accessor] in E; try discriminate E; destruct (ptype_eqb _ _) in E; try discriminate E; congruence).
    destruct W as [T _]. destruct x as [| |z| |]; cbn in T; try contradiction.
    + rewrite (N _ _ eq_refl). apply (iterates_over _ []); [|reflexivity]. split; [reflexivity|]. split; [exact I|]. cbn [length]. intros i X. lia.
    + apply (iterates_over _ (repeat z n)); [apply const_acc_over|]. rewrite repeat_length. cbn [logical]. rewrite <- tab_const. apply tab_ext. intros i Hi. unfold row_at, item. cbn [const_acc c_validity is_null vvalid]. rewrite (nth_indep _ 0%Z z) by (rewrite repeat_length; lia). rewrite nth_repeat. reflexivity.
Qed.
Print Assumptions iteration_yields_the_rows.

(** Which arrays can be iterated: primitive and constant arrays of any type but f16, at their own type. *)
Theorem iterable_arrays :
  forall p a, (exists c, accessor p a = Some c) <-> p <> F16 /\ ((exists l v, a = APrim p l v) \/ (exists n x k, a = AConst (DPrim p n) x k)).
Proof.
  intros p a. split.
  - intros [c E]. split; [destruct p; try discriminate; discriminate E|]. destruct a as [| |q l v| | | | |d x n| | | | | | | |]; try (destruct p; discriminate E).
    + left. exists l, v. f_equal. destruct p, q; cbn in E; try discriminate E; reflexivity.
    + right. destruct d as [| |q b| | | |]; try (destruct p; discriminate E). exists b, x, n. do 2 f_equal. destruct p, q; cbn in E; try discriminate E; reflexivity.
  - intros [N [(l & v & ->)|(n & x & k & ->)]]; destruct p; try (contradiction (N eq_refl)); cbn; eauto.
Qed.
Print Assumptions iterable_arrays.

(** Iterating over an ALP array without patches yields its rows. *)
Theorem alp_iteration_yields_the_rows :
  forall g p n a rows, alp_holds g p n a rows -> l_patches a = None ->
  (exists l v, l_enc a = APrim (alp_int p) l v) \/ (exists m z k, l_enc a = AConst (DPrim (alp_int p) m) (VInt z) k) ->
  exists c, alp_accessor p a = Ok (Some c) /\ iterates c rows.
Proof.
  intros g p n a rows (P & E & W & T & L & _ & HR) NP K. unfold alp_accessor. rewrite (alp_type_ok _ p n P T). cbn [bind].
  assert (ptype_eqb p p = true) as -> by (destruct p; reflexivity). cbn [negb]. cbv zeta. rewrite NP.
  set (dec := alp_dec p (l_e a) (l_f a)) in *.
  assert (forall enc vals lv, acc_over enc vals -> logical_validity (l_enc a) = Ok lv -> accessor (alp_int p) (l_enc a) = Some enc ->
    length vals = length rows -> vwf (into_validity lv) (length rows) ->
    (forall i, i < length rows -> nth i rows VNull = if vvalid (into_validity lv) i then VInt (dec (nth i vals 0%Z)) else VNull) ->
    exists c, match accessor (alp_int p) (l_enc a) with None => Panic | Some enc => do lv <- logical_validity (l_enc a);
      Ok (Some (Acc (c_len enc) (vvalid_r (into_validity lv)) (alp_value p (l_e a) (l_f a) enc None) (into_validity lv) (alp_batch p (l_e a) (l_f a) enc None))) end = Ok (Some c) /\ iterates c rows) as X.
  { intros enc vals lv (O1 & O2 & O3) LV AE LL VW R. rewrite AE, LV. cbn [bind]. eexists. split; [reflexivity|].
    apply (iterates_over _ (map dec vals)).
    - split; [cbn [c_len]; rewrite map_length; exact O1|]. split; [cbn [c_validity]; rewrite map_length, LL; exact VW|]. intros i Hi. rewrite map_length in Hi.
      cbn [c_batch]. unfold alp_batch. rewrite O3 by exact Hi. cbn [bind]. rewrite (mapM_ok_map _ dec) by (intros; rewrite E; reflexivity). cbn [bind].
      rewrite map_length, skipn_map, firstn_map. reflexivity.
    - rewrite map_length, LL. apply (nth_ext_len _ _ VNull); [rewrite tab_length; reflexivity|]. intros i Hi. rewrite nth_tab by exact Hi. rewrite R by exact Hi.
      unfold row_at, item. cbn [c_validity]. destruct (vvalid _ i); [|reflexivity]. rewrite (map_nth_lt _ _ 0%Z) by lia. reflexivity. }
  assert (forall x : value, alp_row p (l_e a) (l_f a) x VNull = match x with VInt z => VInt (dec z) | _ => VNull end) as AR by reflexivity.
  assert (forall i, patch_at a i = VNull) as PA by (intros i; unfold patch_at; rewrite NP; reflexivity).
  destruct K as [(l & v & K)|(m & z & k & K)].
  - rewrite K in L, HR, W. assert (length l = length rows) as LL by (rewrite <- L; cbn [logical]; rewrite tab_length; reflexivity). destruct W as [_ V].
    assert (alp_int p <> F16) as NF by (destruct P as [->| ->]; discriminate).
    destruct (validity_to_logical v (length l) V) as [TL TB]. destruct (validity_into_validity (to_logical v (length l))) as [IW IB]. rewrite TL in IW, IB. rewrite TB in IB.
    apply (X (prim_acc l v) l (to_logical v (length l))).
    + apply prim_acc_over, V.
    + rewrite K. reflexivity.
    + rewrite K. destruct P as [->| ->]; reflexivity.
    + exact LL.
    + rewrite <- LL. exact IW.
    + intros i Hi. rewrite HR by exact Hi. rewrite PA, AR. rewrite nth_prim by lia.
      assert (vvalid (into_validity (to_logical v (length l))) i = vvalid v i) as -> by (rewrite <- (nth_vbits _ (length l) i false), IB, nth_vbits by lia; reflexivity).
      destruct (vvalid v i); reflexivity.
  - rewrite K in L, HR. cbn [logical] in L. rewrite repeat_length in L. apply (X (const_acc (VInt z) k) (repeat z k) (LAllValid k)).
    + apply const_acc_over.
    + rewrite K. reflexivity.
    + rewrite K. destruct P as [->| ->]; reflexivity.
    + rewrite repeat_length. exact L.
    + exact I.
    + intros i Hi. rewrite HR by exact Hi. rewrite PA, AR. cbn [logical into_validity vvalid]. rewrite (nth_indep _ VNull (VInt z)) by (rewrite repeat_length; lia). rewrite !nth_repeat. f_equal. f_equal.
      rewrite (nth_indep _ 0%Z z) by (rewrite repeat_length; lia). rewrite nth_repeat. reflexivity.
Qed.
Print Assumptions alp_iteration_yields_the_rows.

(** Iterating over an ALP array whose patches are a primitive array yields its rows: patches where there are some, decoded values elsewhere; and so
    does reading single values. *)
Theorem alp_iteration_yields_patched_rows :
  forall f p e k l v pl pv, p = F32 \/ p = F64 -> exps_ok p e k = true ->
  let enc := APrim (alp_int p) l v in let patches := APrim p pl pv in
  wf f enc -> wf f patches -> length pl = length l ->
  let rows := tab (length l) (fun i => alp_row p e k (nth i (logical enc) VNull) (nth i (logical patches) VNull)) in
  exists c, alp_accessor p (ALP enc e k (Some patches)) = Ok (Some c) /\ iterates c rows /\
    forall i z, i < length l -> nth i rows VNull = VInt z -> c_value c i = Ok z.
Proof.
  intros f p e k l v pl pv P E enc patches W Wp Lp rows. unfold alp_accessor. cbn [l_enc l_patches l_e l_f].
  rewrite (alp_type_ok enc p (vnullable v) P eq_refl). cbn [bind].
  assert (ptype_eqb p p = true) as -> by (destruct p; reflexivity). cbn [negb]. cbv zeta.
  assert (accessor p patches = Some (prim_acc pl pv)) as -> by (destruct P as [->| ->]; reflexivity).
  assert (accessor (alp_int p) enc = Some (prim_acc l v)) as -> by (destruct P as [->| ->]; reflexivity).
  unfold enc at 1. cbn [logical_validity bind]. destruct W as [_ V]. destruct Wp as [_ Vp]. rewrite Lp in Vp.
  destruct (validity_to_logical v (length l) V) as [TL TB]. destruct (validity_into_validity (to_logical v (length l))) as [IW IB]. rewrite TL in IW, IB. rewrite TB in IB.
  set (w := into_validity (to_logical v (length l))) in *. set (dec := alp_dec p e k) in *.
  assert (forall i, i < length l -> vvalid w i = vvalid v i) as Vw by (intros i Hi; rewrite <- (nth_vbits w (length l) i false), IB, nth_vbits by lia; reflexivity).
  set (val := fun i => if vvalid pv i then nth i pl 0%Z else dec (nth i l 0%Z)).
  assert (forall i, i < length l -> nth i rows VNull = if vvalid v i then VInt (val i) else VNull) as R.
  { intros i Hi. unfold rows. rewrite nth_tab by exact Hi. unfold enc, patches. rewrite !nth_prim by lia. unfold val. destruct (vvalid v i); [|reflexivity]. destruct (vvalid pv i); reflexivity. }
  eexists. split; [reflexivity|]. split.
  - apply (iterates_over _ (tab (length l) val)).
    + split; [cbn [c_len prim_acc]; rewrite tab_length; reflexivity|]. split; [cbn [c_validity]; rewrite tab_length; exact IW|]. intros i Hi. rewrite tab_length in Hi.
      cbn [c_batch]. unfold alp_batch. cbn [c_batch prim_acc bind]. rewrite (mapM_ok_map _ dec) by (intros; rewrite E; reflexivity). cbn [bind].
      rewrite map_length. set (m := batch_size (length l) i). assert (m <= length l - i) as Hm by (unfold m, batch_size; lia).
      assert (length (firstn m (skipn i l)) = m) as Lm by (rewrite firstn_length, skipn_length; lia). rewrite Lm, tab_length. fold m.
      rewrite (mapM_ok_map _ (fun q => val (fst q + i))).
      * f_equal. apply (nth_ext_len _ _ 0%Z); [rewrite ?map_length, ?combine_length, ?seq_length, ?map_length, ?firstn_length, ?skipn_length, ?tab_length; lia|].
        intros j Hj. rewrite map_length, combine_length, seq_length, map_length, Lm in Hj.
        rewrite (map_nth_lt _ _ (0, 0%Z)) by (rewrite combine_length, seq_length, map_length, Lm; lia). rewrite combine_nth by (rewrite seq_length, map_length, Lm; reflexivity). cbn [fst].
        rewrite seq_nth by lia. rewrite firstn_skipn_nth by lia. rewrite nth_tab by lia. f_equal. lia.
      * intros [j d] Hq. apply (In_nth _ _ (0, 0%Z)) in Hq. destruct Hq as (t & Ht & Et). rewrite combine_length, seq_length, map_length, Lm in Ht.
        rewrite combine_nth in Et by (rewrite seq_length, map_length, Lm; reflexivity). rewrite seq_nth in Et by lia. rewrite (map_nth_lt _ _ 0%Z) in Et by (rewrite Lm; lia). rewrite firstn_skipn_nth in Et by lia. injection Et as <- <-.
        cbn [c_valid prim_acc fst Nat.add]. rewrite (vvalid_r_ok pv (length l)) by (assumption || lia). cbn [bind c_value prim_acc]. unfold val. destruct (vvalid pv (t + i)).
        -- rewrite (nth_error_nth' pl 0%Z) by lia. reflexivity.
        -- do 3 f_equal. lia.
    + rewrite tab_length. apply (nth_ext_len _ _ VNull); [unfold rows; rewrite !tab_length; reflexivity|]. intros i Hi. unfold rows in Hi. rewrite tab_length in Hi.
      rewrite R by exact Hi. rewrite nth_tab by exact Hi. unfold row_at, item. cbn [c_validity]. rewrite Vw by exact Hi. destruct (vvalid v i); [|reflexivity]. rewrite nth_tab by exact Hi. reflexivity.
  - intros i z Hi Hz. rewrite R in Hz by exact Hi. cbn [c_value]. unfold alp_value. cbn [c_valid c_value prim_acc]. rewrite (vvalid_r_ok pv (length l)) by (assumption || lia). cbn [bind].
    destruct (vvalid v i); [|discriminate Hz]. injection Hz as <-. unfold val. destruct (vvalid pv i).
    + rewrite (nth_error_nth' pl 0%Z) by lia. reflexivity.
    + rewrite (nth_error_nth' l 0%Z) by lia. cbn [bind]. rewrite E. reflexivity.
Qed.
Print Assumptions alp_iteration_yields_patched_rows.

(** * with_iterator *)
Lemma combine_tab {A B} n (g : nat -> A) (h : nat -> B) : combine (tab n g) (tab n h) = tab n (fun i => (g i, h i)).
Proof. unfold tab. induction (seq 0 n) as [|x l IH]; cbn [map combine]; [reflexivity|]. rewrite IH. reflexivity. Qed.
Lemma list_tab {A} (l : list A) d : l = tab (length l) (fun i => nth i l d).
Proof. apply (nth_ext_len _ _ d); [rewrite tab_length; reflexivity|]. intros i Hi. rewrite nth_tab by exact Hi. reflexivity. Qed.
Lemma masked_tab {A} (h : A -> result value) (x : A -> value) l v d : vwf v (length l) -> (forall y, In y l -> h y = Ok (x y)) ->
  masked h l (to_null_buffer (to_logical v (length l))) = Ok (tab (length l) (fun i => if vvalid v i then x (nth i l d) else VNull)).
Proof.
  intros V H. pose proof (null_buffer_spec v _ V) as NB. destruct (to_null_buffer _) as [b|]; cbn [masked].
  - subst b. rewrite (mapM_ok_map _ (fun y : A * bool => if snd y then x (fst y) else VNull)).
    + f_equal. rewrite (list_tab l d) at 1. unfold vbits. rewrite combine_tab, map_tab. reflexivity.
    + intros [y ok] I. apply in_combine_l in I. cbn [fst snd]. destruct ok; [apply H; exact I|reflexivity].
  - rewrite (mapM_ok_map _ x) by exact H. f_equal. rewrite (list_tab l d) at 1. rewrite map_tab. apply tab_ext. intros i Hi. rewrite NB by exact Hi. reflexivity.
Qed.
Lemma neighbours_tab l : neighbours l = tab (length l - 1) (fun i => (nth i l 0%Z, nth (i + 1) l 0%Z)).
Proof.
  induction l as [|x [|y r] IH]; [reflexivity|reflexivity|]. change (neighbours (x :: y :: r)) with ((x, y) :: neighbours (y :: r)). rewrite IH.
  replace (length (x :: y :: r) - 1) with (1 + (length (y :: r) - 1)) by (cbn [length]; lia). rewrite tab_split. change (tab 1 (fun i => (nth i (x :: y :: r) 0%Z, nth (i + 1) (x :: y :: r) 0%Z))) with [(x, y)]. cbn [app]. f_equal.
Qed.
Lemma ints_prim p l : ints (logical (APrim p l VNonNull)) = l.
Proof. unfold ints. cbn [logical]. rewrite map_tab. cbn [vvalid vint]. symmetry. apply list_tab. Qed.
Theorem with_iterator_yields_the_rows :
  forall f a, wf f a -> match a with APrim _ _ _ | ABool _ _ _ _ | AView _ _ _ _ | AVarBin _ _ _ _ => True | _ => False end ->
  (forall u o b v, a = AVarBin u o b v -> exists g, wf g o /\ fc g = true /\ fC g = true) ->
  with_iterator a = Ok (logical a).
Proof.
  intros f a W K G. destruct a as [|off buf n v|p l v|u vs bufs v|u offs bytes v| | | | | | | | | | |]; try contradiction K; cbn [with_iterator].
  - destruct W as (O & L & V). assert (lslice buf off (off + n) = tab n (fun i => nth (off + i) buf false)) as ->.
    { apply (nth_ext_len _ _ false); [rewrite lslice_length, tab_length by lia; lia|]. intros i Hi. rewrite lslice_length in Hi by lia. rewrite nth_lslice, nth_tab by lia. reflexivity. }
    rewrite map_tab. cbn [logical]. destruct v as [| | |b]; cbn [vvalid].
    + reflexivity.
    + reflexivity.
    + f_equal. symmetry. apply tab_const.
    + f_equal. cbn [vwf] in V. subst n. rewrite (list_tab b false) at 1. rewrite combine_tab, map_tab. reflexivity.
  - destruct W as (R & V). f_equal. cbn [logical]. pose proof (null_buffer_spec v _ V) as NB. destruct (to_null_buffer _) as [b|]; cbn [mask_nulls].
    + subst b. rewrite (list_tab l 0%Z) at 1. unfold vbits. rewrite map_tab, combine_tab, map_tab. reflexivity.
    + rewrite (list_tab l 0%Z) at 1. rewrite map_tab. apply tab_ext. intros i Hi. rewrite NB by exact Hi. reflexivity.
  - destruct W as (VO & V & _). cbn [logical].
    apply (masked_tab (view_item bufs) (fun w => VBytes (view_bytes bufs w)) vs v (VInl []) V). intros w I. unfold view_item. rewrite view_bytes_at_ok by (rewrite Forall_forall in VO; auto). reflexivity.
  - destruct W as (_ & (p & T & Ip) & L1 & So & Fo & V & _). destruct (G _ _ _ _ eq_refl) as (g & Wo & C & CC).
    destruct (canon_prim g offs p false Wo C CC T) as (ol & w & E & N & _ & _ & Lo). rewrite E. cbn [bind]. rewrite Ip. cbn [negb].
    assert (w = VNonNull) as -> by (destruct w; try discriminate N; reflexivity).
    assert (ints (logical offs) = ol) as IL by (rewrite <- Lo; apply ints_prim).
    assert (length ol = alen offs) as LL by (rewrite <- logical_length, <- Lo; cbn [logical]; rewrite tab_length; reflexivity).
    assert (alen (AVarBin u offs bytes v) = length (neighbours ol)) as -> by (rewrite neighbours_tab, tab_length, LL; reflexivity).
    rewrite (masked_tab (cut bytes) (fun q => VBytes (lslice bytes (Z.to_nat (fst q)) (Z.to_nat (snd q)))) (neighbours ol) v (0%Z, 0%Z)).
    + f_equal. cbn [logical]. rewrite IL. unfold nats. rewrite neighbours_tab, tab_length, map_length. apply tab_ext. intros i Hi. destruct (vvalid v i); [|reflexivity].
      rewrite nth_tab by exact Hi. cbn [fst snd]. rewrite !(map_nth_lt _ _ 0%Z) by lia. reflexivity.
    + rewrite neighbours_tab, tab_length, LL. exact V.
    + intros q I. rewrite neighbours_tab in I. apply In_tab in I. destruct I as (i & Hi & ->). unfold cut. cbn [fst snd]. rewrite IL in So, Fo. rewrite Forall_forall in Fo.
      pose proof (Fo (nth i ol 0%Z) (nth_In ol 0%Z (n:=i) ltac:(lia))) as F1. pose proof (Fo (nth (i + 1) ol 0%Z) (nth_In ol 0%Z (n:=i+1) ltac:(lia))) as F2. cbv beta in F1, F2.
      pose proof (sortedZ_nth ol i (i + 1) So ltac:(lia) ltac:(lia)) as S1.
      destruct (Z.ltb_spec (nth i ol 0%Z) 0); [lia|]. destruct (Z.ltb_spec (nth (i + 1) ol 0%Z) (nth i ol 0%Z)); [lia|]. destruct (Z.ltb_spec (Z.of_nat (length bytes)) (nth (i + 1) ol 0%Z)); [lia|]. reflexivity.
Qed.
Print Assumptions with_iterator_yields_the_rows.

(** * Element-wise functions *)
Lemma list_set_mid {A} (pre : list A) y post x : list_set (pre ++ y :: post) (length pre) x = pre ++ x :: post.
Proof. induction pre as [|z pre IH]; cbn [app length list_set]; [reflexivity|]. rewrite IH. reflexivity. Qed.
Lemma write_all_mid xs : forall pre mid post, length mid = length xs -> write_all (pre ++ mid ++ post) (length pre) xs = Ok (pre ++ map Some xs ++ post).
Proof.
  unfold write_all. induction xs as [|x xs IH]; intros pre mid post L; destruct mid as [|y mid]; try discriminate L; [reflexivity|].
  cbn [length seq map set_many]. rewrite Nat.add_0_r. rewrite app_length. cbn [app length]. destruct (Nat.ltb_spec (length pre) (length pre + S (length (mid ++ post)))); [|lia].
  rewrite list_set_mid. specialize (IH (pre ++ [Some x]) mid post ltac:(cbn [length] in L; lia)).
  rewrite app_length in IH. cbn [length] in IH. rewrite <- !app_assoc in IH. cbn [app] in IH.
  rewrite <- seq_shift, map_map. rewrite <- IH. f_equal. apply map_ext. intros k. lia.
Qed.
Lemma assume_init_some xs : assume_init (map Some xs) = Ok xs.
Proof. unfold assume_init. induction xs as [|x xs IH]; cbn [map mapM]; [reflexivity|]. cbn [bind]. rewrite IH. reflexivity. Qed.
Lemma chunk_pos : 0 < chunk_size. Proof. unfold chunk_size. lia. Qed.
Lemma firstn_add {A} a b (l : list A) : firstn (a + b) l = firstn a l ++ firstn b (skipn a l).
Proof. revert l; induction a as [|a IH]; intros l; [reflexivity|]. destruct l as [|x l]; [cbn; rewrite firstn_nil; reflexivity|]. cbn [Nat.add firstn skipn app]. rewrite IH. reflexivity. Qed.
Lemma unary_chunks_ok h data k : forall o post, chunk_size * k + o <= length data ->
  unary_chunks h data o k (map Some (map h (firstn o data)) ++ repeat None (chunk_size * k) ++ post) = Ok (map Some (map h (firstn (chunk_size * k + o) data)) ++ post).
Proof.
  induction k as [|k IH]; intros o post H.
  - rewrite Nat.mul_0_r in *. reflexivity.
  - cbn [unary_chunks]. set (c := chunk_size) in *.
    assert (length (map h (firstn c (skipn o data))) = c) as LC by (rewrite map_length, firstn_length, skipn_length; lia).
    assert (length (map Some (map h (firstn o data))) = o) as LO by (rewrite !map_length, firstn_length; lia).
    replace (repeat None (c * S k)) with (repeat (@None Z) c ++ repeat None (c * k)) by (rewrite <- repeat_app; f_equal; lia).
    rewrite <- app_assoc.
    pose proof (write_all_mid (map h (firstn c (skipn o data))) (map Some (map h (firstn o data))) (repeat None c) (repeat None (c * k) ++ post)) as Wm.
    rewrite LO in Wm. rewrite Wm by (rewrite repeat_length; congruence). cbn [bind].
    assert (map Some (map h (firstn o data)) ++ map Some (map h (firstn c (skipn o data))) ++ repeat None (c * k) ++ post = map Some (map h (firstn (o + c) data)) ++ repeat None (c * k) ++ post) as ->.
    { rewrite app_assoc. f_equal. rewrite <- !map_app. do 2 f_equal. symmetry. apply firstn_add. }
    rewrite IH by lia. do 5 f_equal. lia.
Qed.
(** The function is applied to every row that is not null; a slice of another type than the array's panics. *)
Theorem unary_maps_the_rows :
  forall f p po h l v, wf f (APrim p l v) ->
  unary p po h (APrim p l v) = Ok (APrim po (map h l) v) /\
  logical (APrim po (map h l) v) = map (lift1 h) (logical (APrim p l v)) /\
  ((forall z, in_range p z -> in_range po (h z)) -> wf f (APrim po (map h l) v)).
Proof.
  intros f p po h l v (R & V). pose proof chunk_pos as CP. split; [|split].
  - unfold unary. rewrite (proj2 (ptype_eqb_eq p p) eq_refl). cbn [negb]. cbv zeta.
    pose proof (Nat.div_mod (length l) chunk_size ltac:(lia)) as DM. pose proof (Nat.mod_upper_bound (length l) chunk_size ltac:(lia)) as MU.
    set (c := chunk_size) in *. set (k := length l / c) in *. set (m := length l mod c) in *. clearbody k m.
    replace (length l - m) with (c * k) by lia.
    replace (repeat None (length l)) with (repeat (@None Z) (c * k) ++ repeat None m ++ []) by (rewrite app_nil_r, <- repeat_app; f_equal; lia).
    pose proof (write_all_mid (map h (skipn (c * k) l)) (repeat None (c * k)) (repeat None m) []) as Wm. rewrite (repeat_length (@None Z) (c * k)) in Wm.
    rewrite Wm by (rewrite repeat_length, map_length, skipn_length; lia). cbn [bind]. rewrite app_nil_r.
    pose proof (unary_chunks_ok h l k 0 (map Some (map h (skipn (c * k) l)))) as U. cbn [firstn map app] in U. fold c in U. rewrite U by lia. cbn [bind].
    rewrite Nat.add_0_r, <- !map_app, firstn_skipn, assume_init_some. cbn [bind]. unfold try_prim. rewrite map_length, (proj2 (vfits_vwf v (length l)) V). reflexivity.
  - cbn [logical]. rewrite map_length, map_tab. apply tab_ext. intros i Hi. destruct (vvalid v i); [|reflexivity]. cbn [lift1]. rewrite (map_nth_lt _ _ 0%Z) by lia. reflexivity.
  - intros H. split; [|rewrite map_length; exact V]. apply Forall_map. eapply Forall_impl; [|exact R]. intros z Hz. apply H. exact Hz.
Qed.
Print Assumptions unary_maps_the_rows.
Theorem unary_rejects : forall pi po h p l v, pi <> p -> unary pi po h (APrim p l v) = Panic.
Proof. intros pi po h p l v N. unfold unary. destruct (ptype_eqb pi p) eqn:E; [apply ptype_eqb_eq in E; contradiction|reflexivity]. Qed.
Print Assumptions unary_rejects.

Definition zipw (h : Z -> Z -> Z) (l r : list Z) : list Z := map (fun '(x, y) => h x y) (combine l r).
Lemma combine_app {A B} (l1 l2 : list A) (r1 r2 : list B) : length l1 = length r1 -> combine (l1 ++ l2) (r1 ++ r2) = combine l1 r1 ++ combine l2 r2.
Proof. revert r1; induction l1 as [|x l1 IH]; intros [|y r1] E; try discriminate E; [reflexivity|]. cbn [app combine]. rewrite IH by (cbn in E; lia). reflexivity. Qed.
Lemma zipw_length h l r : length l = length r -> length (zipw h l r) = length l.
Proof. intros E. unfold zipw. rewrite map_length, combine_length. lia. Qed.
Lemma binary_loop_ok p h lhs c vals : acc_over c vals -> length lhs = length vals -> forall k i, i <= length vals -> length vals - i < k ->
  binary_loop p p h lhs c k i i (map Some (zipw h (firstn i lhs) (firstn i vals)) ++ repeat None (length vals - i)) = Ok (map Some (zipw h lhs vals)).
Proof.
  intros H L. induction k as [|k IH]; intros i Hi Hk; [lia|]. cbn [binary_loop].
  destruct (Nat.eq_dec i (length vals)) as [->|N].
  - unfold iter_next. rewrite (proj1 H), Nat.eqb_refl. cbn [bind]. rewrite Nat.sub_diag. cbn [repeat]. rewrite app_nil_r, firstn_all. rewrite <- L, firstn_all. reflexivity.
  - assert (i < length vals) as Hl by lia. pose proof batch_max_z as BZ.
    destruct (next_ok c vals i H Hl) as (v' & E & _). cbv zeta in E. set (m := batch_size (length vals) i) in *.
    assert (1 <= m <= length vals - i) as Hm by (unfold m, batch_size; lia). clearbody m. rewrite E. cbn [bind].
    unfold reinterpret. rewrite Z.eqb_refl. rewrite (proj2 (ptype_eqb_eq p p) eq_refl). cbn [bind fst snd]. cbv zeta.
    assert (length (firstn m (skipn i vals)) = m) as LF by (rewrite firstn_length, skipn_length; lia). rewrite LF.
    destruct (Nat.ltb_spec (length lhs) (i + m)); [lia|]. unfold process_batch. rewrite LF.
    assert (lslice lhs i (i + m) = firstn m (skipn i lhs)) as -> by (unfold lslice; f_equal; lia).
    assert (length (firstn m (skipn i lhs)) = m) as LF' by (rewrite firstn_length, skipn_length; lia). rewrite LF', Nat.eqb_refl. cbn [negb].
    fold (zipw h (firstn m (skipn i lhs)) (firstn m (skipn i vals))).
    pose proof (write_all_mid (zipw h (firstn m (skipn i lhs)) (firstn m (skipn i vals))) (map Some (zipw h (firstn i lhs) (firstn i vals))) (repeat None m) (repeat None (length vals - (i + m)))) as Wm.
    rewrite (map_length Some (zipw h (firstn i lhs) (firstn i vals))) in Wm. rewrite (zipw_length h (firstn i lhs) (firstn i vals)) in Wm by (rewrite !firstn_length; lia). rewrite (firstn_length i lhs) in Wm. replace (Nat.min i (length lhs)) with i in Wm by lia.
    replace (repeat None (length vals - i)) with (repeat (@None Z) m ++ repeat None (length vals - (i + m))) by (rewrite <- repeat_app; f_equal; lia).
    rewrite Wm by (rewrite repeat_length, zipw_length; congruence). cbn [bind].
    rewrite <- (IH (i + m)) by lia. f_equal. rewrite app_assoc. f_equal. rewrite <- map_app. f_equal. rewrite !firstn_add. unfold zipw. rewrite combine_app by (rewrite !firstn_length; lia). rewrite map_app. reflexivity.
Qed.

(** The function is applied to each pair of rows, neither of them null; the result is always nullable. *)
Theorem binary_combines_the_rows :
  forall f p po h l v b n, wf f (APrim p l v) -> wf f b -> adtype b = DPrim p n -> alen b = length l ->
  (exists c, accessor p b = Some c) -> (forall d k, b = AConst d VNull k -> k = 0) ->
  exists r, binary p p po h (APrim p l v) b = Ok r /\ adtype r = DPrim po true /\
    logical r = map (fun '(x, y) => lift2 h x y) (combine (logical (APrim p l v)) (logical b)) /\
    ((forall y z, in_range p y -> in_range p z -> in_range po (h y z)) -> wf f r).
Proof.
  intros f p po h l v b n (Rl & V) Wb T LB [c A] NN.
  assert (exists vals lv w, acc_over c vals /\ length vals = length l /\ Forall (in_range p) vals /\ logical_validity b = Ok lv /\ w = into_validity lv /\ vwf w (length l) /\
    logical b = tab (length l) (fun i => if vvalid w i then VInt (nth i vals 0%Z) else VNull)) as (vals & lv & w & AO & LV & RV & LVV & EW & VW & LG).
  { destruct (proj1 (iterable_arrays p b) (ex_intro _ c A)) as (NF & [(lb & vb & ->)|(m & x & k & ->)]).
    - destruct Wb as [Rb Vb]. cbn [alen] in LB. exists lb, (to_logical vb (length lb)), (into_validity (to_logical vb (length lb))).
      destruct (validity_to_logical vb (length lb) Vb) as [TL TB]. destruct (validity_into_validity (to_logical vb (length lb))) as [IW IB]. rewrite TL in IW, IB. rewrite TB in IB.
      assert (c = prim_acc lb vb) as -> by (destruct p; cbn in A; try discriminate A; congruence).
      split; [apply prim_acc_over, Vb|]. split; [exact LB|]. split; [exact Rb|]. split; [reflexivity|]. split; [reflexivity|]. split; [rewrite <- LB; exact IW|].
      cbn [logical]. rewrite <- LB. apply tab_ext. intros i Hi.
      assert (vvalid (into_validity (to_logical vb (length lb))) i = vvalid vb i) as -> by (rewrite <- (nth_vbits _ (length lb) i false), IB, nth_vbits by lia; reflexivity). reflexivity.
    - cbn [alen] in LB. subst k. assert (c = const_acc x (length l)) as -> by (destruct p; cbn in A; try discriminate A; congruence). destruct Wb as [Tx _].
      destruct x as [| |z| |]; cbn [vtyped] in Tx; try contradiction Tx.
      + rewrite (NN _ _ eq_refl) in *. exists [], (LAllInvalid 0), VAllInvalid. split; [split; [reflexivity|split; [exact I|cbn [length]; intros i X; lia]]|]. repeat split; auto.
      + exists (repeat z (length l)), (LAllValid (length l)), VAllValid. split; [apply const_acc_over|]. split; [apply repeat_length|]. split; [|split; [reflexivity|split; [reflexivity|split; [exact I|]]]].
        * apply Forall_forall. intros y Hy. apply repeat_spec in Hy. subst y. exact Tx.
        * cbn [logical vvalid]. rewrite <- tab_const. apply tab_ext. intros i Hi. rewrite (nth_indep _ 0%Z z) by (rewrite repeat_length; exact Hi). rewrite nth_repeat. reflexivity. }
  destruct (validity_and v w (length l) V VW) as (v' & VA & VW' & NV & BV).
  assert (vnullable w = true) as NW by (rewrite EW; destruct lv; reflexivity). rewrite NW, Bool.orb_true_r in NV.
  assert (binary p p po h (APrim p l v) b = Ok (APrim po (zipw h l vals) v')) as E.
  { unfold binary. rewrite LB, Nat.eqb_refl, T. rewrite (proj2 (ptype_eqb_eq p p) eq_refl). cbn [negb]. rewrite LVV. cbn [bind]. rewrite <- EW, VA. cbn [bind].
    assert (cast_type p = p) as -> by (destruct p; try reflexivity; discriminate A). rewrite A.
    pose proof (binary_loop_ok p h l c vals AO ltac:(lia) (S (length l)) 0) as BL. cbn [firstn zipw combine map app] in BL. rewrite Nat.sub_0_r, LV in BL. rewrite BL by lia. cbn [bind].
    rewrite assume_init_some. cbn [bind]. unfold try_prim. rewrite zipw_length by lia. rewrite (proj2 (vfits_vwf v' (length l)) VW'). reflexivity. }
  exists (APrim po (zipw h l vals) v'). split; [exact E|]. split; [cbn [adtype]; rewrite NV; reflexivity|]. split.
  - rewrite LG. cbn [logical]. rewrite zipw_length by lia. rewrite combine_tab, map_tab. apply tab_ext. intros i Hi. rewrite BV by exact Hi.
    destruct (vvalid v i), (vvalid w i); cbn [andb lift2]; try reflexivity. unfold zipw. rewrite (map_nth_lt _ _ (0%Z, 0%Z)) by (rewrite combine_length; lia). rewrite combine_nth by lia. reflexivity.
  - intros H. split; [|rewrite zipw_length by lia; exact VW']. unfold zipw. apply Forall_map. apply Forall_forall. intros [y z] I.
    pose proof (in_combine_l _ _ _ _ I) as I1. pose proof (in_combine_r _ _ _ _ I) as I2. rewrite Forall_forall in Rl, RV. apply H; auto.
Qed.
Print Assumptions binary_combines_the_rows.
(** Different lengths or types are errors. *)
Theorem binary_rejects :
  forall pi pu po h p l v b, alen b <> length l \/ (forall n, adtype b <> DPrim p n) \/ pi <> p -> binary pi pu po h (APrim p l v) b = Err.
Proof.
  intros pi pu po h p l v b H. unfold binary. destruct (Nat.eqb_spec (length l) (alen b)) as [E|E]; cbn [negb]; [|reflexivity].
  destruct (adtype b) as [| |q n| | | |] eqn:T; try reflexivity.
  destruct (ptype_eqb p q) eqn:Q; cbn [negb]; [|reflexivity]. apply ptype_eqb_eq in Q. subst q.
  destruct (ptype_eqb p pi) eqn:R; cbn [negb]; [|reflexivity]. apply ptype_eqb_eq in R. subst pi.
  destruct H as [H|[H|H]]; [congruence|contradiction (H n eq_refl)|contradiction].
Qed.
Print Assumptions binary_rejects.

(** * Failures *)
(** Iterating over an ALP array ignores its patches: the second row, a NaN that ALP stores as a patch, is read as 1.0. *)
Theorem alp_iteration_drops_patches_refuted :
  exists a c, alp_encode (APrim F32 [1065353216; 2143289344]%Z VNonNull) (Some (0, 0)) = Ok a /\
    rmap logical (alp_decode a) = Ok [VInt 1065353216; VInt 2143289344] /\
    alp_accessor F32 a = Ok (Some c) /\ iterates c [VInt 1065353216; VInt 1065353216] /\ ~ iterates c [VInt 1065353216; VInt 2143289344].
Proof.
  eexists _, _. split; [vm_compute; reflexivity|]. split; [vm_compute; reflexivity|]. split; [reflexivity|].
  match goal with |- iterates ?c _ /\ _ => assert (acc_over c [1065353216; 1065353216]%Z) as O end.
  { split; [reflexivity|]. split; [exact I|]. intros [|[|i]] Hi; [vm_compute; reflexivity|vm_compute; reflexivity|cbn in Hi; lia]. }
  pose proof (iterates_over _ _ _ O eq_refl) as X. split; [exact X|]. intros Y.
  destruct X as (bs & it & Y1 & F1 & C1 & _ & U). destruct Y as (bs' & it' & Y2 & F2 & C2 & _). rewrite (U _ Y2) in F2. rewrite F1 in F2. injection F2 as <-. rewrite C1 in C2. vm_compute in C2. discriminate C2.
Qed.
Print Assumptions alp_iteration_drops_patches_refuted.
(** Iterating over a null constant panics. *)
Theorem null_constant_iteration_refuted :
  forall p n, p <> F16 -> 0 < n -> exists c, accessor p (AConst (DPrim p true) VNull n) = Some c /\ iter_next c 0 = Panic.
Proof.
  intros p n N Hn. exists (const_acc VNull n). split; [destruct p; try (contradiction (N eq_refl)); reflexivity|].
  unfold iter_next. cbn [const_acc c_len c_batch]. destruct n as [|n]; [lia|]. cbn [Nat.eqb]. unfold default_batch, batch_size.
  assert (exists k, Nat.min batch_max (S n - 0) = S k) as [k ->]. { pose proof batch_max_z. exists (Nat.min (batch_max - 1) n). lia. }
  reflexivity.
Qed.
Print Assumptions null_constant_iteration_refuted.
(** The iterator's exact size is the number of elements left, not the number of batches. *)
Theorem size_hint_refuted :
  exists l bs, yields (prim_acc l VNonNull) 0 bs /\ length bs = 1 /\ size_hint (prim_acc l VNonNull) 0 = 2.
Proof.
  exists [7; 8]%Z. destruct (iteration_yields_the_rows f0 I32 (APrim I32 [7; 8]%Z VNonNull) _ ltac:(split; [repeat constructor; cbn; lia|exact I]) eq_refl ltac:(discriminate)) as (bs & it & Y & _ & _ & (B & _) & _).
  exists bs. split; [exact Y|]. split; [|reflexivity]. change (Z.of_nat (length bs) = 1%Z) in B. lia.
Qed.
Print Assumptions size_hint_refuted.
(** A binary function panics if its second array is encoded (here as a dictionary), or holds f16 values. *)
Theorem binary_needs_plain_refuted :
  let d := ADict (APrim U8 [0; 0]%Z VNonNull) (APrim I32 [5]%Z VNonNull) in
  wf f_dec d /\ binary I32 I32 I32 Z.add (APrim I32 [1; 2]%Z VNonNull) d = Panic /\
  binary F16 F16 F16 Z.add (APrim F16 [1]%Z VNonNull) (APrim F16 [1]%Z VNonNull) = Panic.
Proof.
  split; [|split; vm_compute; reflexivity]. cbn. repeat split; try (repeat constructor; cbn; lia); try discriminate; eauto.
Qed.
Print Assumptions binary_needs_plain_refuted.

(** * Non-vacuity *)
Example ex_iter : exists c, accessor I32 (APrim I32 (repeat 3%Z 3) (VBits [true; false; true])) = Some c /\ iterates c [VInt 3; VNull; VInt 3].
Proof. eexists. split; [reflexivity|]. apply (iteration_yields_the_rows f0 I32 (APrim I32 (repeat 3%Z 3) (VBits [true; false; true]))); [split; [repeat constructor; cbn; lia|reflexivity]|reflexivity|discriminate]. Qed.
Example ex_binary : binary I32 I32 I32 Z.add (APrim I32 [1; 2; 3]%Z (VBits [true; false; true])) (APrim I32 [10; 20; 30]%Z VAllValid) = Ok (APrim I32 [11; 22; 33]%Z (VBits [true; false; true])).
Proof. vm_compute. reflexivity. Qed.

(** The accessor of an array, null constants included, has the length of the array, and its validity - both the mask and the
    check of single rows - is that of the elements. *)
Theorem accessors_know_nulls : forall f p a c, wf f a -> accessor p a = Some c ->
  c_len c = length (logical a) /\ forall i, i < length (logical a) ->
  vvalid (c_validity c) i = negb (is_null (nth i (logical a) VNull)) /\ c_valid c i = Ok (negb (is_null (nth i (logical a) VNull))).
Proof.
  intros f p a c W E. destruct a as [| |q l v| | | | |d x n| | | | | | | |]; try (destruct p; discriminate E).
  - assert (c = prim_acc l v) as -> by (destruct p; cbn [accessor] in E; try discriminate E; destruct (ptype_eqb _ _) in E; try discriminate E; congruence).
    cbn [logical]. rewrite tab_length. cbn [prim_acc c_len c_validity c_valid]. split; [reflexivity|]. intros i Hi. rewrite nth_tab by exact Hi. unfold row_at.
    rewrite (vvalid_r_ok v (length l) i) by (try exact Hi; apply W). destruct (vvalid v i); split; reflexivity.
  - destruct d as [| |q b| | | |]; try (destruct p; discriminate E).
    assert (c = const_acc x n) as -> by (destruct p; cbn [accessor] in E; try discriminate E; destruct (ptype_eqb _ _) in E; try discriminate E; congruence).
    cbn [logical]. rewrite repeat_length. cbn [const_acc c_len c_validity c_valid]. split; [reflexivity|]. intros i Hi.
    rewrite (nth_indep _ VNull x) by (rewrite repeat_length; exact Hi). rewrite nth_repeat. destruct (is_null x); split; reflexivity.
Qed.
