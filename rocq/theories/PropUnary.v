(** C31 and C32: subtract_scalar and fill_forward. *)
From Verif Require Import Base Spec SearchModel SearchProofs Arr ArrRead ArrWf ArrReadProofs ArrSlice ArrSliceProofs
  ValidityModel PropValidity StatsModel PropIntEnc DictEnc PropDict Unary.

(** * fill_forward *)
(** Specification: walk the rows remembering the last non-null one. *)
Fixpoint spec_fill (last : value) (l : list value) : list value :=
  match l with
  | [] => []
  | VNull :: r => last :: spec_fill last r
  | x :: r => x :: spec_fill x r
  end.
Definition default_value (d : dtype) : value := match d with DBool _ => VBool false | _ => VInt 0 end.

Lemma fill_scan_spec {A} (inj : A -> value) : (forall x, inj x <> VNull) ->
  forall l m last, length l = length m ->
  map inj (fill_scan last l m) =
  spec_fill (inj last) (map (fun '(x, b) => if b : bool then inj x else VNull) (combine l m)) /\ length (fill_scan last l m) = length l.
Proof.
  intros Hi. induction l as [|x l IH]; intros [|b m] last L; try discriminate; [split; reflexivity|].
  cbn [fill_scan map combine]. destruct b.
  - destruct (IH m x) as [E1 E2]; [cbn in L; lia|]. split; [|cbn; lia].
    pose proof (Hi x). cbn [spec_fill map]. destruct (inj x) eqn:Ex; try contradiction; rewrite <- Ex, E1; try rewrite Ex; reflexivity.
  - destruct (IH m last) as [E1 E2]; [cbn in L; lia|]. split; [|cbn; lia]. cbn [spec_fill map]. rewrite E1. reflexivity.
Qed.

Lemma spec_fill_id last l : Forall (fun x => x <> VNull) l -> spec_fill last l = l.
Proof.
  revert last; induction l as [|x l IH]; intros last F; [reflexivity|]. pose proof (Forall_inv F) as Hx.
  destruct x; try congruence; cbn [spec_fill]; rewrite IH by exact (Forall_inv_tail F); reflexivity.
Qed.
Lemma spec_fill_nulls last n : spec_fill last (repeat VNull n) = repeat last n.
Proof. induction n as [|n IH]; [reflexivity|]. cbn [repeat spec_fill]. rewrite IH. reflexivity. Qed.

Lemma to_logical_inv v n : vwf v n ->
  match to_logical v n with
  | LAllValid m => m = n /\ forall i, i < n -> vvalid v i = true
  | LAllInvalid m => m = n /\ forall i, i < n -> vvalid v i = false
  | LBits m => v = VBits m /\ length m = n
  end.
Proof.
  intros W. destruct v as [| | |l]; cbn [to_logical]; try (split; [reflexivity|reflexivity]).
  assert (length l = n) as L by exact W. destruct l as [|b l]; [split; [reflexivity|exact L]|].
  destruct (forallb id (b :: l)) eqn:F.
  - split; [reflexivity|]. intros i Hi. apply forallb_id in F. cbn [vvalid]. rewrite F. apply nth_repeat_lt. lia.
  - destruct (existsb id (b :: l)) eqn:X; cbn [negb]; [split; [reflexivity|exact L]|].
    split; [reflexivity|]. intros i Hi. apply existsb_id in X. cbn [vvalid]. rewrite X. apply nth_repeat_lt. lia.
Qed.

Lemma combine_tab {A} (l : list A) m (d : A) (h : A * bool -> value) : length l = length m ->
  map h (combine l m) = tab (length l) (fun i => h (nth i l d, nth i m false)).
Proof.
  intros L. apply nth_ext_len with (d := h (d, false)); [rewrite map_length, combine_length, tab_length; lia|].
  rewrite map_length, combine_length. intros i Hi. rewrite nth_tab by lia.
  rewrite (map_nth_lt h (combine l m) (d, false)) by (rewrite combine_length; lia). rewrite combine_nth by exact L. reflexivity.
Qed.

Lemma map_repeat_ {A B} (g : A -> B) x n : map g (repeat x n) = repeat (g x) n.
Proof. induction n as [|n IH]; [reflexivity|]. cbn. rewrite IH. reflexivity. Qed.

Theorem fill_forward_spec :
  forall a r, wf f0 a -> fill_forward a = Ok r ->
  logical r = spec_fill (default_value (adtype a)) (logical a) /\ adtype r = adtype a /\ non_null (logical r) /\ wf f0 r.
Proof.
  intros a r W E. unfold fill_forward in E. destruct (nullable (adtype a)) eqn:N; cbn [negb] in E.
  - destruct a as [|off buf len v|p l v| | | | | | | | | | | | |]; try discriminate.
    + destruct W as (Ho & Hb & Wv). pose proof (to_logical_inv v len Wv) as H. unfold fill_bool in E. cbn [adtype default_value] in *.
      assert (forall o b, non_null (logical (ABool o b len VAllValid))) as NN.
      { intros o b. unfold non_null. cbn [logical]. apply Forall_tab. intros i Hi. discriminate. }
      destruct (to_logical v len) as [m|m|m]; cbn [l_all_valid l_all_invalid to_null_buffer] in E.
      * injection E as <-. destruct H as [-> H]. rewrite (spec_fill_id _ (logical (ABool off buf len v))).
        -- split; [cbn [logical]; apply tab_ext; intros i Hi; rewrite H by exact Hi; reflexivity|].
           split; [cbn [adtype nullable] in *; rewrite N; reflexivity|]. split; [apply NN|]. cbn [wf]. split; [exact Ho|split; [exact Hb|exact I]].
        -- cbn [logical]. apply Forall_tab. intros i Hi. rewrite H by exact Hi. discriminate.
      * injection E as <-. destruct H as [-> H].
        replace (logical (ABool off buf len v)) with (repeat VNull len).
        -- split.
           { rewrite spec_fill_nulls. cbn [logical vvalid]. rewrite <- (tab_const len (VBool false)). apply tab_ext. intros i Hi. cbn [Nat.add]. rewrite nth_repeat_lt by exact Hi. reflexivity. }
           split; [cbn [adtype nullable] in *; rewrite N; reflexivity|]. split; [apply NN|]. cbn [wf]. rewrite repeat_length. split; [lia|]. split; [lia|exact I].
        -- cbn [logical]. rewrite <- (tab_const _ VNull). apply tab_ext. intros i Hi. rewrite H by exact Hi. reflexivity.
      * injection E as <-. destruct H as [-> H].
        assert (length (lslice buf off (off + len)) = length m) as L by (rewrite lslice_length by lia; lia).
        destruct (fill_scan_spec VBool ltac:(discriminate) (lslice buf off (off + len)) m false L) as [E1 E2].
        assert (forall x, logical (ABool 0 x (length x) VAllValid) = map VBool x) as Lg.
        { intros x. cbn [logical vvalid]. rewrite (map_ext_nth_tab VBool x false). reflexivity. }
        rewrite Lg. split.
        { rewrite E1. f_equal. rewrite (combine_tab _ _ false) by exact L. cbn [logical vvalid]. rewrite L, H. apply tab_ext. intros i Hi.
          rewrite nth_lslice by lia. reflexivity. }
        split; [reflexivity|]. split; [apply Forall_map, Forall_forall; discriminate|]. cbn [wf]. split; [lia|]. split; [lia|exact I].
    + destruct W as (Wl & Wv). pose proof (to_logical_inv v (length l) Wv) as H. unfold fill_prim in E. cbn [adtype default_value] in *.
      assert (forall b, non_null (logical (APrim p b VAllValid))) as NN.
      { intros b. unfold non_null. cbn [logical]. apply Forall_tab. intros i Hi. discriminate. }
      destruct (to_logical v (length l)) as [m|m|m]; cbn [l_all_valid l_all_invalid to_null_buffer] in E.
      * injection E as <-. destruct H as [-> H]. rewrite (spec_fill_id _ (logical (APrim p l v))).
        -- split; [cbn [logical]; apply tab_ext; intros i Hi; rewrite H by exact Hi; reflexivity|].
           split; [cbn [adtype nullable] in *; rewrite N; reflexivity|]. split; [apply NN|]. cbn [wf]. split; [exact Wl|exact I].
        -- cbn [logical]. apply Forall_tab. intros i Hi. rewrite H by exact Hi. discriminate.
      * injection E as <-. destruct H as [-> H].
        replace (logical (APrim p l v)) with (repeat VNull (length l)).
        -- split.
           { rewrite spec_fill_nulls, logical_allvalid. apply map_repeat_. }
           split; [cbn [adtype nullable] in *; rewrite N; reflexivity|]. split; [apply NN|]. cbn [wf]. split; [|exact I].
           apply Forall_forall. intros z Hz. apply repeat_spec in Hz. subst z. apply in_range_zero.
        -- cbn [logical]. rewrite <- (tab_const _ VNull). apply tab_ext. intros i Hi. rewrite H by exact Hi. reflexivity.
      * injection E as <-. destruct H as [-> H].
        destruct (fill_scan_spec VInt ltac:(discriminate) l m 0%Z ltac:(lia)) as [E1 E2].
        split.
        { rewrite logical_allvalid, E1. f_equal. rewrite (combine_tab _ _ 0%Z) by lia. reflexivity. }
        split; [reflexivity|]. split; [apply NN|]. cbn [wf]. split; [|exact I].
        assert (in_range p 0) as Z0 by apply in_range_zero. clear - Wl Z0. revert m Z0. generalize 0%Z as last.
        induction Wl as [|x l Hx Hl IH]; intros last [|b m] Z0; try constructor.
        -- destruct b; assumption.
        -- apply IH. destruct b; assumption.
  - injection E as <-. assert (non_null (logical a)) as NN.
    { unfold non_null. eapply Forall_impl; [|exact (vtyped_logical a f0 W)]. intros x Hx Ex. subst x. cbn in Hx. congruence. }
    rewrite spec_fill_id by exact NN. auto.
Qed.
Print Assumptions fill_forward_spec.

(** It succeeds exactly on non-nullable arrays and on nullable primitive and boolean arrays. *)
Theorem fill_forward_total :
  forall a, wf f0 a ->
  (is_ok (fill_forward a) = true <->
   nullable (adtype a) = false \/ (exists p l v, a = APrim p l v) \/ (exists o b n v, a = ABool o b n v)) /\
  fill_forward a <> Panic.
Proof.
  intros a W. unfold fill_forward. destruct (nullable (adtype a)) eqn:N; cbn [negb]; [|split; [split; [left; reflexivity|reflexivity]|discriminate]].
  destruct a as [|off buf len v|p l v| | | | | | | | | | | | |]; try (split; [split; [discriminate|intros [H|[(? & ? & ? & H)|(? & ? & ? & ? & H)]]; congruence]|discriminate]).
  - unfold fill_bool. destruct (to_logical v len); cbn; (split; [split; [intros _; right; right; eauto|reflexivity]|discriminate]).
  - unfold fill_prim. destruct (to_logical v (length l)); cbn; (split; [split; [intros _; right; left; eauto|reflexivity]|discriminate]).
Qed.
Print Assumptions fill_forward_total.
Example ex_fill : fill_forward (APrim I8 [9; 1; 2; 3; 4]%Z (VBits [false; true; false; false; true])) =
  Ok (APrim I8 [0; 1; 1; 1; 4]%Z VAllValid).
Proof. vm_compute. reflexivity. Qed.
Example ex_fill_hyp : wf f0 (APrim I8 [9; 1; 2; 3; 4]%Z (VBits [false; true; false; false; true])).
Proof. cbn. repeat split; repeat constructor; unfold in_range; cbn; lia. Qed.

(** * subtract_scalar on integers *)
(** Specification: nulls stay null, every other row is reduced by [c]. *)
Definition spec_sub (c : Z) (x : value) : value := match x with VInt z => VInt (z - c) | _ => VNull end.
(** No valid row leaves the range of the type. *)
Definition no_overflow (p : ptype) (c : Z) (l : list value) : Prop := forall z, In (VInt z) l -> in_range p (z - c).

Lemma sub_checked_ok p c l : Forall (fun z => in_range p (z - c)) l -> mapM (sub_checked p c) l = Ok (map (fun z => z - c)%Z l).
Proof.
  intros F. apply mapM_ok_map. intros z Hz. unfold sub_checked. rewrite (proj2 (in_rangeb_spec _ _)); [reflexivity|].
  exact (proj1 (Forall_forall _ _) F z Hz).
Qed.

(** Nullability is preserved unless the array is of nullable type without containing a null (see the refuted theorem). *)
Definition keeps_type (v : validity) (n : nat) (c : Z) : Prop :=
  vnullable v = false \/ c = 0%Z \/ exists i, i < n /\ vvalid v i = false.

Lemma subtract_prim_spec fsub p l v c :
  wf f0 (APrim p l v) -> is_int p = true -> in_range p c -> no_overflow p c (logical (APrim p l v)) ->
  exists r, subtract_prim fsub p l v (adtype (APrim p l v)) (VInt c) = Ok r /\
    logical r = map (spec_sub c) (logical (APrim p l v)) /\
    (keeps_type v (length l) c -> adtype r = adtype (APrim p l v)) /\ erase (adtype r) = erase (adtype (APrim p l v)) /\ wf f0 r.
Proof.
  intros [Wl Wv] Hp Hc Hno. unfold subtract_prim. cbn [adtype]. rewrite dtype_eqb_refl. cbn [negb].
  pose proof (to_logical_inv v (length l) Wv) as H.
  assert (l_all_invalid (to_logical v (length l)) = true ->
    logical (AConst (DPrim p (vnullable v)) VNull (length l)) = map (spec_sub c) (logical (APrim p l v))) as HI.
  { destruct (to_logical v (length l)); try discriminate. intros _. destruct H as [-> H]. cbn [logical]. rewrite <- (tab_const _ VNull). unfold tab.
    rewrite map_map. apply map_ext_in. intros i Hi. apply in_seq in Hi. rewrite H by lia. reflexivity. }
  destruct (l_all_invalid (to_logical v (length l))) eqn:Ei.
  - eexists. split; [reflexivity|]. split; [apply HI; reflexivity|]. split; [reflexivity|]. split; [reflexivity|]. cbn [wf].
    split; [|discriminate]. destruct (to_logical v (length l)) eqn:El; try discriminate. destruct v; try discriminate; reflexivity.
  - rewrite Hp. unfold subtract_int. destruct (Z.eqb_spec c 0) as [->|Hc0].
    + eexists. split; [reflexivity|]. split; [|split; [reflexivity|split; [reflexivity|split; assumption]]].
      cbn [logical]. unfold tab. rewrite map_map. apply map_ext. intros i. destruct (vvalid v i); [|reflexivity]. cbn [spec_sub]. f_equal. lia.
    + assert (forall i, i < length l -> vvalid v i = true -> in_range p (nth i l 0%Z - c)) as Hr.
      { intros i Hi Hv. apply Hno. apply in_logical_prim; assumption. }
      destruct (l_all_valid (to_logical v (length l))) eqn:Ea; cbn [negb].
      * assert (forall i, i < length l -> vvalid v i = true) as Hv by (destruct (to_logical v (length l)); try discriminate; apply H).
        rewrite sub_checked_ok.
        2:{ apply Forall_forall. intros z Hz. apply (In_nth _ _ 0%Z) in Hz. destruct Hz as (i & Hi & <-). apply Hr; auto. }
        cbn [bind]. eexists. split; [reflexivity|]. split.
        { rewrite logical_nonnull, map_map. cbn [logical]. rewrite (map_ext_nth_tab _ l 0%Z). unfold tab. rewrite map_map.
          apply map_ext_in. intros i Hi. apply in_seq in Hi. rewrite Hv by lia. reflexivity. }
        split.
        { intros [Hk|[Hk|(i & Hi & Hk)]]; [cbn [adtype vnullable]; rewrite Hk; reflexivity|congruence|rewrite Hv in Hk by exact Hi; discriminate]. }
        split; [reflexivity|].
        cbn [wf]. split; [|exact I]. apply Forall_map, Forall_forall. intros z Hz. apply (In_nth _ _ 0%Z) in Hz. destruct Hz as (i & Hi & <-). apply Hr; auto.
      * eexists. split; [reflexivity|]. split.
        { cbn [logical]. rewrite map_length. unfold tab. rewrite map_map. apply map_ext_in. intros i Hi. apply in_seq in Hi.
          destruct (vvalid v i) eqn:Ev; [|reflexivity]. cbn [spec_sub]. rewrite (map_nth_lt _ l 0%Z) by lia.
          rewrite wrap_id by (apply Hr; [lia|exact Ev]). reflexivity. }
        split; [reflexivity|]. split; [reflexivity|]. cbn [wf]. split; [apply Forall_map, Forall_forall; intros; apply wrap_in_range|]. rewrite map_length. exact Wv.
Qed.

(** Primitive integer arrays and arbitrarily nested chunked arrays of them. *)
Inductive int_tree (p : ptype) (c : Z) : dtype -> array -> Prop :=
| IT_prim l v : keeps_type v (length l) c -> int_tree p c (DPrim p (vnullable v)) (APrim p l v)
| IT_chunked d cs : Forall (int_tree p c d) cs -> int_tree p c d (AChunked d cs).

Lemma int_tree_dtype p c d a : int_tree p c d a -> adtype a = d.
Proof. intros H. destruct H; reflexivity. Qed.

Theorem subtract_scalar_spec :
  forall fsub p c a d, wf f0 a -> is_int p = true -> in_range p c -> int_tree p c d a -> no_overflow p c (logical a) ->
  exists r, subtract_scalar fsub a d (VInt c) = Ok r /\ logical r = map (spec_sub c) (logical a) /\ adtype r = adtype a /\ wf f0 r.
Proof.
  intros fsub p c a d W Hp Hc. revert d W.
  induction a as [| |q l v| | | | | | |dt cs IHc| | | | | |] using array_ind'; intros dd W T Hno; inversion T as [l0 v0 Hk E1 E2|d0 cs0 Hf E1 E2]; [subst q l0 v0 dd|subst dd d0 cs0].
  - destruct (subtract_prim_spec fsub p l v c W Hp Hc Hno) as (r & E & L & K & _ & Wr). exists r. cbn [subtract_scalar]. auto.
  - rename Hf into FT, dt into d.
    destruct W as (Wc & _). rewrite wf_chunks_iff in Wc.
    assert (exists cs', mapM (fun g => g d (VInt c)) (map (subtract_scalar fsub) cs) = Ok cs' /\
      concat (map logical cs') = map (spec_sub c) (concat (map logical cs)) /\ Forall (fun x => adtype x = d /\ wf f0 x) cs') as (cs' & E & L & F).
    { change (logical (AChunked d cs)) with (concat (map logical cs)) in Hno. clear T. induction IHc as [|x r Hx Hr IH].
      - exists []. split; [reflexivity|]. split; [reflexivity|constructor].
      - pose proof (Forall_inv FT) as Tx. pose proof (proj1 (Forall_inv Wc)) as Wx.
        destruct (Hx d Wx Tx) as (y & E1 & L1 & D1 & W1).
        { intros z Hz. apply Hno. cbn [map concat]. apply in_or_app. left. exact Hz. }
        destruct IH as (ys & E2 & L2 & F2).
        { exact (Forall_inv_tail Wc). }
        { intros z Hz. apply Hno. cbn [map concat]. apply in_or_app. right. exact Hz. }
        { exact (Forall_inv_tail FT). }
        exists (y :: ys). cbn [map mapM]. rewrite E1. cbn [bind]. rewrite E2. cbn [bind].
        split; [reflexivity|]. split; [cbn [map concat]; rewrite map_app, L1, L2; reflexivity|].
        constructor; [|exact F2]. split; [|exact W1]. rewrite D1. exact (int_tree_dtype _ _ _ _ Tx). }
    cbn [subtract_scalar]. rewrite E. cbn [bind].
    assert (forallb (fun x => dtype_eqb (adtype x) d) cs' = true) as ->.
    { apply forallb_forall. intros x Hx. rewrite (proj1 (proj1 (Forall_forall _ _) F x Hx)). apply dtype_eqb_refl. }
    eexists. split; [reflexivity|]. split; [exact L|]. split; [reflexivity|].
    cbn [wf]. rewrite wf_chunks_iff. split; [eapply Forall_impl; [|exact F]; intros x [H1 H2]; auto|].
    split; [discriminate|]. split; [reflexivity|]. repeat (split; [discriminate|]). discriminate.
Qed.
Print Assumptions subtract_scalar_spec.

(** A scalar of another type is an error, and so is a null scalar unless all rows are null. *)
Theorem subtract_scalar_rejects :
  forall fsub p l v d x, wf f0 (APrim p l v) ->
  (d <> adtype (APrim p l v) -> subtract_scalar fsub (APrim p l v) d x = Err) /\
  ((exists i, i < length l /\ vvalid v i = true) -> subtract_scalar fsub (APrim p l v) d VNull = Err).
Proof.
  intros fsub p l v d x [Wl Wv]. cbn [subtract_scalar]. unfold subtract_prim. split.
  - intros Hd. destruct (dtype_eqb (DPrim p (vnullable v)) d) eqn:E; [|reflexivity]. apply dtype_eqb_eq in E. subst d. contradiction Hd. reflexivity.
  - intros (i & Hi & Hv). destruct (negb _); [reflexivity|]. pose proof (to_logical_inv v (length l) Wv) as H.
    destruct (to_logical v (length l)); try reflexivity. destruct H as [_ H]. cbn [l_all_invalid]. rewrite H in Hv by exact Hi. discriminate.
Qed.
Print Assumptions subtract_scalar_rejects.

(** Defects. A nullable array without nulls loses its nullability, so a chunked array with such a chunk fails: *)
Theorem subtract_scalar_chunked_refuted :
  exists a c, wf f0 a /\ no_overflow I32 c (logical a) /\ forall fsub, subtract_scalar fsub a (adtype a) (VInt c) = Err.
Proof.
  exists (AChunked (DPrim I32 true) [APrim I32 [5]%Z VAllValid; APrim I32 [6; 0]%Z (VBits [true; false])]), 1%Z.
  split; [cbn; repeat split; try discriminate; repeat constructor; unfold in_range; cbn; lia|].
  split; [intros z Hz; cbn in Hz; repeat (destruct Hz as [Hz|Hz]; [try discriminate; injection Hz as <-; unfold in_range; cbn; lia|]); contradiction|].
  reflexivity.
Qed.
Print Assumptions subtract_scalar_chunked_refuted.
(** Subtracting from floats forgets the nulls: *)
Theorem subtract_scalar_float_refuted :
  exists a, wf f0 a /\ forall fsub x, exists r, subtract_scalar fsub a (adtype a) (VInt x) = Ok r /\ In VNull (logical a) /\ ~ In VNull (logical r).
Proof.
  exists (APrim F32 [1; 2]%Z (VBits [true; false])).
  split; [cbn; repeat split; repeat constructor; unfold in_range; cbn; lia|].
  intros fsub x. eexists. split; [reflexivity|]. split; [cbn; auto|]. cbn. intros [H|[H|[]]]; discriminate.
Qed.
Print Assumptions subtract_scalar_float_refuted.
(** Overflow: a panic when there is no null, silent wrap-around when there is one. *)
Theorem subtract_scalar_overflow_refuted :
  forall fsub, subtract_scalar fsub (APrim U8 [1]%Z VNonNull) (DPrim U8 false) (VInt 2) = Panic /\
  (exists r, subtract_scalar fsub (APrim U8 [1; 0]%Z (VBits [true; false])) (DPrim U8 true) (VInt 2) = Ok r /\ logical r = [VInt 255; VNull]).
Proof. intros fsub. split; [reflexivity|]. eexists. split; [vm_compute; reflexivity|reflexivity]. Qed.
Print Assumptions subtract_scalar_overflow_refuted.

Example ex_sub_hyps :
  let a := AChunked (DPrim I32 true) [APrim I32 [5; 7]%Z (VBits [true; false])] in
  wf f0 a /\ int_tree I32 3 (DPrim I32 true) a /\ no_overflow I32 3 (logical a) /\ in_range I32 3.
Proof.
  cbv zeta. split; [cbn; repeat split; try discriminate; repeat constructor; unfold in_range; cbn; lia|].
  split; [constructor; constructor; [|constructor]; change (DPrim I32 true) with (DPrim I32 (vnullable (VBits [true; false]))); constructor; right; right; exists 1; split; [cbn; lia|reflexivity]|].
  split; [|unfold in_range; cbn; lia].
  intros z Hz; cbn in Hz; repeat (destruct Hz as [Hz|Hz]; [try discriminate; injection Hz as <-; unfold in_range; cbn; lia|]); contradiction.
Qed.
