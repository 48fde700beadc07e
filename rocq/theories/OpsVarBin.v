(** The VarBin builder, and take of VarBin arrays. *)
From Verif Require Import Base Spec SearchModel SearchProofs Arr ArrRead ArrWf ArrReadProofs ArrSearchProofs ArrSlice ArrSliceProofs ArrSliceMain
  ValidityModel PropValidity IntEnc PropIntEnc RunEnc PropRunEnc PropUnary PropDict ArrOps OpsBase OpsFlat OpsCanon OpsCanon2 OpsCanon3 OpsTake.

Definition ob (x : option (list Z)) : list Z := match x with Some s => s | None => [] end.
Definition is_some {A} (x : option A) : bool := match x with Some _ => true | None => false end.
Definition vopt (x : option (list Z)) : value := match x with Some s => VBytes s | None => VNull end.
Definition olens (L : list (option (list Z))) : list nat := map (fun x => length (ob x)) L.
Definition odata (L : list (option (list Z))) : list Z := concat (map ob L).
(** The state of a builder that has been given these strings. *)
Definition vb_st (L : list (option (list Z))) : vbb := VBB (map Z.of_nat (offsets_from 0 (olens L))) (odata L) (map is_some L).

Lemma foldM_outc {A S} (T : Prop) (g : S -> A -> result S) (Inv : list A -> S -> Prop) l st0 :
  Inv [] st0 -> (forall pre x post st, l = pre ++ x :: post -> Inv pre st -> outc T (g st x) (Inv (pre ++ [x]))) ->
  outc T (foldM g st0 l) (Inv l).
Proof.
  intros H0 H. assert (forall post pre st, l = pre ++ post -> Inv pre st -> outc T (foldM g st post) (Inv l)) as G.
  { induction post as [|x r IH]; intros pre st E HI; cbn [foldM].
    - rewrite app_nil_r in E. subst l. apply outc_ok. exact HI.
    - eapply outc_bind; [eapply H; eauto|]. intros st' _ H'. apply (IH (pre ++ [x]) st'); [rewrite <- app_assoc; exact E|exact H']. }
  apply (G l [] st0); auto.
Qed.

Lemma offsets_from_app acc l1 l2 : offsets_from acc (l1 ++ l2) = offsets_from acc l1 ++ tl (offsets_from (acc + list_sum l1) l2).
Proof.
  revert acc; induction l1 as [|n r IH]; intros acc.
  - cbn [app list_sum fold_right offsets_from]. rewrite Nat.add_0_r. destruct l2; reflexivity.
  - cbn [app offsets_from]. rewrite IH. change (list_sum (n :: r)) with (n + list_sum r). rewrite Nat.add_assoc. reflexivity.
Qed.
Lemma last_offsets acc lens : last (offsets_from acc lens) 0 = acc + list_sum lens.
Proof.
  rewrite (last_nth _ 0), offsets_from_length. cbn [Nat.sub]. rewrite Nat.sub_0_r, nth_offsets_from by lia. rewrite firstn_all. reflexivity.
Qed.
Lemma odata_length L : length (odata L) = list_sum (olens L).
Proof. unfold odata, olens. rewrite concat_length_sum, map_map. reflexivity. Qed.
Lemma odata_app L K : odata (L ++ K) = odata L ++ odata K.
Proof. unfold odata. rewrite map_app, concat_app. reflexivity. Qed.
Lemma olens_app L K : olens (L ++ K) = olens L ++ olens K.
Proof. apply map_app. Qed.
Lemma last_map {A B} (h : A -> B) l d : l <> [] -> last (map h l) (h d) = h (last l d).
Proof.
  induction l as [|x r IH]; [congruence|]. intros _. destruct r as [|y r]; [reflexivity|].
  change (last (map h (y :: r)) (h d) = h (last (y :: r) d)). apply IH. discriminate.
Qed.

Lemma push_value_st p L s : push_value p (vb_st L) s =
  if in_rangeb p (Z.of_nat (length (odata (L ++ [Some s])))) then Ok (vb_st (L ++ [Some s])) else Panic.
Proof.
  assert (odata [Some s] = s) as Es by (unfold odata; cbn [map ob concat]; apply app_nil_r).
  unfold push_value. cbn [b_data vb_st b_offs b_valid]. rewrite odata_app, app_length, Es.
  destruct (in_rangeb p (Z.of_nat (length (odata L) + length s))); [|reflexivity]. f_equal. unfold vb_st.
  rewrite odata_app, olens_app, Es, offsets_from_app, !map_app. cbn [olens map ob offsets_from tl is_some].
  rewrite odata_length. reflexivity.
Qed.
Lemma push_null_st L : push_null (vb_st L) = vb_st (L ++ [None]).
Proof.
  unfold push_null, vb_st. cbn [b_data b_offs b_valid]. rewrite odata_app, olens_app, offsets_from_app, !map_app.
  f_equal.
  - f_equal. change (olens [None]) with [0]. cbn [offsets_from tl map]. f_equal.
    change (last (map Z.of_nat (offsets_from 0 (olens L))) (Z.of_nat 0) = Z.of_nat (0 + list_sum (olens L) + 0)).
    rewrite (last_map Z.of_nat _ 0). 2: { intros E. pose proof (offsets_from_length 0 (olens L)) as Q. rewrite E in Q. discriminate. }
    f_equal. rewrite last_offsets. lia.
  - cbn. rewrite app_nil_r. reflexivity.
Qed.

Lemma all_some_forallb (L : list (option (list Z))) : forallb id (map is_some L) = true <-> Forall (fun x => x <> None) L.
Proof.
  induction L as [|x r IH]; [split; [constructor|reflexivity]|]. cbn [map forallb]. rewrite andb_true_iff, IH. split.
  - intros [H1 H2]. constructor; [destruct x; [discriminate|discriminate H1]|exact H2].
  - intros H. inversion H; subst. split; [destruct x; [reflexivity|congruence]|assumption].
Qed.
Lemma nth_ilens L k : nth k (map ob L) [] = ob (nth k L None).
Proof. change (@nil Z) with (ob None) at 1. apply map_nth. Qed.

Lemma in_range_le p z y : in_range p z -> (0 <= y <= z)%Z -> in_range p y.
Proof. intros H1 H2. pose proof (in_range_zero p). unfold in_range in *. lia. Qed.

Lemma finish_ok f u nl p L : is_int p = true -> in_range p (Z.of_nat (length (odata L))) -> (nl = false -> Forall (fun x => x <> None) L) ->
  (u = true -> forall s, In (Some s) L -> utf8_valid s = true) ->
  (fc f = true -> u = true) -> (fC f = true -> (Z.of_nat (length (odata L)) <= pmax I32)%Z) -> (fF f = true -> fC f = true) ->
  fT f = false -> fN f = false ->
  exists b, vbb_finish u nl p (vb_st L) = Ok b /\ wf f b /\ logical b = map vopt L /\ adtype b = (if u then DUtf8 nl else DBinary nl) /\ depth b = 1.
Proof.
  intros Hp HR Hnl Hu H1 H2 H3 H4 H5. unfold vbb_finish. cbn [b_valid vb_st b_offs b_data].
  set (offs := map Z.of_nat (offsets_from 0 (olens L))).
  assert (length offs = S (length L)) as LO by (unfold offs, olens; rewrite map_length, offsets_from_length, map_length; reflexivity).
  assert (exists v, (if nl then Ok (if forallb id (map is_some L) then VAllValid else vfrom (map is_some L))
           else if forallb id (map is_some L) then Ok VNonNull else Panic) = Ok v /\ vnullable v = nl /\ vwf v (length L) /\
           (forall k, k < length L -> vvalid v k = is_some (nth k L None))) as (v & E & V1 & V2 & V3).
  { destruct (forallb id (map is_some L)) eqn:EA.
    - apply all_some_forallb in EA. assert (forall k, k < length L -> true = is_some (nth k L None)) as Q.
      { intros k Hk. pose proof (Forall_nth_lt _ _ None k EA Hk) as Q. cbv beta in Q. destruct (nth k L None); [reflexivity|congruence]. }
      destruct nl; eexists; (split; [reflexivity|]); (split; [reflexivity|]); (split; [exact I|]); exact Q.
    - destruct nl. 2: { exfalso. rewrite (proj2 (all_some_forallb L) (Hnl eq_refl)) in EA. discriminate. }
      eexists. split; [reflexivity|]. split; [apply vnullable_vfrom|]. split.
      + pose proof (vfrom_wf (map is_some L)) as Q. rewrite map_length in Q. exact Q.
      + intros k Hk. rewrite vvalid_vfrom by (rewrite map_length; exact Hk). apply (map_nth_lt is_some L None). exact Hk. }
  rewrite E. cbn [bind]. unfold try_varbin. cbn [adtype vnullable int_nonnull alen]. rewrite Hp, LO. cbn [negb Nat.eqb Nat.sub]. rewrite Nat.sub_0_r.
  assert (vfits v (length L) = true) as -> by (destruct v; cbn in *; auto; apply Nat.eqb_eq; exact V2). cbn [negb expect].
  eexists. split; [reflexivity|].
  assert (Forall (fun z => (0 <= z <= Z.of_nat (length (odata L)))%Z) offs) as FB.
  { apply (Forall_nth _ offs). intros k d Hk. rewrite (nth_indep _ d 0%Z Hk). rewrite LO in Hk. unfold offs.
    rewrite (map_nth_lt Z.of_nat _ 0) by (unfold olens; rewrite offsets_from_length, map_length; lia).
    rewrite nth_offsets_from by (unfold olens; rewrite map_length; lia). rewrite odata_length.
    pose proof (list_sum_firstn_mono (olens L) k (length (olens L))) as Q. rewrite firstn_all in Q. unfold olens in *. rewrite map_length in Q. lia. }
  assert (logical (APrim p offs VNonNull) = map VInt offs) as LP.
  { cbn [logical vvalid]. symmetry. apply (map_ext_nth_tab VInt offs 0%Z). }
  assert (ints (map VInt offs) = offs) as IO by (unfold ints; rewrite map_map; apply map_id).
  assert (logical (AVarBin u (APrim p offs VNonNull) (odata L) v) = map vopt L) as EL.
  { change (logical (AVarBin u (APrim p offs VNonNull) (odata L) v)) with
      (let ol := nats (ints (logical (APrim p offs VNonNull))) in
       tab (length ol - 1) (fun i => if vvalid v i then VBytes (lslice (odata L) (nth i ol 0) (nth (i + 1) ol 0)) else VNull)).
    rewrite LP, IO. cbv zeta. rewrite nats_length, LO. cbn [Nat.sub]. rewrite Nat.sub_0_r.
    rewrite (map_ext_nth_tab vopt L None). apply tab_ext. intros k Hk. rewrite V3 by exact Hk.
    destruct (nth k L None) as [s|] eqn:EN; cbn [is_some vopt]; [|reflexivity]. f_equal.
    rewrite !nth_nats. unfold offs. rewrite !(map_nth_lt Z.of_nat _ 0) by (unfold olens; rewrite offsets_from_length, map_length; lia).
    rewrite !nth_offsets_from by (unfold olens; rewrite map_length; lia). rewrite !Nat2Z.id. cbn [Nat.add].
    assert (nth k (olens L) 0 = length s) as EK by (unfold olens; rewrite (map_nth_lt _ L None) by exact Hk; rewrite EN; reflexivity).
    assert (list_sum (firstn (k + 1) (olens L)) = list_sum (firstn k (olens L)) + length s) as E1.
    { rewrite <- EK. rewrite Nat.add_1_r. apply list_sum_firstn_S. unfold olens; rewrite map_length; exact Hk. }
    rewrite E1. pose proof (lslice_concat_one (map ob L) k 0 (length s)) as Q.
    rewrite map_map in Q. change (map (fun x => length (ob x)) L) with (olens L) in Q. rewrite map_length, nth_ilens, EN in Q. cbn [ob] in Q.
    rewrite Nat.add_0_r in Q. unfold odata. rewrite Q by lia. apply lslice_full. }
  split; [|split; [exact EL|split; [cbn [adtype]; rewrite V1; reflexivity|reflexivity]]].
  cbn [wf]. rewrite LP, IO. cbn [alen]. rewrite LO.
  split. { split; [|exact I]. eapply Forall_impl; [|exact FB]. intros z Hz. cbv beta in Hz. eapply in_range_le; eauto. }
  split; [exists p; auto|]. split; [lia|]. split; [apply offsets_sorted|]. split; [exact FB|].
  split; [cbn [Nat.sub]; rewrite Nat.sub_0_r; exact V2|].
  split; [|auto 10].
  intros U s Hs. rewrite EL in Hs. apply in_map_iff in Hs. destruct Hs as (x & Ex & Hx). destruct x as [t|]; [|discriminate]. cbn in Ex. injection Ex as ->. eauto.
Qed.

(** Reading the strings of a well-formed VarBin array. *)
Definition vb_str (ol bytes : list Z) (i : nat) : list Z := lslice bytes (Z.to_nat (nth i ol 0%Z)) (Z.to_nat (nth (i + 1) ol 0%Z)).
Definition vb_opt (ol bytes : list Z) (v : validity) (i : nat) : option (list Z) := if vvalid v i then Some (vb_str ol bytes i) else None.
Lemma vb_bytes_ok ol bytes i : sortedZ ol -> Forall (fun z => (0 <= z <= Z.of_nat (length bytes))%Z) ol -> i < length ol - 1 ->
  vb_bytes ol bytes i = Ok (vb_str ol bytes i).
Proof.
  intros S F Hi. unfold vb_bytes. rewrite !(nth_error_nth' ol 0%Z) by lia.
  pose proof (sortedZ_nth ol i (i + 1) S ltac:(lia) ltac:(lia)).
  pose proof (Forall_nth_lt _ _ 0%Z i F ltac:(lia)) as Q1. pose proof (Forall_nth_lt _ _ 0%Z (i + 1) F ltac:(lia)) as Q2. cbv beta in Q1, Q2.
  destruct (Z.ltb_spec (nth i ol 0) 0)%Z; [lia|]. destruct (Z.ltb_spec (nth (i + 1) ol 0) 0)%Z; [lia|]. cbn [orb].
  destruct (Z.ltb_spec (nth (i + 1) ol 0%Z) (nth i ol 0%Z)); [lia|]. destruct (Z.ltb_spec (Z.of_nat (length bytes)) (nth (i + 1) ol 0%Z)); [lia|]. reflexivity.
Qed.
Lemma vb_logical u offs bytes v : logical (AVarBin u offs bytes v) =
  tab (alen offs - 1) (fun i => vopt (vb_opt (ints (logical offs)) bytes v i)).
Proof.
  change (logical (AVarBin u offs bytes v)) with
      (let ol := nats (ints (logical offs)) in
       tab (length ol - 1) (fun i => if vvalid v i then VBytes (lslice bytes (nth i ol 0) (nth (i + 1) ol 0)) else VNull)).
  cbv zeta. rewrite nats_length, ints_length, logical_length. apply tab_ext. intros i Hi. unfold vb_opt, vb_str.
  rewrite !nth_nats. destruct (vvalid v i); reflexivity.
Qed.

(** A builder fed with the selected strings gives the selected array. *)
Lemma vb_sel g f u offs bytes v p idx : fle g f -> wf f (AVarBin u offs bytes v) -> adtype offs = DPrim p false -> is_int p = true ->
  Forall (fun i => i < alen offs - 1) idx ->
  let L := map (vb_opt (ints (logical offs)) bytes v) idx in
  in_range p (Z.of_nat (length (odata L))) -> (fC g = true -> (Z.of_nat (length (odata L)) <= pmax I32)%Z) ->
  exists b, vbb_finish u (vnullable v) p (vb_st L) = Ok b /\ sel_post g f (AVarBin u offs bytes v) idx b.
Proof.
  intros HL W Hd Hp HI L HR HC. pose proof (wf_fle _ g f HL W) as Wg.
  cbn [wf] in Wg. destruct Wg as (G1 & G2 & G3 & G4 & G5 & G6 & G7 & G8 & G9 & G10 & G11 & G12).
  assert (map vopt L = pick (logical (AVarBin u offs bytes v)) idx) as EL.
  { rewrite vb_logical, tab_pick by exact HI. unfold L. rewrite map_map. apply (map_ext_nth_tab (fun x => vopt (vb_opt (ints (logical offs)) bytes v x)) idx 0). }
  destruct (finish_ok g u (vnullable v) p L Hp HR) as (b & E & B1 & B2 & B3 & B4); auto.
  - intros N. apply Forall_forall. intros x Hx. unfold L in Hx. apply in_map_iff in Hx. destruct Hx as (i & <- & _).
    destruct v; try discriminate N. discriminate.
  - intros U s Hs. apply (G7 U s). apply (In_pick (VBytes s) (logical (AVarBin u offs bytes v)) idx).
    + rewrite logical_length. exact HI.
    + rewrite <- EL. apply in_map_iff. exists (Some s). auto.
  - exists b. split; [exact E|]. split; [exact B1|]. split; [rewrite B2; exact EL|].
    cbn [adtype]. rewrite B3. split; [reflexivity|]. split; [reflexivity|]. rewrite B4. cbn [depth]. lia.
Qed.

(** take, when the selected bytes fit the offset type. *)
Lemma varbin_take_st f u o b v p oc idx : wf f (AVarBin u o b v) -> adtype o = DPrim p false ->
  into_prim oc = Ok (p, ints (logical o), VNonNull) -> Forall (fun i => i < alen o - 1) idx ->
  in_range p (Z.of_nat (length (odata (map (vb_opt (ints (logical o)) b v) idx)))) ->
  varbin_take u oc b v idx = vbb_finish u (vnullable v) p (vb_st (map (vb_opt (ints (logical o)) b v) idx)).
Proof.
  intros W W2 EO HI HT. pose proof W as W0. cbn [wf] in W. destruct W as (W1 & (p' & W2'' & W2') & W3 & W4 & W5 & W6 & W7 & W8 & W9 & W10 & W11 & W12).
  assert (p' = p) as -> by congruence. clear W2''. unfold varbin_take. rewrite EO. cbn [bind]. cbv zeta. set (ol := ints (logical o)) in *.
  assert (length ol = alen o) as LO by (unfold ol; rewrite ints_length; apply logical_length).
  set (h := vb_opt ol b v) in *.
  assert (forall i, i < length ol - 1 -> vb_bytes ol b i = Ok (vb_str ol b i)) as VB by (intros i Hi; apply vb_bytes_ok; auto).
  assert (forall pre post, idx = pre ++ post -> in_range p (Z.of_nat (length (odata (map h pre))))) as BND.
  { intros pre post E. eapply in_range_le; [exact HT|]. rewrite E, map_app, odata_app, app_length. lia. }
  set (Inv := fun pre st => st = vb_st (map h pre)).
  assert (forall pre i post, idx = pre ++ i :: post -> vvalid v i = true -> push_value p (vb_st (map h pre)) (vb_str ol b i) = Ok (vb_st (map h (pre ++ [i])))) as PV.
  { intros pre i post E Hv. rewrite push_value_st. assert (h i = Some (vb_str ol b i)) as HS by (unfold h, vb_opt; rewrite Hv; reflexivity).
    rewrite map_app. cbn [map]. rewrite <- HS. pose proof (BND (pre ++ [i]) post ltac:(rewrite <- app_assoc; exact E)) as B.
    rewrite map_app in B. cbn [map] in B. rewrite (proj2 (in_rangeb_spec _ _) B). reflexivity. }
  assert (exists st, match to_null_buffer (to_logical v (length ol - 1)) with
           | None => foldM (fun st i => do s <- vb_bytes ol b i; push_value p st s) vbb_new idx
           | Some bb =>
               foldM (fun st i => match nth_error bb i with
                                  | None => Panic
                                  | Some true => do s <- expect (vb_bytes ol b i); push_value p st s
                                  | Some false => Ok (push_null st)
                                  end) vbb_new idx
           end = Ok st /\ st = vb_st (map h idx)) as (st & -> & ->).
  { pose proof (null_buffer_spec v (length ol - 1) ltac:(rewrite LO; exact W6)) as NB.
    assert (forall pre i post, idx = pre ++ i :: post -> i < length ol - 1) as RI.
    { intros pre i post E. rewrite Forall_forall in HI. rewrite LO. apply HI. rewrite E. apply in_or_app. right. left. reflexivity. }
    destruct (to_null_buffer (to_logical v (length ol - 1))) as [nb|]; match goal with |- exists st, ?e = _ /\ _ =>
      assert (outc True e (Inv idx)) as H; [|destruct e as [st| |]; [exists st; split; [reflexivity|exact H]|contradiction (H I)|contradiction (H I)]] end.
    - apply (foldM_outc _ _ Inv); [reflexivity|]. intros pre i post st E HInv. unfold Inv in *. subst st nb.
      rewrite (nth_error_nth' _ false) by (rewrite vbits_length; eauto). rewrite nth_vbits by eauto. destruct (vvalid v i) eqn:EV.
      + rewrite VB by eauto. cbn [expect bind]. rewrite (PV _ _ _ E EV). reflexivity.
      + rewrite push_null_st, map_app. cbn [map]. assert (h i = None) as -> by (unfold h, vb_opt; rewrite EV; reflexivity). reflexivity.
    - apply (foldM_outc _ _ Inv); [reflexivity|]. intros pre i post st E HInv. unfold Inv in *. subst st.
      rewrite VB by eauto. cbn [bind]. rewrite (PV _ _ _ E); [reflexivity|]. apply NB. eauto. }
  reflexivity.
Qed.
Lemma varbin_take_total f u o b v p oc idx : wf f (AVarBin u o b v) -> adtype o = DPrim p false ->
  into_prim oc = Ok (p, ints (logical o), VNonNull) -> Forall (fun i => i < alen o - 1) idx ->
  in_range p (Z.of_nat (length (odata (map (vb_opt (ints (logical o)) b v) idx)))) ->
  exists r, varbin_take u oc b v idx = Ok r /\ sel_post (pf f) f (AVarBin u o b v) idx r.
Proof.
  intros W W2 EO HI HT. rewrite (varbin_take_st f u o b v p oc idx W W2 EO HI HT).
  pose proof W as W0. cbn [wf] in W. destruct W as (W1 & (p' & W2'' & W2') & W3 & W4 & W5 & W6 & W7 & W8 & W9 & W10 & W11 & W12).
  assert (p' = p) as -> by congruence. apply (vb_sel _ f u o b v p idx (fle_pf f) W0 W2 W2' HI HT).
  unfold pf. rewrite W11, W12. discriminate.
Qed.


Section Step.
  Variable rec : array -> ops_t.
  Variable M : nat.
  Hypothesis Hrec : forall b, depth b < M -> ops_good (rec b) b.

  Lemma take_varbin u o b v : depth (AVarBin u o b v) <= M -> take_ok rec (AVarBin u o b v).
  Proof.
    intros D f ip idx W C T Hl HI. cbn [ops_step o_take alen] in *. cbn [depth] in D. pose proof W as W0.
    cbn [wf] in W. destruct W as (W1 & (p & W2 & W2') & W3 & W4 & W5 & W6 & W7 & W8 & W9 & W10 & W11 & W12).
    assert (forall A (r : result A) (P : A -> Prop) T', outc T' r P -> outc (Ttake f ip idx) r P) as NT.
    { intros A r P T' H. eapply outc_weaken; [exact H| |auto]. unfold Ttake. rewrite W11, W12. intros [X|[X _]]; discriminate. }
    unfold varbin_take. eapply outc_bind.
    { eapply NT. apply (into_prim_ok f o _ p); [|exact W2]. apply (g_canon _ _ (Hrec o ltac:(lia))); auto. }
    intros x _ ->. cbv beta iota zeta. set (ol := ints (logical o)) in *.
    assert (length ol = alen o) as LO by (unfold ol; rewrite ints_length; apply logical_length).
    set (h := vb_opt ol b v).
    assert (forall i, i < length ol - 1 -> vb_bytes ol b i = Ok (vb_str ol b i)) as VB by (intros i Hi; apply vb_bytes_ok; auto).
    apply (outc_bind _ _ (fun st => st = vb_st (map h idx) /\ in_range p (Z.of_nat (length (odata (map h idx)))))).
    - set (Inv := fun pre st => st = vb_st (map h pre) /\ in_range p (Z.of_nat (length (odata (map h pre))))).
      assert (forall pre i st, i < length ol - 1 -> vvalid v i = true -> Inv pre st -> outc (Ttake f ip idx) (push_value p st (vb_str ol b i)) (Inv (pre ++ [i]))) as PV.
      { intros pre i st Hi Hv [-> HR]. rewrite push_value_st. apply (NT _ _ _ False).
        destruct (in_rangeb p _) eqn:ER; [|cbn; auto]. apply in_rangeb_spec in ER. apply outc_ok. unfold Inv. rewrite map_app. cbn [map].
        assert (h i = Some (vb_str ol b i)) as -> by (unfold h, vb_opt; rewrite Hv; reflexivity). auto. }
      assert (Inv [] vbb_new) as I0 by (split; [reflexivity|apply in_range_zero]).
      pose proof (null_buffer_spec v (length ol - 1) ltac:(rewrite LO; exact W6)) as NB.
      destruct (to_null_buffer (to_logical v (length ol - 1))) as [nb|].
      + apply (foldM_outc _ _ Inv); [exact I0|]. intros pre i post st Ei HInv.
        assert (i < length ol - 1) as Hi. { rewrite Forall_forall in HI. rewrite LO. apply HI. rewrite Ei. apply in_or_app. right. left. reflexivity. }
        subst nb. rewrite (nth_error_nth' _ false) by (rewrite vbits_length; exact Hi). rewrite nth_vbits by exact Hi.
        destruct (vvalid v i) eqn:EV.
        * rewrite VB by exact Hi. cbn [expect bind]. apply PV; auto.
        * apply outc_ok. destruct HInv as [-> HR]. rewrite push_null_st. unfold Inv. rewrite map_app. cbn [map].
          assert (h i = None) as -> by (unfold h, vb_opt; rewrite EV; reflexivity). split; [reflexivity|]. rewrite odata_app, app_length. cbn. rewrite Nat.add_0_r. exact HR.
      + apply (foldM_outc _ _ Inv); [exact I0|]. intros pre i post st Ei HInv.
        assert (i < length ol - 1) as Hi. { rewrite Forall_forall in HI. rewrite LO. apply HI. rewrite Ei. apply in_or_app. right. left. reflexivity. }
        rewrite VB by exact Hi. cbn [bind]. apply PV; auto.
    - intros st _ [-> HR]. apply outc_ex. apply (vb_sel _ f u o b v p idx (fle_pf f) W0 W2 W2' HI HR).
      unfold pf. rewrite W11, W12. discriminate.
  Qed.

  Lemma canon_depth0 b : is_canon b = true -> flat (adtype b) = true -> 0 < M -> depth b < M.
  Proof. intros H1 H2 H3. rewrite (flat_canon_depth b) by auto. exact H3. Qed.

  (** Decode, then take: ZigZag has no take of its own. *)
  Lemma take_via_canon f a c ip idx : canon_post f a c -> is_prim (adtype a) = true -> 0 < M -> Forall (fun i => i < alen a) idx ->
    exists b, o_take (rec c) ip idx = Ok b /\ take_post f a idx b.
  Proof.
    intros (C1 & C2 & C3 & C4 & C5) P HM HI.
    assert (adtype c = adtype a) as E by (apply C4; right; destruct (adtype a); try discriminate; reflexivity).
    assert (flat (adtype c) = true) as Fl by (rewrite E; destruct (adtype a); try discriminate; reflexivity).
    assert (is_str (adtype c) = false) as NS by (rewrite E; destruct (adtype a); try discriminate; reflexivity).
    assert (wf f c) as Wc by (apply (flat_canon_wf f (cf f)); auto; congruence).
    destruct (retake_flat f c ip idx (rec c)) as (b & Eb & Cb & Pb); auto.
    - apply Hrec. apply canon_depth0; auto.
    - congruence.
    - rewrite <- logical_length, C2, logical_length. exact HI.
    - exists b. split; [exact Eb|]. destruct Pb as (P1 & P2 & P3 & P4 & P5). split; [exact P1|]. rewrite C2 in P2. rewrite E in *.
      split; [exact P2|]. split; [exact P3|]. split; [exact P4|]. rewrite (flat_canon_depth c) in P5 by (auto; rewrite E; exact Fl). lia.
  Qed.
  Lemma take_zigzag e : depth (AZigZag e) <= M -> take_ok rec (AZigZag e).
  Proof.
    intros D f ip idx W C T Hl HI. pose proof (canon_zigzag rec M Hrec e D f W C) as Q. cbn [ops_step o_take o_canon] in *.
    pose proof W as W0. cbn [wf] in W. destruct W as (W1 & (p & n & W2 & W2') & W3).
    eapply outc_bind. { eapply outc_weaken with (P' := canon_post f (AZigZag e)); [exact Q| |auto]. unfold Ttake. intros [X|(X & _)]; apply W3; auto. }
    intros c _ P. apply outc_ex. apply (take_via_canon f (AZigZag e) c ip idx P); auto.
    - cbn [adtype]. rewrite W2. reflexivity.
    - cbn [depth] in D. lia.
  Qed.
End Step.
