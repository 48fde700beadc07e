(** C20: variable-length binary arrays (array/varbin): building, slicing, taking, filtering and reading keep every byte string
    and every null. *)
From Verif Require Import Base Spec SearchModel SearchProofs Arr ArrRead ArrWf ArrReadProofs ArrSearchProofs ArrSlice ArrSliceProofs ArrSliceMain
  ValidityModel PropValidity IntEnc PropIntEnc RunEnc PropRunEnc PropUnary PropDict ArrOps OpsBase OpsFlat OpsCanon OpsTake OpsVarBin OpsFilter OpsFilter2 PropRead PropSlice PropOps OpsCanon2 OpsCanon3.

(** * Model of the builders *)

(** VarBinBuilder::push, varbin/builder.rs:38-44. *)
Definition vbb_push (p : ptype) (st : vbb) (x : option (list Z)) : result vbb :=
  match x with Some s => push_value p st s | None => Ok (push_null st) end.
(** A builder of offset type [p] fed with the strings, then finished with a Utf8 or Binary data type
    (varbin/mod.rs:147-158, 161-171, 173-183). *)
Definition vb_build (u nl : bool) (p : ptype) (L : list (option (list Z))) : result array :=
  do st <- foldM (vbb_push p) vbb_new L; vbb_finish u nl p st.
(** VarBinArray::from_iter, varbin/mod.rs:160-171. *)
Definition vb_from_iter (u nl : bool) (L : list (option (list Z))) : result array := vb_build u nl U32 L.
(** VarBinArray::from_vec, varbin/mod.rs:138-145. *)
Definition vb_from_vec (u nl : bool) (L : list (list Z)) : result array :=
  vb_build u nl (if (Z.of_nat (list_sum (map (@length Z) L)) <? pmax U32)%Z then U32 else U64) (map Some L).

(** * Specification *)
(** A row: a byte string or null. *)
Definition row (x : option (list Z)) : value := match x with Some s => VBytes s | None => VNull end.
Definition str_bytes (x : value) : nat := match x with VBytes s => length s | _ => 0 end.
Definition total_bytes (l : list value) : nat := list_sum (map str_bytes l).
Definition str_dtype (u nl : bool) : dtype := if u then DUtf8 nl else DBinary nl.

(** VarBin arrays with plain (primitive) offsets, as all the operations below produce them. *)
Definition vb_plain (p : ptype) (a : array) : Prop :=
  wf f0 a /\ exists u ol bytes v, a = AVarBin u (APrim p ol VNonNull) bytes v.

Lemma vopt_row L : map vopt L = map row L.
Proof. reflexivity. Qed.
Lemma total_row L : total_bytes (map row L) = length (odata L).
Proof. unfold total_bytes. rewrite odata_length. unfold olens. rewrite map_map. f_equal. apply map_ext. intros [s|]; reflexivity. Qed.

Lemma build_foldM p L pre : (forall pre' post, L = pre' ++ post -> in_range p (Z.of_nat (length (odata (pre ++ pre'))))) ->
  foldM (vbb_push p) (vb_st pre) L = Ok (vb_st (pre ++ L)).
Proof.
  revert pre; induction L as [|x r IH]; intros pre H; cbn [foldM]; [rewrite app_nil_r; reflexivity|].
  assert (vbb_push p (vb_st pre) x = Ok (vb_st (pre ++ [x]))) as ->.
  { destruct x as [s|]; cbn [vbb_push]; [rewrite push_value_st|rewrite push_null_st; reflexivity].
    pose proof (H [Some s] r eq_refl) as B. rewrite (proj2 (in_rangeb_spec _ _) B). reflexivity. }
  cbn [bind]. rewrite IH, <- app_assoc; [reflexivity|]. intros pre' post E. rewrite <- app_assoc. apply (H (x :: pre') post). cbn. rewrite E. reflexivity.
Qed.
Lemma build_foldM_panic p L pre : ~ in_range p (Z.of_nat (length (odata (pre ++ L)))) -> in_range p (Z.of_nat (length (odata pre))) ->
  foldM (vbb_push p) (vb_st pre) L = Panic.
Proof.
  revert pre; induction L as [|x r IH]; intros pre H H0; [rewrite app_nil_r in H; contradiction|]. cbn [foldM].
  assert (pre ++ x :: r = (pre ++ [x]) ++ r) as EA by (rewrite <- app_assoc; reflexivity). rewrite EA in H.
  destruct x as [s|]; cbn [vbb_push].
  - rewrite push_value_st. destruct (in_rangeb p _) eqn:E; [|reflexivity]. apply in_rangeb_spec in E. cbn [bind]. apply IH; auto.
  - rewrite push_null_st. cbn [bind]. apply IH; auto. rewrite odata_app, app_length. cbn. rewrite Nat.add_0_r. exact H0.
Qed.

Lemma finish_shape u nl p st b : vbb_finish u nl p st = Ok b -> exists ol bytes v, b = AVarBin u (APrim p ol VNonNull) bytes v.
Proof.
  unfold vbb_finish. match goal with |- (do v <- ?x; _) = _ -> _ => destruct x as [v| |] end; try discriminate. cbn [bind]. unfold try_varbin.
  repeat match goal with |- context [if ?c then _ else _] => destruct c end; try discriminate. intros [= <-]. eauto.
Qed.

(** * Theorems *)
Theorem varbin_build_keeps_rows :
  forall (u nl : bool) (p : ptype) (L : list (option (list Z))), is_int p = true ->
  (u = true -> forall s, In (Some s) L -> utf8_valid s = true) -> (nl = false -> ~ In None L) ->
  (Z.of_nat (total_bytes (map row L)) <= pmax p)%Z ->
  exists a, vb_build u nl p L = Ok a /\ logical a = map row L /\ adtype a = str_dtype u nl /\ vb_plain p a.
Proof.
  intros u nl p L Hp Hu Hn HT. rewrite total_row in HT.
  assert (in_range p (Z.of_nat (length (odata L)))) as HR by (pose proof (in_range_zero p) as Q; unfold in_range in *; lia).
  unfold vb_build. change vbb_new with (vb_st []). rewrite build_foldM.
  2: { intros pre' post E. cbn [app]. eapply in_range_le; [exact HR|]. rewrite E, odata_app, app_length. lia. }
  cbn [app bind]. destruct (finish_ok f0 u nl p L Hp HR) as (b & E & W & Lb & D & _); auto; try discriminate.
  - intros N. apply Forall_forall. intros x Hx ->. exact (Hn N Hx).
  - exists b. split; [exact E|]. split; [exact Lb|]. split; [exact D|]. split; [exact W|]. destruct (finish_shape _ _ _ _ _ E) as (ol & bytes & v & ->). eauto.
Qed.
Print Assumptions varbin_build_keeps_rows.

(** Too many bytes for the offset type, or a null in a non-nullable array, is a panic rather than a wrong array. *)
Theorem varbin_build_rejects :
  forall (u nl : bool) (p : ptype) (L : list (option (list Z))), is_int p = true ->
  ((pmax p < Z.of_nat (total_bytes (map row L)))%Z \/ (nl = false /\ In None L)) -> vb_build u nl p L = Panic.
Proof.
  intros u nl p L Hp H. rewrite total_row in H. unfold vb_build. change vbb_new with (vb_st []).
  destruct (in_rangeb p (Z.of_nat (length (odata L)))) eqn:E.
  - apply in_rangeb_spec in E. destruct H as [H|[-> H]]; [unfold in_range in E; lia|].
    rewrite build_foldM. 2: { intros pre' post E'. cbn [app]. eapply in_range_le; [exact E|]. rewrite E', odata_app, app_length. lia. }
    cbn [app bind]. unfold vbb_finish. cbn [b_valid vb_st].
    assert (forallb id (map is_some L) = false) as ->; [|reflexivity].
    apply not_true_iff_false. intros F. apply all_some_forallb in F. rewrite Forall_forall in F. exact (F None H eq_refl).
  - rewrite build_foldM_panic; [reflexivity| |apply in_range_zero]. cbn [app]. intros F. apply in_rangeb_spec in F. congruence.
Qed.
Print Assumptions varbin_build_rejects.

Theorem varbin_from_vec_keeps_rows :
  forall (u nl : bool) (L : list (list Z)), (u = true -> Forall (fun s => utf8_valid s = true) L) ->
  (Z.of_nat (list_sum (map (@length Z) L)) <= pmax U64)%Z ->
  exists a, vb_from_vec u nl L = Ok a /\ logical a = map VBytes L /\ adtype a = str_dtype u nl /\ (vb_plain U32 a \/ vb_plain U64 a).
Proof.
  intros u nl L Hu HT. unfold vb_from_vec. set (p := if (_ <? _)%Z then U32 else U64).
  assert (total_bytes (map row (map Some L)) = list_sum (map (@length Z) L)) as ET by (unfold total_bytes; rewrite !map_map; reflexivity).
  assert (is_int p = true /\ (Z.of_nat (list_sum (map (@length Z) L)) <= pmax p)%Z) as [Hp HP].
  { unfold p. destruct (Z.ltb_spec (Z.of_nat (list_sum (map (@length Z) L))) (pmax U32)); split; auto. apply Z.lt_le_incl. assumption. }
  destruct (varbin_build_keeps_rows u nl p (map Some L) Hp) as (a & E & La & D & V).
  - intros U s Hs. apply in_map_iff in Hs. destruct Hs as (t & [= ->] & Ht). specialize (Hu U). rewrite Forall_forall in Hu. auto.
  - intros _ H. apply in_map_iff in H. destruct H as (t & H & _). discriminate.
  - rewrite ET. exact HP.
  - exists a. split; [exact E|]. rewrite map_map in La. split; [exact La|]. split; [exact D|]. unfold p in V. destruct (_ <? _)%Z; auto.
Qed.
Print Assumptions varbin_from_vec_keeps_rows.

Theorem varbin_slice_keeps_rows :
  forall (p : ptype) (a : array) (i j : nat), vb_plain p a -> i <= j -> j <= length (logical a) ->
  exists b, slice a i j = Ok b /\ logical b = spec_slice (logical a) i j /\ adtype b = adtype a /\ vb_plain p b.
Proof.
  intros p a i j [W (u & ol & bytes & v & ->)] Hij Hj.
  assert (wf (Flags true true false false false false false false false false) (AVarBin u (APrim p ol VNonNull) bytes v)) as W'.
  { cbn [wf] in *. destruct W as (W1 & W2 & W3 & W4 & W5 & W6 & W7 & _). do 7 (split; [assumption|]). repeat split; discriminate. }
  destruct (slice_commutes_with_decoding _ _ i j W' Hij Hj (or_introl eq_refl)) as (b & E & Wb & Ab & Lb & Sb).
  exists b. split; [exact E|]. split; [exact Sb|]. split; [congruence|]. split; [eapply wf_fle; [|exact Wb]; unfold fle; cbn; auto 20|].
  change (slice (AVarBin u (APrim p ol VNonNull) bytes v) i j) with
    (if slice_bad (alen (AVarBin u (APrim p ol VNonNull) bytes v)) i j then Err else do offs' <- slice (APrim p ol VNonNull) i (j + 1); do v' <- vslice v i j; try_varbin u offs' bytes v') in E.
  destruct (slice_bad _ _ _); [discriminate|]. destruct (slice (APrim p ol VNonNull) i (j + 1)) as [x| |] eqn:Ex; try discriminate. cbn [bind] in E.
  destruct (vslice v i j) as [v'| |]; try discriminate. cbn [bind] in E. unfold try_varbin in E.
  repeat match type of E with (if ?c then _ else _) = _ => destruct c; try discriminate E end. injection E as <-.
  cbn [slice] in Ex. destruct (slice_bad _ _ _); [discriminate|]. cbn [vslice bind] in Ex. unfold try_prim in Ex. cbn [vfits] in Ex. injection Ex as <-. eauto.
Qed.
Print Assumptions varbin_slice_keeps_rows.

(** take: right whenever the selected strings fit the offset type (otherwise it panics: [varbin_take_refuted]). *)
Theorem varbin_take_keeps_rows :
  forall (p : ptype) (a : array) (ip : ptype) (idx : list nat) (l : list value), vb_plain p a -> is_int ip = true ->
  spec_take (logical a) idx = Some l -> (Z.of_nat (total_bytes l) <= pmax p)%Z ->
  exists b, take a ip idx = Ok b /\ logical b = l /\ adtype b = adtype a /\ vb_plain p b.
Proof.
  intros p a ip idx l [W (u & ol & bytes & v & ->)] Ii HS HT. pose proof (spec_take_some_inv _ _ _ HS) as HI. rewrite spec_take_pick in HS by exact HI.
  assert (l = pick (logical (AVarBin u (APrim p ol VNonNull) bytes v)) idx) as -> by congruence. clear HS. rewrite logical_length in HI. cbn [alen] in HI. unfold take. rewrite Ii. cbn [depth ops ops_step o_take o_canon].
  set (o := APrim p ol VNonNull) in *. set (h := vb_opt (ints (logical o)) bytes v).
  assert (pick (logical (AVarBin u o bytes v)) idx = map row (map h idx)) as EP.
  { rewrite vb_logical, tab_pick by exact HI. rewrite map_map. symmetry. apply (map_ext_nth_tab (fun x => row (h x)) idx 0). }
  rewrite EP, total_row in HT. pose proof W as W0. cbn [wf] in W0. destruct W0 as ((R & _) & (q & E & Hq) & _). injection E as <-.
  assert (into_prim (Ok o) = Ok (p, ints (logical o), VNonNull)) as EO.
  { unfold into_prim, o. cbn [bind]. cbn [logical vvalid]. rewrite <- (map_ext_nth_tab VInt ol 0%Z). unfold ints. rewrite map_map, map_id. reflexivity. }
  destruct (varbin_take_total f0 u o bytes v p (Ok o) idx W eq_refl EO HI) as (b & Eb & P1 & P2 & P3 & P4 & P5).
  { pose proof (in_range_zero p) as Q; unfold in_range in *. fold h. lia. }
  exists b. split; [exact Eb|]. split; [exact P2|]. pose proof Eb as Eb'. unfold varbin_take in Eb. rewrite EO in Eb. cbn [bind] in Eb. cbv zeta in Eb.
  match type of Eb with (do st <- ?x; _) = _ => destruct x as [st| |]; try discriminate end. cbn [bind] in Eb.
  destruct (finish_shape _ _ _ _ _ Eb) as (ol' & by' & v' & ->).
  split; [|split; [exact P1|eauto]].
  unfold vbb_finish in Eb. destruct (vnullable v) eqn:EN.
  - cbn [bind] in Eb. unfold try_varbin in Eb. repeat match type of Eb with expect (if ?c then _ else _) = _ => destruct c; try discriminate Eb end. injection Eb as <- <- <-.
    cbn [adtype]. rewrite EN. destruct (forallb _ _); [reflexivity|rewrite vnullable_vfrom; reflexivity].
  - destruct (forallb _ _); [|discriminate]. cbn [bind] in Eb. unfold try_varbin in Eb.
    repeat match type of Eb with expect (if ?c then _ else _) = _ => destruct c; try discriminate Eb end. injection Eb as <- <- <-. cbn [adtype vnullable]. rewrite EN. reflexivity.
Qed.
Print Assumptions varbin_take_keeps_rows.

Theorem varbin_filter_keeps_rows :
  forall (p : ptype) (a : array) (m : list bool), vb_plain p a -> length m = length (logical a) ->
  exists b, filter_array a (mask_of m) = Ok b /\ logical b = spec_filter (logical a) m /\ adtype b = adtype a /\ vb_plain p b.
Proof.
  intros p a m [W (u & ol & bytes & v & ->)] Hm. pose proof Hm as Hm'. rewrite logical_length in Hm'. cbn [alen] in Hm'.
  unfold filter_array. cbn [depth ops ops_step o_filter o_canon]. unfold with_mask. cbn [alen mlen mask_of].
  set (o := APrim p ol VNonNull) in *.
  assert (into_prim (Ok o) = Ok (p, ints (logical o), VNonNull)) as EO.
  { unfold into_prim, o. cbn [bind]. cbn [logical vvalid]. rewrite <- (map_ext_nth_tab VInt ol 0%Z). unfold ints. rewrite map_map, map_id. reflexivity. }
  destruct (varbin_filter_core f0 u o bytes v p (Ok o) (mask_of m) W eq_refl EO eq_refl Hm' eq_refl) as (b & Eb & P1 & P2 & P3 & P4 & P5).
  replace (mbits (mask_of m)) with m in P2 by (symmetry; apply mbits_eq; reflexivity). rewrite spec_filter_pick in P2 by exact Hm.
  exists b. rewrite <- Hm', Nat.eqb_refl. split; [exact Eb|]. split; [exact P2|].
  unfold varbin_filter in Eb. rewrite EO in Eb. cbn [bind] in Eb. cbv zeta in Eb.
  match type of Eb with (do st <- ?x; _) = _ => destruct x as [st| |]; try discriminate end. cbn [bind] in Eb.
  destruct (finish_shape _ _ _ _ _ Eb) as (ol' & by' & v' & ->).
  split; [|split; [exact P1|eauto]].
  unfold vbb_finish in Eb. destruct (vnullable v) eqn:EN.
  - cbn [bind] in Eb. unfold try_varbin in Eb. repeat match type of Eb with expect (if ?c then _ else _) = _ => destruct c; try discriminate Eb end. injection Eb as <- <- <-.
    cbn [adtype]. rewrite EN. destruct (forallb _ _); [reflexivity|rewrite vnullable_vfrom; reflexivity].
  - destruct (forallb _ _); [|discriminate]. cbn [bind] in Eb. unfold try_varbin in Eb.
    repeat match type of Eb with expect (if ?c then _ else _) = _ => destruct c; try discriminate Eb end. injection Eb as <- <- <-. cbn [adtype vnullable]. rewrite EN. reflexivity.
Qed.
Print Assumptions varbin_filter_keeps_rows.

Theorem varbin_reads_rows :
  forall (p : ptype) (a : array) (i : nat), vb_plain p a -> i < length (logical a) -> scalar_at a i = Ok (nth i (logical a) VNull).
Proof. intros p a i [W _] Hi. apply (scalar_at_is_the_element f0 a W). exact Hi. Qed.
Print Assumptions varbin_reads_rows.

(** Non-vacuity: a nullable binary array with an empty string and a string that is not UTF-8. *)
Definition ex_vb : list (option (list Z)) := [Some [104; 105]%Z; None; Some []; Some [255]%Z].
Example ex_vb_rows :
  exists a b c d, vb_from_iter false true ex_vb = Ok a /\ vb_plain U32 a /\ logical a = [VBytes [104; 105]%Z; VNull; VBytes []; VBytes [255]%Z] /\
  slice a 1 4 = Ok b /\ logical b = [VNull; VBytes []; VBytes [255]%Z] /\
  take b U64 [2; 0; 2] = Ok c /\ logical c = [VBytes [255]%Z; VNull; VBytes [255]%Z] /\
  filter_array b (mask_of [true; false; true]) = Ok d /\ logical d = [VNull; VBytes [255]%Z].
Proof.
  destruct (varbin_build_keeps_rows false true U32 ex_vb eq_refl ltac:(discriminate) ltac:(discriminate) ltac:(vm_compute; discriminate)) as (a & E & L & _ & V).
  destruct (varbin_slice_keeps_rows U32 a 1 4 V ltac:(lia) ltac:(rewrite L; cbn; lia)) as (b & Eb & Lb & _ & Vb). rewrite L in Lb. cbn in Lb.
  destruct (varbin_take_keeps_rows U32 b U64 [2; 0; 2] [VBytes [255]%Z; VNull; VBytes [255]%Z] Vb eq_refl) as (c & Ec & Lc & _); [rewrite Lb; reflexivity|vm_compute; discriminate|].
  destruct (varbin_filter_keeps_rows U32 b [true; false; true] Vb ltac:(rewrite Lb; reflexivity)) as (d & Ed & Ld & _). rewrite Lb in Ld.
  exists a, b, c, d. auto 10.
Qed.
