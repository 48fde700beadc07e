(** C23, C25: comparisons on ALP arrays, and the cases where the code loses or changes values. *)
From Coq Require Import Floats.SpecFloat.
From Verif Require Import Base Spec Scalars FloatCast CmpSpec SearchModel SearchProofs Arr ArrRead ArrWf ArrReadProofs ArrSearchProofs ArrSlice ArrSliceProofs ArrSliceMain
  ValidityModel PropValidity IntEnc PropIntEnc RunEnc PropRunEnc PropUnary PropDict ArrOps OpsBase OpsFlat OpsCanon OpsCanon2 OpsCanon3 OpsSparse OpsTake OpsTake2 OpsVarBin OpsFilter
  OpsChunked OpsMain PropRead PropSlice PropOps DateTime StatsModel Compare CmpProofs PropCompare Alp PropAlp AlpOrder.

(** * Comparison with a constant *)

(** Floats that compare equal and that both survive the encoding have the same code. *)
Lemma enc_of_equal p e f x z : p = F32 \/ p = F64 -> exps_ok p e f = true -> in_range p x -> in_range p z -> feqb p x z = true -> alp_enc p e f x = alp_enc p e f z.
Proof.
  intros P E Rx Rz Q. destruct (alp_sign p P) as (S1 & S2 & M1 & M2). destruct (Z.eq_dec z 0) as [Z0|Z0]; [|destruct (Z.eq_dec z (minus_zero p)) as [Z1|Z1]].
  3: { f_equal. apply (feqb_bits p); auto. unfold in_range in Rx. lia. }
  all: assert (x = 0%Z \/ x = minus_zero p) as X; [|rewrite !enc_zero by auto; reflexivity].
  all: unfold feqb, ieee_cmp in Q; destruct (CmpSpec.is_nan p x || CmpSpec.is_nan p z); [discriminate Q|]; destruct (Z.compare_spec (float_key p x) (float_key p z)) as [C|C|C]; try discriminate Q.
  all: unfold in_range in Rx; rewrite M1, M2 in Rx; unfold float_key, magnitude, is_neg, minus_zero in *; set (s := sign_bit p) in *; clearbody s; clear Q; subst z.
  all: destruct (Z.leb_spec s x), (Z.leb_spec s 0); try (destruct (Z.leb_spec s s)); lia.
Qed.
Lemma feqb_alt p x z : feqb p x z = true -> ieee_cmp p x z = Some Eq.
Proof. unfold feqb. destruct (ieee_cmp p x z) as [[]|]; congruence. Qed.
Lemma feqb_trans p x y z : feqb p x y = true -> feqb p x z = true -> feqb p y z = true.
Proof.
  unfold feqb, ieee_cmp. destruct (CmpSpec.is_nan p x), (CmpSpec.is_nan p y), (CmpSpec.is_nan p z); cbn [orb]; try discriminate.
  destruct (Z.compare_spec (float_key p x) (float_key p y)); try discriminate. destruct (Z.compare_spec (float_key p x) (float_key p z)); try discriminate.
  intros _ _. rewrite (proj2 (Z.compare_eq_iff _ _)) by congruence. reflexivity.
Qed.
Lemma enc_eq_iff p e f x z : p = F32 \/ p = F64 -> exps_ok p e f = true -> in_range p x -> in_range p z -> alp_bad p e f x = false -> alp_bad p e f z = false ->
  (alp_enc p e f x =? alp_enc p e f z)%Z = feqb p x z.
Proof.
  intros P E Rx Rz Bx Bz. destruct (feqb p x z) eqn:Q; [apply Z.eqb_eq, (enc_of_equal p); auto|]. apply Z.eqb_neq. intros C.
  unfold alp_bad in *. apply negb_false_iff in Bx, Bz. rewrite C in Bx. rewrite (feqb_trans _ _ _ _ Bx Bz) in Q. discriminate Q.
Qed.
(** Codes compare as the floats they encode. *)
Lemma enc_compare p e f x z : p = F32 \/ p = F64 -> exps_ok p e f = true -> in_range p x -> in_range p z -> alp_bad p e f x = false -> alp_bad p e f z = false ->
  Some (alp_enc p e f x ?= alp_enc p e f z)%Z = ieee_cmp p x z.
Proof.
  intros P E Rx Rz Bx Bz. pose proof (enc_eq_iff p e f x z P E Rx Rz Bx Bz) as Q. pose proof (enc_order p e f x z P E Bx Bz) as L1. pose proof (enc_order p e f z x P E Bz Bx) as L2.
  assert (forall y, alp_bad p e f y = false -> CmpSpec.is_nan p y = false) as NN.
  { intros y B. unfold alp_bad, feqb, ieee_cmp in B. apply negb_false_iff in B. destruct (CmpSpec.is_nan p y); [|reflexivity]. rewrite orb_true_r in B. discriminate B. }
  unfold feqb, ieee_cmp in *. rewrite (NN x Bx), (NN z Bz) in *. cbn [orb] in *. f_equal.
  destruct (Z.eqb_spec (alp_enc p e f x) (alp_enc p e f z)) as [EQ|NE]; destruct (Z.compare_spec (float_key p x) (float_key p z)) as [C|C|C]; try discriminate Q.
  - apply Z.compare_eq_iff. exact EQ.
  - apply Z.compare_lt_iff. lia.
  - apply Z.compare_gt_iff. lia.
Qed.
Lemma bad_drop p e f z : p = F32 \/ p = F64 -> alp_bad p e f z = false -> CmpSpec.is_nan p z = false.
Proof. intros P B. unfold alp_bad, feqb, ieee_cmp in B. apply negb_false_iff in B. destruct (CmpSpec.is_nan p z); [|reflexivity]. rewrite orb_true_r in B. discriminate B. Qed.

Lemma prim_small q n : forall a g, adtype a = DPrim q n -> wf g a -> small_strings a.
Proof.
  intros a. apply (array_ind' (fun x => forall g, adtype x = DPrim q n -> wf g x -> small_strings x)); try (intros; exact I).
  - intros u offs bytes v _ g T. cbn [adtype] in T. destruct u; discriminate T.
  - intros d cs IH g T W. cbn [adtype] in T. apply small_chunks. cbn [wf] in W. destruct W as [W _]. rewrite wf_chunks_iff in W. rewrite Forall_forall in *. intros x Hx. destruct (W x Hx) as [W1 W2]. apply (IH x Hx g); congruence.
Qed.

(** Every value of the array survives the encoding. *)
Definition unpatched (a : alp) (p : ptype) (rows : list value) : Prop :=
  l_patches a = None /\
  forall i z, i < length rows -> nth i rows VNull = VInt z -> in_range p z /\ alp_bad p (l_e a) (l_f a) z = false /\ nth i (logical (l_enc a)) VNull = VInt (alp_enc p (l_e a) (l_f a) z).

(** All six comparisons with a constant, when neither the array nor the constant needs a patch. *)
Theorem alp_compare_is_elementwise :
  forall (g : flags) (p : ptype) (n : bool) (a : alp) (rows : list value) (d : dtype) (c : Z) (op : cop),
  alp_holds g p n a rows -> unpatched a p rows -> fc g = true -> fC g = true -> (fs g = true \/ is_chunked (l_enc a) = false) ->
  no_const (l_enc a) -> rows <> [] -> erase d = DPrim p false -> in_range p c -> alp_bad p (l_e a) (l_f a) c = false ->
  exists r, alp_compare a d (VInt c) (length rows) op = Ok r /\ adtype r = DBool true /\
    logical r = map (fun x => spec_cmp (DPrim p n) op x (VInt c)) rows.
Proof.
  intros g p n a rows d c op (P & E & W & T & L & HQ & HR) [N U] C CC FS NC NE ED Rc Bc. unfold alp_compare. rewrite (alp_type_ok _ p n P T). cbn [bind].
  rewrite <- logical_length, L, Nat.eqb_refl. cbn [negb erase]. rewrite ED, dtype_eqb_refl. cbn [negb]. assert (length rows <> 0) as NZ by (destruct rows; [congruence|discriminate]).
  rewrite (proj2 (Nat.eqb_neq _ _)) by exact NZ. unfold encode_single. rewrite E, Bc. cbn [bind].
  set (k := alp_enc p (l_e a) (l_f a) c). set (b := AConst (DPrim (alp_int p) false) (VInt k) (length rows)).
  assert (is_float (alp_int p) = false) as NF by (destruct P as [-> | ->]; reflexivity).
  assert (wf g b) as Wb. { unfold b. cbn [wf vtyped]. split; [apply alp_enc_range; exact P|]. intros _. split; [reflexivity|discriminate]. }
  destruct (compare_is_elementwise g (l_enc a) b op W Wb C ltac:(rewrite T; reflexivity)) as [G1 G2].
  { unfold plain. rewrite T. apply Forall_forall. intros x _. destruct x; cbn [plain_value]; try exact I. intros X. rewrite NF in X. discriminate X. }
  { unfold plain, b. cbn [adtype]. apply Forall_forall. intros x _. destruct x; cbn [plain_value]; try exact I. intros X. rewrite NF in X. discriminate X. }
  { right. right. left. exact NC. }
  destruct G2 as (r & ER).
  { rewrite !logical_length in *. unfold b. cbn [alen]. exact L. }
  { rewrite T. reflexivity. }
  { split; [exact CC|]. split; [destruct FS; auto|]. right. right. left. split; [unfold b; cbn [const_nn]; discriminate|]. split; [exact NC|]. exact (prim_small _ _ _ _ T W). }
  exists r. split; [exact ER|]. destruct (G1 r ER) as (_ & _ & G3 & G4 & _). split; [exact G4|]. rewrite G3. unfold b. cbn [logical]. rewrite map2_repeat_r by (symmetry; exact L).
  apply (nth_ext _ _ VNull VNull); [rewrite !map_length; exact L|]. intros i Hi. rewrite map_length in Hi. rewrite (map_nth_lt _ (logical (l_enc a)) VNull) by exact Hi. rewrite L in Hi. rewrite (map_nth_lt _ rows VNull) by exact Hi.
  pose proof (Forall_nth_lt _ _ VNull i (vtyped_logical _ _ W) ltac:(rewrite L; exact Hi)) as VT. cbv beta in VT. rewrite T in VT.
  pose proof (HR i Hi) as Ri. unfold patch_at in Ri. rewrite N in Ri. destruct (nth i rows VNull) as [|x|z|x|x] eqn:Ei.
  2, 4, 5: destruct (nth i (logical (l_enc a)) VNull); discriminate Ri.
  - destruct (nth i (logical (l_enc a)) VNull); cbn [alp_row] in Ri; try discriminate Ri; try reflexivity; contradiction VT.
  - destruct (U i z Hi Ei) as (Rz & Bz & ->). unfold spec_cmp. cbn [is_null orb value_cmp]. rewrite T. rewrite NF. assert (is_float p = true) as -> by (destruct P as [-> | ->]; reflexivity).
    unfold k. rewrite (enc_compare p _ _ z c P E Rz Rc Bz Bc). reflexivity.
Qed.
Print Assumptions alp_compare_is_elementwise.

Lemma no_patches bad l : forall i, Forall (fun z => bad z = false) l -> chunk_patches bad i l = [].
Proof. induction l as [|x l IH]; intros i F; [reflexivity|]. inversion F as [|? ? H1 H2]; subst. cbn [chunk_patches]. rewrite H1. apply IH. exact H2. Qed.
Lemma drop_same_cmp p n op z c : p = F32 \/ p = F64 -> spec_cmp (DPrim p n) op (drop_zero_sign p (VInt z)) (VInt c) = spec_cmp (DPrim p n) op (VInt z) (VInt c).
Proof.
  intros P. cbn [drop_zero_sign]. destruct (Z.eqb_spec z (minus_zero p)) as [->|]; [|reflexivity]. unfold spec_cmp. cbn [is_null orb value_cmp].
  destruct P as [-> | ->]; reflexivity.
Qed.
(** The same about a freshly encoded array: comparing the encoded form gives what comparing the floats gives. *)
Theorem alp_encode_then_compare :
  forall (p : ptype) (l : list Z) (v : validity) (e f : nat) (d : dtype) (c : Z) (op : cop),
  (p = F32 \/ p = F64) -> wf f0 (APrim p l v) -> (Z.of_nat (length l) <= pmax U64)%Z -> exps_ok p e f = true -> l <> [] ->
  Forall (fun z => alp_bad p e f z = false) l -> erase d = DPrim p false -> in_range p c -> alp_bad p e f c = false ->
  exists a r, alp_encode (APrim p l v) (Some (e, f)) = Ok a /\ alp_compare a d (VInt c) (length l) op = Ok r /\
    logical r = map (fun x => spec_cmp (DPrim p (vnullable v)) op x (VInt c)) (logical (APrim p l v)).
Proof.
  intros p l v e f d c op P W HL E NE F ED Rc Bc. set (g := Flags false false true true false false false false false false).
  destruct (alp_encode_keeps_values g p l v (Some (e, f)) P W HL E) as (a & E1 & H). { intros [X|[X|X]]; discriminate X. }
  exists a. destruct (encode_with_ok p e f l P E) as (st & E3 & (I1 & I2 & I3 & I4 & I5 & _)).
  assert (a = ALP (APrim (alp_int p) (es_enc st) v) e f None) as EA.
  { unfold alp_encode in E1. destruct (negb _) in E1; [discriminate E1|]. cbn [bind] in E1. rewrite E3 in E1. cbn [bind] in E1. rewrite I3, no_patches in E1 by exact F. cbn [map bind] in E1.
    destruct W as [WR WV]. unfold try_prim in E1. rewrite (proj2 (vfits_vwf _ _)) in E1 by (rewrite I1; exact WV). cbn [expect bind negb] in E1. unfold try_alp in E1.
    destruct (alp_type _) as [[? ?]| |]; cbn [bind] in E1; congruence. }
  destruct (alp_compare_is_elementwise g p (vnullable v) a _ d c op H) as (r & E2 & _ & LR); try exact eq_refl; auto; subst a; cbn [l_enc l_e l_f l_patches].
  - split; [reflexivity|]. cbn [l_enc l_e l_f]. rewrite map_length, prim_len. intros i z Hi. rewrite (map_nth_lt (drop_zero_sign p) _ VNull) by (rewrite prim_len; exact Hi).
    rewrite !nth_prim by (rewrite ?I1; exact Hi). destruct W as [WR WV]. pose proof (Forall_nth_lt _ _ 0%Z i WR Hi) as Rz. cbv beta in Rz. pose proof (Forall_nth_lt _ _ 0%Z i F Hi) as Bz. cbv beta in Bz.
    destruct (vvalid v i); [|discriminate]. rewrite (I5 i Hi Bz). cbn [drop_zero_sign]. destruct (Z.eqb_spec (nth i l 0%Z) (minus_zero p)) as [EQ|EQ]; intros X; injection X as <-.
    + rewrite EQ. rewrite enc_zero by auto. rewrite enc_zero by auto. split; [|split; [|reflexivity]].
      * destruct P as [-> | ->]; vm_compute; split; congruence.
      * unfold alp_bad. rewrite enc_zero by auto. rewrite dec_zero by auto. destruct P as [-> | ->]; reflexivity.
    + auto.
  - right. reflexivity.
  - exact I.
  - intros X; apply map_eq_nil in X; apply NE; destruct l; [reflexivity|discriminate X].
  - exact Bc.
  - exists r. split; [exact E1|]. rewrite map_length, prim_len in E2. split; [exact E2|]. rewrite LR, map_map. apply map_ext. intros x. destruct x as [|b|z|s|fs]; try reflexivity. apply drop_same_cmp. exact P.
Qed.
Print Assumptions alp_encode_then_compare.

(** * Rejections *)

(** Only floats can be encoded; the exponents must be in the tables unless the array is empty. *)
Theorem alp_encode_rejects :
  (forall a exps, (forall p l v, a = APrim p l v -> p <> F32 /\ p <> F64) -> alp_encode a exps = Err) /\
  (forall p l v e f, p = F32 \/ p = F64 -> exps_ok p e f = false -> l <> [] -> alp_encode (APrim p l v) (Some (e, f)) = Panic).
Proof.
  split.
  - intros a exps H. destruct a; try reflexivity. cbn [alp_encode]. destruct (H _ _ _ eq_refl) as [H1 H2]. destruct p; try reflexivity; congruence.
  - intros p l v e f P E N. cbn [alp_encode]. assert (negb (match p with F32 | F64 => true | _ => false end) = false) as -> by (destruct P as [-> | ->]; reflexivity).
    cbn [bind]. unfold encode_with. rewrite E. destruct l; [congruence|]. reflexivity.
Qed.
Print Assumptions alp_encode_rejects.

(** * Where the code goes wrong *)

(** 1.0, 2.0, 0.1, NaN and -0.0 as 32-bit patterns. *)
Definition one32 := 1065353216%Z.
Definition two32 := 1073741824%Z.
Definition tenth32 := 1036831949%Z.
Definition nan32 := 2143289344%Z.
Definition nzero32 := 2147483648%Z.

(** The sign of zero is lost. *)
Theorem alp_negative_zero_refuted :
  exists a r, alp_encode (APrim F32 [nzero32] VNonNull) None = Ok a /\ alp_decode a = Ok r /\ logical (APrim F32 [nzero32] VNonNull) = [VInt nzero32] /\ logical r = [VInt 0].
Proof. eexists. eexists. split; [vm_compute; reflexivity|]. split; [vm_compute; reflexivity|]. split; reflexivity. Qed.

(** A patched row is compared by the fill value that stands in for it: NaN == 1.0 gives true. *)
Theorem alp_compare_patched_refuted :
  exists a r, alp_encode (APrim F32 [one32; nan32] VNonNull) (Some (1, 0)) = Ok a /\
    alp_compare a (DPrim F32 false) (VInt one32) 2 CEq = Ok r /\ logical r = [VBool true; VBool true] /\
    map (fun x => spec_cmp (DPrim F32 false) CEq x (VInt one32)) (logical (APrim F32 [one32; nan32] VNonNull)) = [VBool true; VBool false].
Proof. eexists. eexists. split; [vm_compute; reflexivity|]. split; [vm_compute; reflexivity|]. split; vm_compute; reflexivity. Qed.

(** A constant that does not survive the encoding, here 0.1 with exponents (0, 0): without patches every operator gives false; with patches, the
    unpatched rows come out null. *)
Theorem alp_compare_constant_refuted :
  (exists a r, alp_encode (APrim F32 [one32; two32] VNonNull) (Some (0, 0)) = Ok a /\
    alp_compare a (DPrim F32 false) (VInt tenth32) 2 CGt = Ok r /\ logical r = [VBool false; VBool false] /\
    map (fun x => spec_cmp (DPrim F32 false) CGt x (VInt tenth32)) (logical (APrim F32 [one32; two32] VNonNull)) = [VBool true; VBool true]) /\
  (exists a r, alp_encode (APrim F32 [one32; tenth32] VNonNull) (Some (0, 0)) = Ok a /\
    alp_compare a (DPrim F32 false) (VInt tenth32) 2 CEq = Ok r /\ logical r = [VNull; VBool true] /\
    map (fun x => spec_cmp (DPrim F32 false) CEq x (VInt tenth32)) (logical (APrim F32 [one32; tenth32] VNonNull)) = [VBool false; VBool true]) /\
  (exists a r, alp_encode (APrim F32 [one32; two32] (VBits [true; false])) (Some (0, 0)) = Ok a /\
    alp_compare a (DPrim F32 false) (VInt tenth32) 2 CEq = Ok r /\ logical r = [VBool false; VBool false] /\
    map (fun x => spec_cmp (DPrim F32 false) CEq x (VInt tenth32)) (logical (APrim F32 [one32; two32] (VBits [true; false]))) = [VBool false; VNull]).
Proof. split; [|split]; eexists; eexists; (split; [vm_compute; reflexivity|]); (split; [vm_compute; reflexivity|]); split; vm_compute; reflexivity. Qed.

(** A null constant gives false, not null; comparing empty arrays panics. *)
Theorem alp_compare_null_refuted :
  (exists a r, alp_encode (APrim F32 [one32] VNonNull) (Some (0, 0)) = Ok a /\ alp_compare a (DPrim F32 true) VNull 1 CEq = Ok r /\ logical r = [VBool false]) /\
  (forall a p n x d op, alp_type (l_enc a) = Ok (p, n) -> alen (l_enc a) = 0 -> erase d = DPrim p false -> alp_compare a d x 0 op = Panic).
Proof.
  split; [eexists; eexists; (split; [vm_compute; reflexivity|]); (split; [vm_compute; reflexivity|]); vm_compute; reflexivity|].
  intros a p n x d op T L D. unfold alp_compare. rewrite T. cbn [bind]. rewrite L. cbn [Nat.eqb negb erase]. rewrite D, dtype_eqb_refl. reflexivity.
Qed.

(** The constructor accepts patches in any encoding; only sparse ones can be decoded. *)
Theorem alp_dense_patches_refuted :
  exists a, try_alp (APrim I32 [10%Z] VNonNull) 1 0 (Some (APrim F32 [one32] VAllValid)) = Ok a /\ alp_decode a = Err /\ alp_scalar_at a 0 = Ok (VInt one32).
Proof. eexists. split; [vm_compute; reflexivity|]. split; vm_compute; reflexivity. Qed.

(** * The hypotheses can be met *)

(** 1.0, NaN (patched), null, 2.0, -0.0 with chosen exponents; the rows of the encoded array. *)
Example ex_alp : exists a, alp_encode (APrim F32 [one32; nan32; tenth32; two32; nzero32] (VBits [true; true; false; true; true])) None = Ok a /\
  (exists q, l_patches a = Some q) /\
  alp_holds f_cmp F32 true a [VInt one32; VInt nan32; VNull; VInt two32; VInt 0].
Proof.
  destruct (alp_encode_keeps_values f_cmp F32 [one32; nan32; tenth32; two32; nzero32] (VBits [true; true; false; true; true]) None) as (a & E & H); auto.
  - split; [|reflexivity]. repeat (apply Forall_cons; [vm_compute; split; congruence|]). apply Forall_nil.
  - cbn [length]. change (pmax U64) with 18446744073709551615%Z. lia.
  - intros [X|[X|X]]; discriminate X.
  - exists a. split; [exact E|]. split; [|exact H]. assert (match l_patches a with Some _ => true | None => false end = true) as Q.
    { transitivity (match alp_encode (APrim F32 [one32; nan32; tenth32; two32; nzero32] (VBits [true; true; false; true; true])) None with Ok b => match l_patches b with Some _ => true | None => false end | _ => false end); [rewrite E; reflexivity|vm_compute; reflexivity]. }
    destruct (l_patches a); [eauto|discriminate Q].
Qed.
Example ex_alp_eq : Forall (fun z => alp_bad F32 1 0 z = false) [one32; tenth32; nzero32] /\ alp_bad F32 1 0 tenth32 = false /\ exps_ok F32 1 0 = true /\ wf f0 (APrim F32 [one32; tenth32; nzero32] (VBits [true; true; false])).
Proof.
  split; [repeat (apply Forall_cons; [vm_compute; reflexivity|]); apply Forall_nil|]. split; [vm_compute; reflexivity|]. split; [reflexivity|].
  split; [|reflexivity]. repeat (apply Forall_cons; [vm_compute; split; congruence|]). apply Forall_nil.
Qed.
