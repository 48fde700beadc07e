(** C25 and C43: comparisons and boolean operators on encoded arrays are those of the decoded values. *)
From Verif Require Import Base Spec CmpSpec Arr ArrRead ArrWf ArrSlice ArrReadProofs ArrSliceProofs ArrSliceMain ValidityModel PropValidity
  ArrOps OpsBase OpsFlat OpsCanon OpsVarBin OpsMain PropOps PropOpsX Compare CmpProofs.

(** * C25: compare

    [spec_cmp] (CmpSpec.v) compares two values: null if either is null, otherwise the IEEE order for floats, the numeric, boolean and byte
    orders otherwise. [plain]: no NaN and no -0.0 among the rows (see [nan_compare_refuted]); [eq_fits]: not the equality of two constants of
    different nullability (see [constant_equality_nullability_refuted]); [comparable]: decoding and slicing are total ([fC], [fs]) and
    constants appear only in the supported ways (not null, not inside chunks, not against 64-bit-offset strings). *)
Theorem compare_is_elementwise :
  forall (f : flags) (a b : array) (op : cop),
  wf f a -> wf f b -> fc f = true -> flat (adtype a) = true -> plain a -> plain b -> eq_fits a b op ->
  (forall r, compare a b op = Ok r ->
     length (logical a) = length (logical b) /\ erase (adtype a) = erase (adtype b) /\
     logical r = map2 (spec_cmp (adtype a) op) (logical a) (logical b) /\ adtype r = DBool true /\ wf fr r) /\
  (length (logical a) = length (logical b) -> erase (adtype a) = erase (adtype b) -> comparable f a b -> exists r, compare a b op = Ok r).
Proof.
  intros f a b op Wa Wb C F Pa Pb EF. pose proof (compare_ok (2 * (depth a + depth b) + 2) f a b op Wa Wb C F Pa Pb EF) as H. fold (compare a b op) in H. unfold outc in H. rewrite !logical_length. split.
  - intros r E. rewrite E in H. destruct H as (H1 & H2 & G1 & G2 & G3). auto.
  - intros L E T. assert (need a b <= 2 * (depth a + depth b) + 2) as N by (unfold need; destruct (is_const a && negb (is_const b)); lia). destruct (compare a b op) as [r| |]; [eauto| |]; contradiction (H (conj L (conj E (conj T N)))).
Qed.
Print Assumptions compare_is_elementwise.

(** Comparing the encoded arrays and comparing their decoded forms give the same rows. *)
Theorem compare_commutes_with_decoding :
  forall (f : flags) (a b a' b' r r' : array) (op : cop),
  wf f a -> wf f b -> fc f = true -> flat (adtype a) = true -> plain a -> plain b -> eq_fits a b op ->
  canon a = Ok a' -> canon b = Ok b' -> compare a b op = Ok r -> compare a' b' op = Ok r' -> logical r = logical r'.
Proof.
  intros f a b a' b' r r' op Wa Wb C F Pa Pb EF CA CB R R'.
  destruct (proj1 (compare_is_elementwise f a b op Wa Wb C F Pa Pb EF) r R) as (L & E & G & _). rewrite G.
  pose proof (canon_pl f a Wa C) as PA. rewrite CA in PA. destruct PA as (A1 & A2 & A3 & A4 & A5). pose proof (canon_pl f b Wb C) as PB. rewrite CB in PB. destruct PB as (B1 & B2 & B3 & B4 & B5).
  assert (flat (adtype a') = true) as F' by (rewrite (erase_flat _ _ A3); exact F).
  assert (no_const a') as NC by (destruct a'; try discriminate A1; exact I).
  assert (forall d d' l, erase d = erase d' -> Forall (plain_value d) l -> Forall (plain_value d') l) as PE.
  { intros d d' l Ed. apply Forall_impl. intros x. destruct d, d'; try discriminate; auto. cbn in Ed. injection Ed as <-. auto. }
  destruct (proj1 (compare_is_elementwise (cf f) a' b' op A5 B5 C F' (PE _ _ _ (eq_sym A3) (eq_ind_r (fun l => Forall (plain_value (adtype a)) l) Pa A2)) (PE _ _ _ (eq_sym B3) (eq_ind_r (fun l => Forall (plain_value (adtype b)) l) Pb B2)) (or_intror (or_intror (or_introl NC)))) r' R') as (_ & _ & G' & _).
  rewrite G', A2, B2. apply map2_ext_in. intros x y _ _. apply spec_cmp_erase. symmetry. exact A3.
Qed.
Print Assumptions compare_commutes_with_decoding.

(** Primitive arrays: exactly the IEEE comparison, NaN and -0.0 included. *)
Theorem primitive_compare_is_ieee :
  forall (f g : flags) (p : ptype) (l r : list Z) (v w : validity) (op : cop),
  wf f (APrim p l v) -> wf g (APrim p r w) -> length l = length r ->
  exists c, compare (APrim p l v) (APrim p r w) op = Ok c /\
    logical c = map2 (spec_cmp (DPrim p (vnullable v)) op) (logical (APrim p l v)) (logical (APrim p r w)) /\ adtype c = DBool true.
Proof.
  intros f g p l r v w op [_ Wv] [_ Ww] L. pose proof (prim_compare_ok p l v r w op Wv Ww L) as H. unfold compare. cbn [depth Nat.add Nat.mul]. rewrite compare_S. cbn [alen adtype erase is_const andb own].
  rewrite (proj2 (Nat.eqb_eq _ _) L), dtype_eqb_refl. cbn [negb]. unfold outc in H. destruct (prim_compare p l v p r w op) as [c| |]; [|contradiction (H I)|contradiction (H I)]. destruct H as (H1 & H2 & _). eauto.
Qed.
Print Assumptions primitive_compare_is_ieee.
(** ... and against a non-null constant, on either side. *)
Theorem primitive_constant_compare_is_ieee :
  forall (f g : flags) (p : ptype) (l : list Z) (v : validity) (n : bool) (z : Z) (op : cop),
  wf f (APrim p l v) -> wf g (AConst (DPrim p n) (VInt z) (length l)) ->
  (exists c, compare (APrim p l v) (AConst (DPrim p n) (VInt z) (length l)) op = Ok c /\ adtype c = DBool true /\
    logical c = map (fun x => spec_cmp (DPrim p (vnullable v)) op x (VInt z)) (logical (APrim p l v))) /\
  (exists c, compare (AConst (DPrim p n) (VInt z) (length l)) (APrim p l v) op = Ok c /\ adtype c = DBool true /\
    logical c = map (fun x => spec_cmp (DPrim p (vnullable v)) op (VInt z) x) (logical (APrim p l v))).
Proof.
  intros f g p l v n z op [_ Wv] [T _].
  assert (forall op, exists c, compare_ 1 (APrim p l v) (AConst (DPrim p n) (VInt z) (length l)) op = Ok c /\ compare (APrim p l v) (AConst (DPrim p n) (VInt z) (length l)) op = Ok c /\ adtype c = DBool true /\
    logical c = map (fun x => spec_cmp (DPrim p (vnullable v)) op x (VInt z)) (logical (APrim p l v))) as G.
  { intros o. pose proof (prim_const_compare_ok p l v (VInt z) o (DPrim p n) Wv T eq_refl) as H. unfold compare. cbn [depth Nat.add Nat.mul]. rewrite !compare_S. cbn [alen adtype erase is_const andb own].
    rewrite Nat.eqb_refl, dtype_eqb_refl. cbn [negb]. unfold outc in H. destruct (prim_const_compare p l v (VInt z) o) as [c| |]; [|contradiction H; discriminate|contradiction H; discriminate]. destruct H as (H1 & H2 & _).
    exists c. split; [reflexivity|]. split; [reflexivity|]. split; [exact H2|]. rewrite H1. apply map2_repeat_r. cbn [logical]. rewrite tab_length. reflexivity. }
  split; [destruct (G op) as (c & _ & H); eauto|]. destruct (G (cop_swap op)) as (c & H1 & _ & H2 & H3). exists c. split; [|split; [exact H2|]].
  - unfold compare. cbn [depth Nat.add Nat.mul]. rewrite compare_S. cbn [alen adtype erase is_const andb negb]. rewrite Nat.eqb_refl, dtype_eqb_refl. cbn [negb]. exact H1.
  - rewrite H3. apply map_ext. intros x. apply spec_cmp_swap.
Qed.
Print Assumptions primitive_constant_compare_is_ieee.

(** Extension arrays (dates, times, ...) compare as their storage. *)
Theorem extension_compare_is_storage_compare :
  forall (f : flags) (id : extid) (a b : array) (op : cop),
  wf f a -> wf f b -> fc f = true -> flat (adtype a) = true -> plain a -> plain b -> eq_fits a b op ->
  (forall r, compare (AExt id a) (AExt id b) op = Ok r ->
     length (logical a) = length (logical b) /\ logical r = map2 (spec_cmp (adtype a) op) (logical (AExt id a)) (logical (AExt id b)) /\ adtype r = DBool true /\ wf fr r) /\
  (length (logical a) = length (logical b) -> erase (adtype a) = erase (adtype b) -> comparable f a b -> exists r, compare (AExt id a) (AExt id b) op = Ok r).
Proof.
  intros f id a b op Wa Wb C F Pa Pb EF. unfold compare. cbn [depth].
  replace (2 * (S (depth a) + S (depth b)) + 2) with (S (2 * (depth a + depth b) + 5)) by lia. rewrite compare_S. cbn [alen adtype erase is_const andb own].
  pose proof (compare_ok (2 * (depth a + depth b) + 5) f a b op Wa Wb C F Pa Pb EF) as H. rewrite !logical_length. change (logical (AExt id a)) with (logical a). change (logical (AExt id b)) with (logical b). unfold outc in H. split.
  - intros r. destruct (alen a =? alen b); [|discriminate]. cbn [negb]. destruct (negb _); [discriminate|]. intros E. rewrite E in H. destruct H as (H1 & H2 & G1 & G2 & G3). auto.
  - intros L E T. rewrite (proj2 (Nat.eqb_eq _ _) L), dtype_eqb_refl. cbn [negb]. assert (need a b <= 2 * (depth a + depth b) + 5) as N by (unfold need; destruct (is_const a && negb (is_const b)); lia).
    destruct (compare_ (2 * (depth a + depth b) + 5) a b op) as [r| |]; [eauto| |]; contradiction (H (conj L (conj E (conj T N)))).
Qed.
Print Assumptions extension_compare_is_storage_compare.

(** Different lengths or types are refused. *)
Theorem compare_rejects :
  forall (a b : array) (op : cop), alen a <> alen b \/ erase (adtype a) <> erase (adtype b) -> compare a b op = Err.
Proof.
  intros a b op H. unfold compare. rewrite Nat.add_comm. cbn [Nat.add]. rewrite compare_S. destruct (Nat.eqb_spec (alen a) (alen b)) as [E|E]; [|reflexivity]. cbn [negb].
  destruct (dtype_eqb (erase (adtype a)) (erase (adtype b))) eqn:ED; [|reflexivity]. apply dtype_eqb_eq in ED. destruct H; contradiction.
Qed.
Print Assumptions compare_rejects.

(** The operator tables: [swap] exchanges the sides, [inverse] negates (unless the values are unordered). *)
Theorem operator_swap_is_correct :
  forall (d : dtype) (op : cop) (x y : value), spec_cmp d (cop_swap op) y x = spec_cmp d op x y.
Proof. exact spec_cmp_swap. Qed.
Theorem operator_inverse_is_correct :
  forall (d : dtype) (op : cop) (x y : value), is_null x = false -> is_null y = false -> value_cmp d x y <> None ->
  spec_cmp d (cop_inverse op) x y = VBool (negb (rel op (value_cmp d x y))) /\ spec_cmp d op x y = VBool (rel op (value_cmp d x y)).
Proof. intros d op x y Nx Ny V. unfold spec_cmp. rewrite Nx, Ny. cbn [orb]. rewrite rel_inverse by exact V. auto. Qed.
Theorem operator_tables_are_involutions : forall op : cop, cop_swap (cop_swap op) = op /\ cop_inverse (cop_inverse op) = op.
Proof. intros []; auto. Qed.
Print Assumptions operator_inverse_is_correct.

(** * C43: and / or: elementwise, null where either side is null, whatever the encodings.
    [bool_fits]: a constant is combined only with a BoolArray or a non-empty constant. *)
Theorem and_or_are_elementwise :
  forall (f : flags) (a b : array) (op : bool -> bool -> bool), op = andb \/ op = orb ->
  wf f a -> wf f b -> fc f = true ->
  (forall r, bool_op op a b = Ok r ->
     length (logical a) = length (logical b) /\ is_bool (adtype a) = true /\ is_bool (adtype b) = true /\
     logical r = map2 (spec_bool op) (logical a) (logical b) /\ adtype r = DBool true /\ wf fr r) /\
  (fC f = true -> length (logical a) = length (logical b) -> is_bool (adtype a) = true -> is_bool (adtype b) = true -> bool_fits a b -> exists r, bool_op op a b = Ok r).
Proof.
  intros f a b op O Wa Wb C. assert (forall x y, op x y = op y x) as OC by (destruct O; subst; [apply andb_comm|apply orb_comm]).
  pose proof (bool_op_ok op f a b OC Wa Wb C) as H. unfold outc in H. rewrite !logical_length. split.
  - intros r E. rewrite E in H. destruct H as (H1 & H2 & H3 & G1 & G2 & G3). auto 7.
  - intros T L Da Db B. destruct (bool_op op a b) as [r| |]; [eauto| |]; contradiction (H (conj T (conj L (conj Da (conj Db B))))).
Qed.
Print Assumptions and_or_are_elementwise.
Theorem and_or_reject :
  forall (a b : array) (op : bool -> bool -> bool), alen a <> alen b \/ is_bool (adtype a) = false \/ is_bool (adtype b) = false -> bool_op op a b = Err.
Proof.
  intros a b op H. unfold bool_op. destruct (Nat.eqb_spec (alen a) (alen b)) as [E|E]; [|reflexivity]. cbn [negb]. destruct H as [H|[H|H]]; [contradiction| |]; rewrite H; cbn [negb orb]; [reflexivity|rewrite orb_true_r; reflexivity].
Qed.
Print Assumptions and_or_reject.

(** * Non-vacuity *)
Definition f_cmp : flags := Flags true true true true true true false false false false.
Definition ex_cmp_l : array := AChunked (DPrim U32 true) [APrim U32 [1%Z; 20%Z] VAllValid; dict2; APrim U32 [] VAllInvalid].
Definition ex_cmp_r : array := AFoR U32 (APrim U32 [0%Z; 1%Z; 4%Z; 2%Z; 9%Z] (VBits [true; true; true; true; false])) 11 0.
Example ex_cmp_hyps : wf f_cmp ex_cmp_l /\ wf f_cmp ex_cmp_r /\ plain ex_cmp_l /\ plain ex_cmp_r /\ eq_fits ex_cmp_l ex_cmp_r CLt /\ comparable f_cmp ex_cmp_l ex_cmp_r.
Proof.
  split; [|split; [|split; [|split; [|split]]]].
  - cbn [ex_cmp_l wf]. wf_tac. all: try (left; reflexivity). all: destruct i as [|[|[|i]]]; cbn in *; try discriminate; try reflexivity; try lia.
  - cbn [ex_cmp_r wf]. wf_tac.
  - apply Forall_forall. intros x _. destruct x; try exact I. discriminate.
  - apply Forall_forall. intros x _. destruct x; try exact I. discriminate.
  - right. left. split; discriminate.
  - split; [reflexivity|]. split; [left; reflexivity|]. left. cbn. auto.
Qed.
Example ex_cmp : rows (compare ex_cmp_l ex_cmp_r CLt) = Some [VBool true; VBool false; VBool false; VNull; VNull].
Proof. vm_compute. reflexivity. Qed.
Example ex_cmp_const : rows (compare (AConst (DPrim U32 false) (VInt 15) 5) ex_cmp_l CGe) = Some [VBool true; VBool false; VBool true; VNull; VBool true].
Proof. vm_compute. reflexivity. Qed.
Definition ex_str : array := AVarBin true (APrim I32 [0%Z; 1%Z; 3%Z; 3%Z] VNonNull) [97%Z; 98%Z; 99%Z] (VBits [true; true; false]).
Example ex_str_cmp : rows (compare ex_str (AConst (DUtf8 false) (VBytes [98%Z]) 3) CGt) = Some [VBool false; VBool true; VNull] /\
  rows (compare (AView true [VInl [97%Z]; VInl [98%Z]; VInl []] [] VNonNull) ex_str CEq) = Some [VBool true; VBool false; VNull].
Proof. vm_compute. auto. Qed.
Definition ex_bool_l : array := AChunked (DBool true) [AByteBool [1%Z; 0%Z] VAllValid; ABool 1 [false; true; true] 2 (VBits [false; true])].
Definition ex_bool_r : array := ASparse (APrim U64 [1%Z; 3%Z] VNonNull) (ABool 0 [true; false] 2 VAllValid) 0 4 VNull.
Example ex_bool_hyps : wf f_cmp ex_bool_l /\ wf f_cmp ex_bool_r /\ bool_fits ex_bool_l ex_bool_r.
Proof.
  split; [|split].
  - cbn [ex_bool_l wf]. wf_tac. all: try (left; reflexivity).
  - cbn [ex_bool_r wf]. wf_tac. all: left; split; [reflexivity|]; apply Forall_forall; intros x [<-|[<-|[]]]; discriminate.
  - split; discriminate.
Qed.
Example ex_and_or : rows (and_ ex_bool_l ex_bool_r) = Some [VNull; VBool false; VNull; VBool false] /\ rows (or_ ex_bool_l ex_bool_r) = Some [VNull; VBool true; VNull; VBool true].
Proof. vm_compute. auto. Qed.

(** * What fails *)
(** NaN = NaN and 0.0 = -0.0 depend on the encoding: IEEE on primitive arrays, total order after decoding. (0x7FC00000 is NaN.) *)
Theorem nan_compare_refuted :
  let nan := 2143289344%Z in let nz := 2147483648%Z in
  let a := APrim F32 [nan; 0%Z] VNonNull in let b := APrim F32 [nan; nz] VNonNull in
  let a' := AChunked (DPrim F32 false) [ASparse (APrim U64 [0%Z; 1%Z] VNonNull) a 0 2 (VInt 0)] in let b' := ADict (APrim U8 [0%Z; 1%Z] VNonNull) b in
  wf f_cmp a' /\ wf f_cmp b' /\ logical a' = logical a /\ logical b' = logical b /\
  rows (compare a b CEq) = Some [VBool false; VBool true] /\ rows (compare a' b' CEq) = Some [VBool true; VBool false].
Proof. cbv zeta. split; [|split; [|vm_compute; auto]]; cbn [wf]; wf_tac; try (left; reflexivity); try (right; split; reflexivity). Qed.
(** Two equal constants of different nullability are reported as different. *)
Theorem constant_equality_nullability_refuted :
  rows (compare (AConst (DPrim I32 false) (VInt 5) 2) (AConst (DPrim I32 true) (VInt 5) 2) CEq) = Some [VBool false; VBool false] /\
  rows (compare (AConst (DPrim I32 false) (VInt 5) 2) (APrim I32 [5%Z; 5%Z] VAllValid) CEq) = Some [VBool true; VBool true].
Proof. vm_compute. auto. Qed.
(** Comparing two empty constants panics; a primitive column cannot be compared with a null constant, a dictionary can; a string column
    with 64-bit offsets cannot be compared with a constant. *)
Theorem compare_failures_refuted :
  compare (AConst (DPrim I32 false) (VInt 5) 0) (AConst (DPrim I32 false) (VInt 5) 0) CEq = Panic /\
  compare (APrim I32 [5%Z] VAllValid) (AConst (DPrim I32 true) VNull 1) CEq = Err /\
  rows (compare (ADict (APrim U8 [0%Z] VNonNull) (APrim I32 [5%Z] VAllValid)) (AConst (DPrim I32 true) VNull 1) CEq) = Some [VNull] /\
  compare (AVarBin true (APrim U64 [0%Z; 1%Z] VNonNull) [97%Z] VNonNull) (AConst (DUtf8 false) (VBytes [97%Z]) 1) CEq = Err.
Proof. vm_compute. auto. Qed.
(** and/or of a constant with anything but a BoolArray or a non-empty constant is an error; not Kleene logic: null or true is null. *)
Theorem and_or_constant_refuted :
  let c := AConst (DBool false) (VBool true) 2 in
  and_ (AByteBool [1%Z; 0%Z] VNonNull) c = Err /\ and_ c (AByteBool [1%Z; 0%Z] VNonNull) = Err /\
  rows (and_ (ABool 0 [true; false] 2 VNonNull) c) = Some [VBool true; VBool false] /\
  and_ (AConst (DBool false) (VBool true) 0) (AConst (DBool false) (VBool true) 0) = Err /\
  rows (or_ (ABool 0 [true; false] 2 (VBits [true; false])) (ABool 0 [true; true] 2 VNonNull)) = Some [VBool true; VNull].
Proof. vm_compute. auto 6. Qed.
