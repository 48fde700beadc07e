(** C55: the checked constructors accept exactly the parts that fit together. *)
From Verif Require Import Base Spec SearchModel Arr ArrRead ArrWf ArrReadProofs ArrSlice ArrSliceProofs PropRead RunEnc ArrOps
  DateTime Alp AlpRd Fsst Roaring.

(** * What the statements mean *)

(** A validity fits [n] rows: a bitmap has one bit per row (other validities have no length). *)
Definition validity_fits (v : validity) (n : nat) : Prop := forall l, v = VBits l -> length l = n.
(** Data types of children. *)
Definition unsigned_nonnull (d : dtype) : Prop := exists p, d = DPrim p false /\ (p = U8 \/ p = U16 \/ p = U32 \/ p = U64).
Definition integer_nonnull (d : dtype) : Prop :=
  exists p, d = DPrim p false /\ (p = U8 \/ p = U16 \/ p = U32 \/ p = U64 \/ p = I8 \/ p = I16 \/ p = I32 \/ p = I64).
Definition unsigned (d : dtype) : Prop := exists p n, d = DPrim p n /\ (p = U8 \/ p = U16 \/ p = U32 \/ p = U64).
(** Strictly increasing. *)
Definition increasing (l : list Z) : Prop := forall i j, i < j < length l -> (nth i l 0 < nth j l 0)%Z.
(** A value can be an element of data type [d]. *)
Definition fills (d : dtype) (x : value) : Prop :=
  match x with
  | VNull => nullable d = true
  | VBool _ => exists n, d = DBool n
  | VInt z => exists p n, d = DPrim p n /\ in_range p z
  | VBytes _ => exists n, d = DUtf8 n \/ d = DBinary n
  | VStruct _ => exists ns ts n, d = DStruct ns ts n
  end.

Lemma vfits_fits v n : vfits v n = true <-> validity_fits v n.
Proof.
  unfold validity_fits. destruct v; cbn; try (split; [discriminate|reflexivity] || (split; [intros _ l; discriminate|reflexivity])).
  rewrite Nat.eqb_eq. split; [intros E l' X; injection X as <-; exact E|intros E; exact (E _ eq_refl)].
Qed.
Lemma vwf_fits v n : vwf v n <-> validity_fits v n.
Proof. rewrite <- vfits_fits, vfits_vwf. reflexivity. Qed.
Lemma uint_spec d : uint_nonnull d = true <-> unsigned_nonnull d.
Proof.
  unfold unsigned_nonnull, uint_nonnull. split.
  - destruct d as [|n|p n|n|n|ns ts n|id n]; try discriminate. destruct n; [discriminate|]. intros E. exists p. split; [reflexivity|]. destruct p; try discriminate; auto.
  - intros (p & -> & H). destruct H as [->|[->|[->| ->]]]; reflexivity.
Qed.
Lemma int_spec d : int_nonnull d = true <-> integer_nonnull d.
Proof.
  unfold integer_nonnull, int_nonnull. split.
  - destruct d as [|n|p n|n|n|ns ts n|id n]; try discriminate. destruct n; [discriminate|]. intros E. exists p. split; [reflexivity|]. destruct p; try discriminate; auto 9.
  - intros (p & -> & H). intuition subst; reflexivity.
Qed.
Lemma isuint_spec d : is_uint d = true <-> unsigned d.
Proof.
  unfold unsigned, is_uint. split.
  - destruct d as [|n|p n|n|n|ns ts n|id n]; try discriminate. intros E. exists p, n. split; [reflexivity|]. destruct p; try discriminate; auto.
  - intros (p & n & -> & H). destruct H as [->|[->|[->| ->]]]; reflexivity.
Qed.
Lemma sorted_spec l : ssortedb l = true <-> increasing l.
Proof.
  rewrite ssortedb_spec. split.
  - intros H i j [A B]. apply ssortedZ_nth; assumption.
  - unfold increasing. induction l as [|x r IH]; [intros _; exact I|]. intros H. cbn [ssortedZ]. split.
    + intros y Hy. apply (In_nth _ _ 0%Z) in Hy. destruct Hy as (k & Hk & <-). apply (H 0 (S k)). cbn [length]. lia.
    + apply IH. intros i j L. apply (H (S i) (S j)). cbn [length]. lia.
Qed.
Lemma instance_spec x d : instance_of x d = true <-> fills d x.
Proof.
  unfold fills. destruct x; destruct d as [|n|p n|n|n|ns ts n|id n]; cbn [instance_of]; try reflexivity;
    try (split; [discriminate|intros (? & E); discriminate E]);
    try (split; [discriminate|intros (? & [E|E]); discriminate E]);
    try (split; [discriminate|intros (? & ? & E & _); discriminate E]);
    try (split; [discriminate|intros (? & ? & ? & E); discriminate E]);
    try (split; [intros _; eauto|reflexivity]).
  - unfold in_rangeb, in_range. rewrite andb_true_iff, !Z.leb_le. split; [intros H; exists p, n; split; [reflexivity|lia]|].
    intros (? & ? & E & H). injection E as <- <-. lia.
Qed.
Ltac no := split; [intros [? ?]; discriminate|].

(** * Containers *)

(** A struct is accepted exactly if it has one name per field, every field has its length, and the validity fits. What is accepted has
    the given length, the field types, and reads its fields. *)
Theorem struct_parts_accepted_exactly : forall ns fls n v,
  ((exists a, try_struct ns fls n v = Ok a) <->
   length ns = length fls /\ (forall x, In x fls -> alen x = n) /\ validity_fits v n) /\
  forall a, try_struct ns fls n v = Ok a ->
    alen a = n /\ adtype a = DStruct ns (map adtype fls) (vnullable v) /\ forall f, Forall (wf f) fls -> wf f a.
Proof.
  intros ns fls n v. assert (forallb (fun x => alen x =? n) fls = true <-> forall x, In x fls -> alen x = n) as F.
  { rewrite forallb_forall. split; intros H x Hx; apply Nat.eqb_eq, H, Hx. }
  unfold try_struct. split.
  - destruct (Nat.eqb_spec (length ns) (length fls)) as [L|L]; cbn [negb]; [|no; tauto].
    destruct (forallb (fun x => alen x =? n) fls) eqn:E; cbn [negb]; [|no; intros (_ & H & _); apply F in H; discriminate].
    destruct (vfits v n) eqn:V; cbn [negb]; [|no; intros (_ & _ & H); apply vfits_fits in H; congruence].
    apply vfits_fits in V. split; [intros _; split; [exact L|split; [exact (proj1 F eq_refl)|exact V]]|eauto].
  - intros a H. destruct (Nat.eqb_spec (length ns) (length fls)) as [L|L]; cbn [negb] in H; [|discriminate].
    destruct (forallb (fun x => alen x =? n) fls) eqn:E; cbn [negb] in H; [|discriminate].
    destruct (vfits v n) eqn:V; cbn [negb] in H; [|discriminate]. assert (a = AStruct ns fls n v) as -> by congruence.
    split; [reflexivity|]. split; [reflexivity|]. intros f W. apply wf_struct_iff. split; [exact L|]. split; [apply vfits_vwf, V|].
    rewrite Forall_forall in *. intros x Hx. split; [exact (W x Hx)|exact (proj1 F eq_refl x Hx)].
Qed.
Print Assumptions struct_parts_accepted_exactly.

(** Chunks are accepted exactly if all have the given data type; what is accepted has the rows of the chunks in order. *)
Theorem chunks_accepted_exactly : forall cs d,
  ((exists a, try_chunked cs d = Ok a) <-> forall c, In c cs -> adtype c = d) /\
  forall a, try_chunked cs d = Ok a ->
    adtype a = d /\ alen a = list_sum (map alen cs) /\ logical a = concat (map logical cs) /\
    (Forall (wf f0) cs -> wf f0 a).
Proof.
  intros cs d. assert (forallb (fun c => dtype_eqb (adtype c) d) cs = true <-> forall c, In c cs -> adtype c = d) as F.
  { rewrite forallb_forall. split; intros H x Hx; apply dtype_eqb_eq, H, Hx. }
  unfold try_chunked. destruct (forallb (fun c => dtype_eqb (adtype c) d) cs) eqn:E.
  - split; [split; [intros _; apply F; reflexivity|eauto]|]. intros a H. assert (a = AChunked d cs) as -> by congruence. do 3 (split; [reflexivity|]).
    intros W. cbn [wf]. split; [|split; [discriminate|split; [reflexivity|repeat (split; [discriminate|])]]]; [|discriminate].
    apply wf_chunks_iff. rewrite Forall_forall in *. intros x Hx. split; [exact (W x Hx)|exact (proj1 F eq_refl x Hx)].
  - split; [no; intros H; apply F in H; discriminate|discriminate].
Qed.
Print Assumptions chunks_accepted_exactly.

(** * Flat arrays *)

(** The only thing to check is the validity. *)
Theorem flat_parts_accepted_exactly :
  (forall p l v, ((exists a, try_prim p l v = Ok a) <-> validity_fits v (length l)) /\
     forall a, try_prim p l v = Ok a -> alen a = length l /\ adtype a = DPrim p (vnullable v) /\ forall f, Forall (in_range p) l -> wf f a) /\
  (forall off buf n v, ((exists a, try_bool off buf n v = Ok a) <-> validity_fits v n) /\
     forall a, try_bool off buf n v = Ok a ->
       alen a = n /\ adtype a = DBool (vnullable v) /\
       (off + n <= length buf -> (forall f, wf f a) /\
          forall i, i < n -> nth i (logical a) VNull = if vvalid v i then VBool (nth (off + i) buf false) else VNull)) /\
  (forall l v, ((exists a, try_bytebool l v = Ok a) <-> validity_fits v (length l)) /\
     forall a, try_bytebool l v = Ok a ->
       alen a = length l /\ adtype a = DBool (vnullable v) /\ (Forall (fun z => z = 0 \/ z = 1)%Z l -> wf f0 a)) /\
  (forall u ws bufs v, ((exists a, try_view u ws bufs v = Ok a) <-> validity_fits v (length ws)) /\
     forall a, try_view u ws bufs v = Ok a ->
       alen a = length ws /\ adtype a = (if u then DUtf8 (vnullable v) else DBinary (vnullable v)) /\
       (u = false -> Forall (view_ok bufs) ws -> wf f0 a)).
Proof.
  split; [|split; [|split]].
  - intros p l v. unfold try_prim. rewrite <- vfits_fits. destruct (vfits v (length l)) eqn:V; [|split; [no; discriminate|discriminate]].
    split; [split; eauto|]. intros a H. assert (a = APrim p l v) as -> by congruence. do 2 (split; [reflexivity|]).
    intros f R. split; [exact R|apply vfits_vwf, V].
  - intros off buf n v. unfold try_bool. rewrite <- vfits_fits. destruct (vfits v n) eqn:V; [|split; [no; discriminate|discriminate]].
    split; [split; eauto|]. intros a H. assert (a = ABool (off mod 8) (skipn (8 * (off / 8)) buf) n v) as -> by congruence.
    do 2 (split; [reflexivity|]). intros L. pose proof (Nat.div_mod off 8). pose proof (Nat.mod_upper_bound off 8). split.
    + intros f. cbn [wf]. rewrite skipn_length. split; [lia|]. split; [lia|apply vfits_vwf, V].
    + intros i Hi. cbn [logical]. rewrite nth_tab by exact Hi. destruct (vvalid v i); [|reflexivity]. rewrite nth_skipn. do 2 f_equal. lia.
  - intros l v. unfold try_bytebool. rewrite <- vfits_fits. destruct (vfits v (length l)) eqn:V; [|split; [no; discriminate|discriminate]].
    split; [split; eauto|]. intros a H. assert (a = AByteBool l v) as -> by congruence. do 2 (split; [reflexivity|]).
    intros R. split; [exact R|]. split; [apply vfits_vwf, V|discriminate].
  - intros u ws bufs v. unfold try_view. rewrite <- vfits_fits. destruct (vfits v (length ws)) eqn:V; cbn [negb]; [|split; [no; discriminate|discriminate]].
    split; [split; eauto|]. intros a H. assert (a = AView u ws bufs v) as -> by congruence. do 2 (split; [reflexivity|]).
    intros -> R. split; [exact R|]. split; [apply vfits_vwf, V|split; discriminate].
Qed.
Print Assumptions flat_parts_accepted_exactly.

(** Offsets are accepted exactly if they are of a non-nullable integer type, there is at least one, and the validity fits the strings;
    no offsets at all make the constructor panic instead of returning an error. *)
Theorem offsets_accepted_exactly : forall u offs bytes v,
  ((exists a, try_varbin u offs bytes v = Ok a) <->
   integer_nonnull (adtype offs) /\ 0 < alen offs /\ validity_fits v (alen offs - 1)) /\
  (try_varbin u offs bytes v = Panic <-> integer_nonnull (adtype offs) /\ alen offs = 0) /\
  forall a, try_varbin u offs bytes v = Ok a ->
    alen a = alen offs - 1 /\ adtype a = (if u then DUtf8 (vnullable v) else DBinary (vnullable v)) /\
    (u = false -> wf f0 offs -> sortedZ (ints (logical offs)) ->
     Forall (fun z => (0 <= z <= Z.of_nat (length bytes))%Z) (ints (logical offs)) -> wf f0 a).
Proof.
  intros u offs bytes v. unfold try_varbin.
  destruct (int_nonnull (adtype offs)) eqn:D; cbn [negb].
  2:{ split; [no; intros (X & _); apply int_spec in X; congruence|]. split; [split; [discriminate|intros (X & _); apply int_spec in X; congruence]|discriminate]. }
  pose proof (proj1 (int_spec _) D) as D'. destruct (Nat.eqb_spec (alen offs) 0) as [L|L].
  { split; [no; lia|]. split; [split; [auto|reflexivity]|discriminate]. }
  rewrite <- vfits_fits. destruct (vfits v (alen offs - 1)) eqn:V; cbn [negb].
  2:{ split; [no; intros (_ & _ & X); discriminate|]. split; [split; [discriminate|lia]|discriminate]. }
  split; [split; [intros _; repeat split; [exact D'|lia]|eauto]|]. split; [split; [discriminate|lia]|].
  intros a H. assert (a = AVarBin u offs bytes v) as -> by congruence. do 2 (split; [reflexivity|]).
  intros -> W S F. split; [exact W|]. split.
  { destruct D' as (p & E & X). exists p. split; [exact E|]. destruct X as [->|[->|[->|[->|[->|[->|[->| ->]]]]]]]; reflexivity. }
  split; [lia|]. split; [exact S|]. split; [exact F|]. split; [apply vfits_vwf, V|]. split; [discriminate|].
  split; [discriminate|]. split; [discriminate|]. split; [discriminate|]. split; reflexivity.
Qed.
Print Assumptions offsets_accepted_exactly.

(** * Sparse, dictionary, run-end *)

(** Patches are accepted exactly if the positions are non-nullable u64, the fill value is of the values' type, there are as many positions
    as values, and the last position is inside the array. A last position before the offset makes the constructor panic. *)
Theorem sparse_parts_accepted_exactly : forall f idx vals len off fill, wf f idx ->
  let last_at := last (ints (logical idx)) 0%Z in
  ((exists a, try_sparse idx vals len off fill = Ok a) <->
   adtype idx = DPrim U64 false /\ fills (adtype vals) fill /\ alen idx = alen vals /\
   (0 < alen idx -> (Z.of_nat off <= last_at < Z.of_nat (off + len))%Z)) /\
  (try_sparse idx vals len off fill = Panic <->
   adtype idx = DPrim U64 false /\ fills (adtype vals) fill /\ alen idx = alen vals /\ 0 < alen idx /\ (last_at < Z.of_nat off)%Z) /\
  forall a, try_sparse idx vals len off fill = Ok a -> alen a = len /\ adtype a = adtype vals.
Proof.
  intros f idx vals len off fill W. cbv zeta. unfold try_sparse.
  destruct (dtype_eqb (adtype idx) (DPrim U64 false)) eqn:D; cbn [negb].
  2:{ assert (adtype idx <> DPrim U64 false) as ND by (intros X; rewrite X, dtype_eqb_refl in D; discriminate).
      split; [no; tauto|]. split; [split; [discriminate|tauto]|discriminate]. }
  apply dtype_eqb_eq in D. destruct (instance_of fill (adtype vals)) eqn:I; cbn [negb].
  2:{ assert (~ fills (adtype vals) fill) by (rewrite <- instance_spec; congruence). split; [no; tauto|]. split; [split; [discriminate|tauto]|discriminate]. }
  apply instance_spec in I. destruct (Nat.eqb_spec (alen idx) (alen vals)) as [L|L]; cbn [negb].
  2:{ split; [no; tauto|]. split; [split; [discriminate|tauto]|discriminate]. }
  destruct (Nat.eqb_spec (alen idx) 0) as [Z0|Z0].
  { split; [split; [intros _; repeat split; auto; lia|eauto]|]. split; [split; [discriminate|lia]|].
    intros a H. assert (a = ASparse idx vals off len fill) as -> by congruence. split; reflexivity. }
  destruct (scalar_at_is_the_element f idx W) as [R _]. rewrite R by (rewrite logical_length; lia). cbn [bind].
  pose proof (vtyped_logical idx f W) as T. rewrite D in T. rewrite Forall_forall in T.
  set (x := nth (alen idx - 1) (logical idx) VNull).
  assert (In x (logical idx)) as Hx by (apply nth_In; rewrite logical_length; lia). specialize (T x Hx).
  destruct x as [|b|z|s|vs] eqn:Ex; cbn [vtyped nullable] in T; try discriminate; try contradiction.
  assert (last (ints (logical idx)) 0%Z = z) as LZ.
  { assert (forall (l : list value) d, l <> [] -> last l d = nth (length l - 1) l d) as LN.
    { intros l d. induction l as [|a l IH]; [congruence|]. intros _. destruct l as [|b l]; [reflexivity|]. transitivity (last (b :: l) d); [reflexivity|].
      rewrite IH by discriminate. cbn [length nth Nat.sub]. try rewrite !Nat.sub_0_r. reflexivity. }
    assert (forall (l : list value), l <> [] -> last (ints l) 0%Z = vint (last l VNull)) as LI.
    { intros l. unfold ints. induction l as [|a l IH]; [congruence|]. intros _. destruct l as [|b l]; [reflexivity|]. exact (IH ltac:(discriminate)). }
    assert (logical idx <> []) as NE by (intros X; rewrite X in Hx; destruct Hx).
    rewrite LI, LN, logical_length by exact NE. fold x. rewrite Ex. reflexivity. }
  rewrite LZ. destruct T as [T _]. cbn in T. cbn [to_usize]. rewrite (proj2 (Z.leb_le _ _)) by exact T. cbn [bind].
  destruct (Nat.ltb_spec (Z.to_nat z) off) as [B|B].
  { split; [no; intros (_ & _ & _ & X); specialize (X ltac:(lia)); lia|]. split; [split; [intros _; repeat split; auto; lia|reflexivity]|discriminate]. }
  destruct (Nat.leb_spec len (Z.to_nat z - off)) as [C|C].
  { split; [no; intros (_ & _ & _ & X); specialize (X ltac:(lia)); lia|]. split; [split; [discriminate|lia]|discriminate]. }
  split; [split; [intros _; repeat split; auto; lia|eauto]|]. split; [split; [discriminate|lia]|].
  intros a H. assert (a = ASparse idx vals off len fill) as -> by congruence. split; reflexivity.
Qed.
Print Assumptions sparse_parts_accepted_exactly.

(** Dictionary codes are accepted exactly if they are of a non-nullable unsigned type; zig-zag and bit-packed values only if unsigned. *)
Theorem codes_accepted_exactly :
  (forall codes vals, ((exists a, try_dict codes vals = Ok a) <-> unsigned_nonnull (adtype codes)) /\
     forall a, try_dict codes vals = Ok a -> alen a = alen codes /\ adtype a = adtype vals /\
       (wf f0 codes -> wf f0 vals -> flat (adtype vals) = true ->
        Forall (fun z => (0 <= z < Z.of_nat (alen vals))%Z) (ints (logical codes)) -> wf f0 a)) /\
  (forall e, ((exists a, try_zigzag e = Ok a) <-> unsigned (adtype e)) /\
     forall a, try_zigzag e = Ok a -> alen a = alen e /\ (forall p n, adtype e = DPrim p n -> adtype a = DPrim (to_signed p) n) /\ (wf f0 e -> wf f0 a)) /\
  (forall p packed bw off len v q,
     ((exists a, try_bitpacked p packed bw off len v q = Ok a) <->
      unsigned (DPrim p false) /\ (bw <= 64)%Z /\ off < 1024 /\ length packed = 1024 * ((len + off + 1023) / 1024) /\ validity_fits v len /\
      forall c, q = Some c -> alen c = len /\ exists idx vals o n x, c = ASparse idx vals o n x /\ 0 < alen idx) /\
     forall a, try_bitpacked p packed bw off len v q = Ok a -> alen a = len /\ adtype a = DPrim p (vnullable v) /\
       (q = None -> (0 <= bw <= bits p)%Z -> Forall (fun z => (0 <= z < 2 ^ bw)%Z) packed -> wf f0 a)).
Proof.
  split; [|split].
  - intros codes vals. unfold try_dict. rewrite <- uint_spec. destruct (uint_nonnull (adtype codes)) eqn:U; [|split; [no; discriminate|discriminate]].
    split; [split; eauto|]. intros a H. assert (a = ADict codes vals) as -> by congruence. do 2 (split; [reflexivity|]). intros Wc Wv Fl R.
    split; [exact Wc|]. split; [exact Wv|]. split.
    { apply uint_spec in U. destruct U as (p & E & X). exists p. split; [exact E|]. destruct X as [->|[->|[->| ->]]]; reflexivity. }
    split; [exact R|]. split; [exact Fl|]. repeat (split; [discriminate|]). discriminate.
  - intros e. unfold try_zigzag. rewrite <- isuint_spec. destruct (is_uint (adtype e)) eqn:U; [|split; [no; discriminate|discriminate]].
    split; [split; eauto|]. intros a H. assert (a = AZigZag e) as -> by congruence. split; [reflexivity|]. split.
    + intros p n E. cbn [adtype]. rewrite E. reflexivity.
    + intros W. split; [exact W|]. split; [|intros [X|[X|X]]; discriminate]. apply isuint_spec in U. destruct U as (p & n & E & X). exists p, n.
      split; [exact E|]. destruct X as [->|[->|[->| ->]]]; reflexivity.
  - intros p packed bw off len v q.
    assert (is_unsigned p = true <-> unsigned (DPrim p false)) as U by (rewrite <- isuint_spec; reflexivity).
    assert (forall a, try_bitpacked p packed bw off len v q = Ok a -> a = ABitPacked p packed bw off len v q) as SH.
    { unfold try_bitpacked. intros a. repeat match goal with |- context [if ?b then _ else _] => destruct b; try discriminate end. destruct q as [c|]; [|congruence].
      destruct (negb (alen c =? len)); try discriminate. destruct c; try discriminate. destruct (alen c1 =? 0); congruence. }
    assert ((exists a, try_bitpacked p packed bw off len v q = Ok a) <->
      unsigned (DPrim p false) /\ (bw <= 64)%Z /\ off < 1024 /\ length packed = 1024 * ((len + off + 1023) / 1024) /\ validity_fits v len /\
      forall c, q = Some c -> alen c = len /\ exists idx vals o n x, c = ASparse idx vals o n x /\ 0 < alen idx) as EX.
    { unfold try_bitpacked. rewrite <- U. destruct (is_unsigned p); cbn [negb]; [|no; intros (X & _); discriminate].
      destruct (Z.ltb_spec 64 bw); [no; lia|]. destruct (Nat.ltb_spec 1023 off); [no; lia|].
      destruct (Nat.eqb_spec (length packed) (1024 * ((len + off + 1023) / 1024))); cbn [negb]; [|no; tauto].
      rewrite <- vfits_fits. destruct (vfits v len); cbn [negb]; [|no; intros (_ & _ & _ & _ & X & _); discriminate].
      assert ((bw <= 64)%Z /\ off < 1024) as [B1 B2] by lia. destruct q as [c|]; [|split; [intros _; repeat split; auto; discriminate|eauto]].
      destruct (Nat.eqb_spec (alen c) len) as [L|L]; cbn [negb]; [|no; intros (_ & _ & _ & _ & _ & X); specialize (X c eq_refl); tauto].
      split.
      - intros [a E]. do 5 (split; [auto|]). intros c' Q. injection Q as <-. split; [exact L|]. destruct c as [| | | | | | | |idx vals o n x| | | | | | |]; try discriminate.
        exists idx, vals, o, n, x. split; [reflexivity|]. destruct (Nat.eqb_spec (alen idx) 0); [discriminate|lia].
      - intros (_ & _ & _ & _ & _ & X). destruct (X c eq_refl) as (_ & idx & vals & o & n & x & -> & K).
        destruct (Nat.eqb_spec (alen idx) 0); [lia|eauto]. }
    split; [exact EX|]. intros a H. pose proof (SH a H) as ->. do 2 (split; [reflexivity|]). intros -> B F.
    destruct (proj1 EX (ex_intro _ _ H)) as (A1 & A2 & A3 & A4 & A5 & _). split; [apply U, A1|]. split; [exact B|]. split; [exact A3|]. split; [exact A4|].
    split; [exact F|]. split; [apply vwf_fits, A5|]. split; [exact I|]. intros [X|[X|X]]; discriminate.
Qed.
Print Assumptions codes_accepted_exactly.

(** Run ends are accepted exactly if the validity is as nullable as the values, the ends are of a non-nullable unsigned type and strictly
    increasing, the validity fits the length, and the first end is after the offset (if that is not zero). *)
Theorem run_ends_accepted_exactly : forall f ends vals v off len, wf f ends ->
  let E := ints (logical ends) in
  ((exists a, try_runend ends vals v off len = Ok a) <->
   nullable (adtype vals) = vnullable v /\ unsigned_nonnull (adtype ends) /\ increasing E /\ validity_fits v len /\
   (0 < off -> 0 < alen ends -> (Z.of_nat off < hd 0 E)%Z)) /\
  (forall a, try_runend ends vals v off len = Ok a -> alen a = len /\ adtype a = adtype vals).
Proof.
  intros f ends vals v off len W. cbv zeta.
  assert (unsigned_nonnull (adtype ends) -> 0 < alen ends ->
          exists z, (0 <= z)%Z /\ scalar_at ends 0 = Ok (VInt z) /\ hd 0%Z (ints (logical ends)) = z) as RD.
  { intros (p & D & X) L. destruct (scalar_at_is_the_element f ends W) as [R _]. rewrite R by (rewrite logical_length; lia).
    pose proof (vtyped_logical ends f W) as T. rewrite D in T. pose proof (logical_length ends) as LL.
    destruct (logical ends) as [|x r] eqn:EL; [cbn in LL; lia|]. inversion T as [|? ? Tx Tr]; subst. cbn [nth].
    destruct x as [|b|z|s|vs]; cbn [vtyped nullable] in Tx; try discriminate; try contradiction.
    exists z. split; [destruct X as [->|[->|[->| ->]]]; destruct Tx as [Tx _]; cbn in Tx; exact Tx|]. split; reflexivity. }
  unfold try_runend. split.
  2:{ intros a H. destruct (negb (Bool.eqb (nullable (adtype vals)) (vnullable v))); [discriminate|].
      match type of H with context [bind ?e _] => destruct e as [[]| |]; cbn [bind] in H; try discriminate end.
      repeat match type of H with context [if ?b then _ else _] => destruct b; try discriminate end.
      assert (a = ARunEnd ends vals v off len) as -> by congruence. split; reflexivity. }
  destruct (Bool.eqb (nullable (adtype vals)) (vnullable v)) eqn:N; cbn [negb].
  2:{ no. intros (X & _). rewrite X, eqb_reflx in N. discriminate. }
  apply eqb_prop in N.
  assert ((0 < off -> 0 < alen ends -> (Z.of_nat off < hd 0 (ints (logical ends)))%Z) ->
          unsigned_nonnull (adtype ends) ->
          (if negb (off =? 0) && negb (alen ends =? 0)
             then do x <- scalar_at ends 0; do k <- to_usize x; if k <=? off then Err else Ok tt
             else Ok tt) = Ok tt) as F1.
  { intros H U. destruct (Nat.eqb_spec off 0); [reflexivity|]. destruct (Nat.eqb_spec (alen ends) 0); [reflexivity|]. cbn [negb andb].
    destruct (RD U ltac:(lia)) as (z & Z0 & -> & HD). cbn [bind to_usize]. rewrite (proj2 (Z.leb_le _ _)) by exact Z0. cbn [bind].
    specialize (H ltac:(lia) ltac:(lia)). rewrite HD in H. destruct (Nat.leb_spec (Z.to_nat z) off); [lia|reflexivity]. }
  assert (unsigned_nonnull (adtype ends) ->
          (if negb (off =? 0) && negb (alen ends =? 0)
             then do x <- scalar_at ends 0; do k <- to_usize x; if k <=? off then Err else Ok tt
             else Ok tt) = Ok tt -> (0 < off -> 0 < alen ends -> (Z.of_nat off < hd 0 (ints (logical ends)))%Z)) as F2.
  { intros U H A B. destruct (Nat.eqb_spec off 0); [lia|]. destruct (Nat.eqb_spec (alen ends) 0); [lia|]. cbn [negb andb] in H.
    destruct (RD U B) as (z & Z0 & S0 & HD). rewrite S0 in H. cbn [bind to_usize] in H. rewrite (proj2 (Z.leb_le _ _)) in H by exact Z0. cbn [bind] in H.
    destruct (Nat.leb_spec (Z.to_nat z) off); [discriminate|]. rewrite HD. lia. }
  match goal with |- (exists a, bind ?e _ = _) <-> _ => destruct e as [[]| |] eqn:F; cbn [bind] end.
  - destruct (uint_nonnull (adtype ends)) eqn:U; cbn [negb]; [|no; intros (_ & X & _); apply uint_spec in X; congruence].
    apply uint_spec in U. destruct (ssortedb (ints (logical ends))) eqn:S; cbn [negb]; [|no; intros (_ & _ & X & _); apply sorted_spec in X; congruence].
    apply sorted_spec in S. rewrite <- vfits_fits. destruct (vfits v len); cbn [negb]; [|no; intros (_ & _ & _ & X & _); discriminate].
    split; [intros _|eauto]. do 4 (split; [auto|]). exact (F2 U eq_refl).
  - no. intros (_ & U & _ & _ & X). specialize (F1 X U). discriminate.
  - no. intros (_ & U & _ & _ & X). specialize (F1 X U). discriminate.
Qed.
Print Assumptions run_ends_accepted_exactly.

(** Boolean run ends: strictly increasing, non-nullable unsigned, at least one; the length is the last end. *)
Theorem bool_run_ends_accepted_exactly : forall f ends start v, wf f ends ->
  let E := ints (logical ends) in
  ((exists a, reb_try_new ends start v = Ok a) <->
   0 < alen ends /\ unsigned_nonnull (adtype ends) /\ increasing E /\ validity_fits v (Z.to_nat (last E 0%Z)) /\
   (exists z, scalar_at ends (alen ends - 1) = Ok (VInt z) /\ (0 <= z)%Z)) /\
  (reb_try_new ends start v = Panic <-> alen ends = 0) /\
  (forall a, reb_try_new ends start v = Ok a -> Z.of_nat (RunEnc.rb_len a) = last E 0%Z /\ RunEnc.rb_off a = 0).
Proof.
  intros f ends start v W. cbv zeta. unfold reb_try_new.
  destruct (Nat.eqb_spec (alen ends) 0) as [L|L]; [split; [no; lia|]; split; [tauto|discriminate]|].
  destruct (scalar_at_is_the_element f ends W) as [R _]. rewrite R by (rewrite logical_length; lia). cbn [bind].
  set (x := nth (alen ends - 1) (logical ends) VNull).
  assert (last (ints (logical ends)) 0%Z = vint x) as LZ.
  { assert (forall (l : list value) d, l <> [] -> last l d = nth (length l - 1) l d) as LN.
    { intros l d. induction l as [|a l IH]; [congruence|]. intros _. destruct l as [|b l]; [reflexivity|]. transitivity (last (b :: l) d); [reflexivity|].
      rewrite IH by discriminate. cbn [length nth Nat.sub]. try rewrite !Nat.sub_0_r. reflexivity. }
    assert (forall (l : list value), l <> [] -> last (ints l) 0%Z = vint (last l VNull)) as LI.
    { intros l. unfold ints. induction l as [|a l IH]; [congruence|]. intros _. destruct l as [|b l]; [reflexivity|]. exact (IH ltac:(discriminate)). }
    assert (logical ends <> []) as NE by (intros X; pose proof (logical_length ends) as LL; rewrite X in LL; cbn in LL; lia).
    rewrite LI, LN, logical_length by exact NE. reflexivity. }
  assert (forall z, Ok x = Ok (VInt z) -> x = VInt z) as XI by congruence.
  destruct (to_usize x) as [n| |] eqn:T; cbn [bind].
  - assert (exists z, x = VInt z /\ (0 <= z)%Z /\ n = Z.to_nat z) as (z & -> & Z0 & ->).
    { unfold to_usize in T. destruct x as [| |z| |]; try discriminate. destruct (Z.leb_spec 0 z); [|discriminate]. exists z. split; [reflexivity|]. split; [assumption|congruence]. }
    cbn [vint] in LZ. rewrite LZ. unfold reb_new.
    destruct (ssortedb (ints (logical ends))) eqn:S; cbn [negb].
    2:{ split; [no; intros (_ & _ & X & _); apply sorted_spec in X; congruence|]. split; [split; [discriminate|lia]|discriminate]. }
    apply sorted_spec in S. destruct (uint_nonnull (adtype ends)) eqn:U; cbn [negb].
    2:{ split; [no; intros (_ & X & _); apply uint_spec in X; congruence|]. split; [split; [discriminate|lia]|discriminate]. }
    apply uint_spec in U. destruct (Nat.eqb_spec (alen ends) 0); [lia|]. rewrite <- vfits_fits. destruct (vfits v (Z.to_nat z)); cbn [negb].
    2:{ split; [no; intros (_ & _ & _ & X & _); discriminate|]. split; [split; [discriminate|lia]|discriminate]. }
    split; [split; [intros _|eauto]|].
    + split; [lia|]. do 3 (split; [auto|]). eauto.
    + split; [split; [discriminate|lia]|]. intros a H. assert (a = REBool ends start v 0 (Z.to_nat z)) as -> by congruence. split; [cbn [RunEnc.rb_len]; lia|reflexivity].
  - split; [no; intros (_ & _ & _ & _ & z & X & Z0)|split; [split; [discriminate|lia]|discriminate]]. apply XI in X. rewrite X in T. cbn [to_usize] in T.
    rewrite (proj2 (Z.leb_le _ _)) in T by exact Z0. discriminate.
  - unfold to_usize in T. destruct x; try discriminate. destruct (0 <=? z)%Z; discriminate.
Qed.
Print Assumptions bool_run_ends_accepted_exactly.

(** * The other encodings *)

(** Date-time parts: three integer children of one length; the days are as nullable as the timestamps, the others not nullable. *)
Definition integer_type (d : dtype) (nl : bool) : Prop :=
  exists p, d = DPrim p nl /\ (p = U8 \/ p = U16 \/ p = U32 \/ p = U64 \/ p = I8 \/ p = I16 \/ p = I32 \/ p = I64).
Lemma is_int_dtype_spec d nl : is_int_dtype d = true /\ nullable d = nl <-> integer_type d nl.
Proof.
  unfold integer_type, is_int_dtype. split.
  - destruct d as [|n|p n|n|n|ns ts n|id n]; try (intros [X _]; discriminate X). cbn [nullable]. intros [E <-]. exists p. split; [reflexivity|]. destruct p; try discriminate; auto 9.
  - intros (p & -> & H). cbn [nullable]. split; [|reflexivity]. intuition subst; reflexivity.
Qed.
Theorem timestamp_parts_accepted_exactly : forall u nl days secs subs,
  ((exists a, try_dtp u nl days secs subs = Ok a) <->
   integer_type (adtype days) nl /\ integer_type (adtype secs) false /\ integer_type (adtype subs) false /\
   alen secs = alen days /\ alen subs = alen days) /\
  forall a, try_dtp u nl days secs subs = Ok a -> t_unit a = u /\ t_nl a = nl /\ t_days a = days /\ t_secs a = secs /\ t_subs a = subs.
Proof.
  intros u nl days secs subs. rewrite <- !is_int_dtype_spec. unfold try_dtp.
  destruct (is_int_dtype (adtype days)); cbn [negb orb]; [|split; [no; intros ((X & _) & _); discriminate|discriminate]].
  destruct (Bool.eqb nl (nullable (adtype days))) eqn:N; cbn [negb orb].
  2:{ split; [no; intros ((_ & X) & _)|discriminate]. rewrite X, eqb_reflx in N. discriminate. }
  apply eqb_prop in N. destruct (is_int_dtype (adtype secs)); cbn [negb orb]; [|split; [no; intros (_ & (X & _) & _); discriminate|discriminate]].
  destruct (nullable (adtype secs)); cbn [negb orb]; [split; [no; intros (_ & (_ & X) & _); discriminate|discriminate]|].
  destruct (is_int_dtype (adtype subs)); cbn [negb orb]; [|split; [no; intros (_ & _ & (X & _) & _); discriminate|discriminate]].
  destruct (nullable (adtype subs)); cbn [negb orb]; [split; [no; intros (_ & _ & (_ & X) & _); discriminate|discriminate]|].
  destruct (Nat.eqb_spec (alen days) (alen secs)) as [A|A]; cbn [negb orb]; [|split; [no; intuition congruence|discriminate]].
  destruct (Nat.eqb_spec (alen days) (alen subs)) as [B|B]; cbn [negb orb]; [|split; [no; intuition congruence|discriminate]].
  split; [split; [intros _; repeat split; congruence|eauto]|]. intros a H. injection H as <-. cbn. auto.
Qed.
Print Assumptions timestamp_parts_accepted_exactly.

(** Decimal-coded floats: i32 codes for f32, i64 for f64; exceptions are as long, of the nullable float type. *)
Theorem alp_parts_accepted_exactly : forall enc e f patches,
  ((exists a, try_alp enc e f patches = Ok a) <->
   exists p n, (adtype enc = DPrim I32 n /\ p = F32 \/ adtype enc = DPrim I64 n /\ p = F64) /\
     forall q, patches = Some q -> alen q = alen enc /\ adtype q = DPrim p true) /\
  forall a, try_alp enc e f patches = Ok a -> a = ALP enc e f patches.
Proof.
  intros enc e f patches. unfold try_alp, alp_type. split.
  - destruct (adtype enc) as [|n|p n|n|n|ns ts n|id n]; cbn [bind]; try (no; intros (? & ? & [[X _]|[X _]] & _); discriminate X).
    assert (forall q fl, (exists a, (if negb (alen q =? alen enc) then Err else if negb (dtype_eqb (adtype q) (DPrim fl true)) then Err else Ok (ALP enc e f (Some q))) = Ok a) <->
              alen q = alen enc /\ adtype q = DPrim fl true) as Q.
    { intros q fl. destruct (Nat.eqb_spec (alen q) (alen enc)) as [A|A]; cbn [negb]; [|no; tauto].
      destruct (dtype_eqb (adtype q) (DPrim fl true)) eqn:D; cbn [negb].
      - apply dtype_eqb_eq in D. split; eauto.
      - no. intros [_ X]. rewrite X, dtype_eqb_refl in D. discriminate. }
    destruct p; cbn [bind]; try (no; intros (? & ? & [[X _]|[X _]] & _); discriminate X); (destruct patches as [q|]; [rewrite Q|]; split).
    all: try (intros _; eexists; eexists; split; [eauto|discriminate]).
    all: try (intros _; eauto; fail).
    all: try (intros H; eexists; eexists; split; [eauto|intros q' E; injection E as <-; exact H]).
    all: intros (? & ? & [[X ->]|[X ->]] & H); try discriminate X; exact (H q eq_refl).
  - intros a H. destruct (adtype enc) as [|n|p n|n|n|ns ts n|id n]; try discriminate. destruct p; try discriminate; cbn [bind] in H;
      (destruct patches as [q|]; [|congruence]); destruct (negb (alen q =? alen enc)); try discriminate;
      match type of H with context [if ?b then _ else _] => destruct b end; congruence.
Qed.
Print Assumptions alp_parts_accepted_exactly.

(** Floats split at a bit: a float type; left and right parts of one length, unsigned; the left parts as nullable as the floats, the right
    parts not; exceptions sparse. A dictionary of more than eight parts panics. *)
Definition unsigned_type (d : dtype) (nl : bool) : Prop := exists p, d = DPrim p nl /\ (p = U8 \/ p = U16 \/ p = U32 \/ p = U64).
Definition rd_parts (p : ptype) (n : bool) (lft rgt : array) (exc : option array) : Prop :=
  (p = F16 \/ p = F32 \/ p = F64) /\ alen rgt = alen lft /\ unsigned_type (adtype lft) n /\ unsigned_type (adtype rgt) false /\
  forall q, exc = Some q -> exists idx vals len off fill, q = ASparse idx vals len off fill.
Theorem rd_parts_accepted_exactly : forall p n lft dict rgt rbw exc,
  ((exists a, try_rd p n lft dict rgt rbw exc = Ok a) <-> rd_parts p n lft rgt exc /\ length dict <= 8) /\
  (try_rd p n lft dict rgt rbw exc = Panic <-> rd_parts p n lft rgt exc /\ 8 < length dict) /\
  forall a, try_rd p n lft dict rgt rbw exc = Ok a -> a = RD p n lft dict rgt rbw exc.
Proof.
  intros p n lft dict rgt rbw exc.
  assert (is_float p = true <-> p = F16 \/ p = F32 \/ p = F64) as FL by (destruct p; cbn; intuition congruence).
  assert (forall d nl, match d with DPrim q _ => is_unsigned q | _ => false end = true /\ nullable d = nl <-> unsigned_type d nl) as UT.
  { intros d nl. unfold unsigned_type. split.
    - destruct d as [|m|q m|m|m|ns ts m|id m]; try (intros [X _]; discriminate X). cbn [nullable]. intros [E <-]. exists q. split; [reflexivity|]. destruct q; try discriminate; auto.
    - intros (q & -> & H). cbn [nullable]. split; [|reflexivity]. intuition subst; reflexivity. }
  assert (match exc with Some q => is_sparse q | None => true end = true <-> forall q, exc = Some q -> exists idx vals len off fill, q = ASparse idx vals len off fill) as SP.
  { destruct exc as [q|]; [|split; [discriminate|reflexivity]]. split.
    - intros E q' X. injection X as <-. destruct q; try discriminate. eauto 6.
    - intros H. destruct (H q eq_refl) as (? & ? & ? & ? & ? & ->). reflexivity. }
  assert (forall (A B C : Prop), (~ A) -> (False <-> A /\ B) /\ (False <-> A /\ C)) as NOPE by tauto.
  assert ((exists a : alprd, (Err : result alprd) = Ok a) <-> False) as E1 by (split; [intros [a X]; discriminate|tauto]).
  assert ((Err : result alprd) = Panic <-> False) as E2 by (split; [discriminate|tauto]).
  assert (forall a : alprd, Err = Ok a -> a = RD p n lft dict rgt rbw exc) as E3 by discriminate.
  unfold try_rd, rd_parts. rewrite <- FL, <- (UT (adtype lft)), <- (UT (adtype rgt)), <- SP.
  assert (forall (Q : Prop), ~ Q -> ((exists a : alprd, (Err : result alprd) = Ok a) <-> Q /\ length dict <= 8) /\
     ((Err : result alprd) = Panic <-> Q /\ 8 < length dict) /\ forall a : alprd, Err = Ok a -> a = RD p n lft dict rgt rbw exc) as REJ.
  { intros Q H. rewrite E1, E2. split; [tauto|]. split; [tauto|exact E3]. }
  destruct (is_float p); cbn [negb]; [|apply REJ; intuition discriminate].
  destruct (Nat.eqb_spec (alen rgt) (alen lft)) as [A|A]; cbn [negb]; [|apply REJ; tauto].
  destruct (match adtype lft with DPrim q _ => is_unsigned q | _ => false end); cbn [negb]; [|apply REJ; intuition discriminate].
  destruct (Bool.eqb n (nullable (adtype lft))) eqn:N; cbn [negb].
  2:{ apply REJ. intros (_ & _ & (_ & X) & _). rewrite X, eqb_reflx in N. discriminate. }
  apply eqb_prop in N. destruct (nullable (adtype rgt)); cbn [negb]; [apply REJ; intuition discriminate|].
  destruct (match adtype rgt with DPrim q _ => is_unsigned q | _ => false end); cbn [negb]; [|apply REJ; intuition discriminate].
  destruct (match exc with Some q => is_sparse q | None => true end); cbn [negb]; [|apply REJ; intuition discriminate].
  destruct (Nat.ltb_spec 8 (length dict)).
  - split; [no; lia|]. split; [split; [intros _; repeat split; auto|reflexivity]|discriminate].
  - split; [split; [intros _; repeat split; auto|eauto]|]. split; [split; [discriminate|lia]|]. congruence.
Qed.
Print Assumptions rd_parts_accepted_exactly.

(** Symbol-table strings: at most 255 u64 symbols with as many u8 lengths; as many uncompressed lengths as codes; codes a Binary array. *)
Theorem fsst_parts_accepted_exactly : forall u nl syms lens codes ulens,
  ((exists a, try_fsst u nl syms lens codes ulens = Ok a) <->
   adtype syms = DPrim U64 false /\ adtype lens = DPrim U8 false /\ alen syms <= 255 /\ alen lens = alen syms /\
   alen codes = alen ulens /\ integer_nonnull (adtype ulens) /\ exists offs bytes v, codes = AVarBin false offs bytes v) /\
  forall a, try_fsst u nl syms lens codes ulens = Ok a -> a = FSST u nl syms lens codes ulens.
Proof.
  intros u nl syms lens codes ulens. unfold try_fsst. split.
  - destruct (dtype_eqb (adtype syms) (DPrim U64 false)) eqn:D; cbn [negb]; [|no; intros (X & _); rewrite X, dtype_eqb_refl in D; discriminate].
    apply dtype_eqb_eq in D. destruct (dtype_eqb (adtype lens) (DPrim U8 false)) eqn:D2; cbn [negb]; [|no; intros (_ & X & _); rewrite X, dtype_eqb_refl in D2; discriminate].
    apply dtype_eqb_eq in D2. destruct (Z.ltb_spec 255 (Z.of_nat (alen syms))); [no; lia|].
    destruct (Nat.eqb_spec (alen syms) (alen lens)); cbn [negb]; [|no; lia]. destruct (Nat.eqb_spec (alen ulens) (alen codes)); cbn [negb]; [|no; lia].
    rewrite <- int_spec. destruct (int_nonnull (adtype ulens)); cbn [negb]; [|no; intuition discriminate].
    destruct codes as [| | | |u0 o b v| | | | | | | | | | | ]; cbn [is_varbin negb]; try (no; intros (_ & _ & _ & _ & _ & _ & ? & ? & ? & X); discriminate X).
    cbn [adtype]. destruct u0; cbn [is_binary negb]; [no; intros (_ & _ & _ & _ & _ & _ & ? & ? & ? & X); discriminate X|].
    split; [intros _|eauto]. do 2 (split; [assumption|]). do 3 (split; [lia|]). split; [reflexivity|]. eauto.
  - intros a H. repeat match type of H with context [if ?b then _ else _] => destruct b; try discriminate end. congruence.
Qed.
Print Assumptions fsst_parts_accepted_exactly.

(** A boolean bitmap is accepted exactly if it has at most as many set bits as the length. *)
Theorem bool_bitmap_accepted_exactly : forall m n,
  ((exists a, try_rbool m n = Ok a) <-> length m <= n) /\ forall a, try_rbool m n = Ok a -> rb_bits a = m /\ Roaring.rb_len a = n.
Proof.
  intros m n. unfold try_rbool. destruct (Nat.ltb_spec n (length m)); [split; [no; lia|discriminate]|].
  split; [split; [lia|eauto]|]. intros a E. injection E as <-. split; reflexivity.
Qed.
Print Assumptions bool_bitmap_accepted_exactly.

(** * What the constructors do not check *)

Definition u64s (l : list Z) : array := APrim U64 l VNonNull.
Definition bytes_ (l : list Z) : array := APrim U8 l VNonNull.

(** Parts that do not describe any array are accepted; reading what was accepted then fails, panics, or depends on how it is read. *)
Theorem inconsistent_parts_are_rejected_refuted :
  (* a dictionary code outside the dictionary: reading and decoding panic *)
  (exists a, try_dict (bytes_ [0; 2]%Z) (bytes_ [7]%Z) = Ok a /\ scalar_at a 1 = Panic /\ canon a = Panic) /\
  (* positions out of order: one row is 7 when read and 8 when decoded; one past the end panics *)
  (exists a c, try_sparse (u64s [3; 1]%Z) (bytes_ [7; 8]%Z) 4 0 (VInt 0) = Ok a /\ scalar_at a 1 = Ok (VInt 7) /\ canon a = Ok c /\ scalar_at c 1 = Ok (VInt 8)) /\
  (exists a, try_sparse (u64s [9; 1]%Z) (bytes_ [7; 8]%Z) 4 0 (VInt 0) = Ok a /\ canon a = Panic) /\
  (* run ends that stop before the length: decoding loses rows; fewer values than runs: decoding panics *)
  (exists a c, try_runend (bytes_ [2]%Z) (bytes_ [7]%Z) VNonNull 0 4 = Ok a /\ alen a = 4 /\ scalar_at a 3 = Ok (VInt 7) /\ canon a = Ok c /\ alen c = 2) /\
  (exists a, try_runend (bytes_ [2; 4]%Z) (bytes_ [7]%Z) VNonNull 0 4 = Ok a /\ scalar_at a 3 = Err /\ canon a = Panic) /\
  (* string offsets beyond the bytes or decreasing; a view into a missing buffer *)
  (exists a, try_varbin false (bytes_ [0; 9]%Z) [1; 2]%Z VNonNull = Ok a /\ scalar_at a 0 = Err) /\
  (exists a, try_varbin false (bytes_ [2; 0]%Z) [1; 2]%Z VNonNull = Ok a /\ scalar_at a 0 = Err) /\
  (exists a, try_view false [VRef 13 [] 0 0] [] VNonNull = Ok a /\ scalar_at a 0 = Panic) /\
  (* a byte that is neither 0 nor 1: false when read, true when decoded *)
  (exists a c, try_bytebool [2]%Z VNonNull = Ok a /\ scalar_at a 0 = Ok (VBool false) /\ canon a = Ok c /\ scalar_at c 0 = Ok (VBool true)).
Proof.
  repeat split; repeat (eexists; try reflexivity).
  all: repeat split; try reflexivity.
Qed.
Print Assumptions inconsistent_parts_are_rejected_refuted.

(** The conditions are met: parts of every kind are accepted. *)
Example parts_accepted :
  (exists a, try_struct [0; 1] [u64s [1; 2]%Z; bytes_ [3; 4]%Z] 2 (VBits [true; false]) = Ok a) /\
  (exists a, try_chunked [u64s [1; 2]%Z; u64s []%Z; u64s [3]%Z] (DPrim U64 false) = Ok a) /\
  (exists a, try_sparse (u64s [2; 5]%Z) (bytes_ [7; 8]%Z) 4 2 (VInt 0) = Ok a) /\
  (exists a, try_runend (bytes_ [3; 5]%Z) (bytes_ [7; 8]%Z) VNonNull 2 3 = Ok a) /\
  (exists a, reb_try_new (bytes_ [3; 5]%Z) true (VBits [true; true; false; true; true]) = Ok a) /\
  (exists a, try_dtp Ms true (APrim I64 [1; 2]%Z (VBits [true; false])) (u64s [0; 1]%Z) (u64s [5; 6]%Z) = Ok a) /\
  (exists a, try_alp (APrim I32 [1; 2]%Z VNonNull) 2 1 (Some (AConst (DPrim F32 true) VNull 2)) = Ok a) /\
  (exists a, try_rd F64 false (bytes_ [0; 1]%Z) [5; 6]%Z (u64s [7; 8]%Z) 52 None = Ok a) /\
  (exists a, try_fsst true false (u64s [1]%Z) (bytes_ [1]%Z) (AVarBin false (u64s [0; 1]%Z) [0]%Z VNonNull) (bytes_ [1]%Z) = Ok a) /\
  wf f0 (u64s [2; 5]%Z) /\ wf f0 (bytes_ [3; 5]%Z).
Proof.
  repeat match goal with |- (exists _, _) /\ _ => split; [eexists; reflexivity|] end.
  split; (split; [repeat constructor; cbv; discriminate|exact I]).
Qed.
