(** C13: delta encoding. *)
From Verif Require Import Base Spec SearchModel SearchProofs Arr ArrRead ArrWf ArrReadProofs ArrSlice ArrSliceProofs ArrSliceMain
  ValidityModel PropValidity StatsModel IntEnc PropIntEnc PropDict Unary PropUnary Delta.

(** * The index maps are bijections *)
Lemma FL_lt k : FL_ORDER k < 8.
Proof. unfold FL_ORDER. do 8 (destruct k as [|k]; [cbn; lia|]). cbn. destruct k; lia. Qed.
Lemma FL_inv k : k < 8 -> FL_ORDER (FL_ORDER k) = k.
Proof. intros H. do 8 (destruct k as [|k]; [reflexivity|]). lia. Qed.
Lemma FL_inj a b : a < 8 -> b < 8 -> FL_ORDER a = FL_ORDER b -> a = b.
Proof. intros Ha Hb H. rewrite <- (FL_inv a), <- (FL_inv b) by assumption. rewrite H. reflexivity. Qed.

Lemma split16 i : i < 1024 -> i = i / 128 * 128 + (i / 16) mod 8 * 16 + i mod 16 /\ i / 128 < 8 /\ (i / 16) mod 8 < 8 /\ i mod 16 < 16.
Proof. intros. lia. Qed.
Lemma tr_index_lt i : i < 1024 -> tr_index i < 1024.
Proof.
  intros H. destruct (split16 i H) as (_ & H1 & _ & H3). unfold tr_index. pose proof (FL_lt ((i / 16) mod 8)).
  generalize dependent (i / 128). generalize dependent (i mod 16). intros; lia.
Qed.
Lemma tr_index_inj i j : i < 1024 -> j < 1024 -> tr_index i = tr_index j -> i = j.
Proof.
  intros Hi Hj. destruct (split16 i Hi) as (Ei & I1 & I2 & I3). destruct (split16 j Hj) as (Ej & J1 & J2 & J3). unfold tr_index.
  set (a := i / 128) in *. set (b := (i / 16) mod 8) in *. set (c := i mod 16) in *.
  set (a' := j / 128) in *. set (b' := (j / 16) mod 8) in *. set (c' := j mod 16) in *.
  clearbody a b c a' b' c'. pose proof (FL_lt b). pose proof (FL_lt b'). intros E.
  assert (FL_ORDER b = FL_ORDER b' /\ a = a' /\ c = c') as (E1 & -> & ->) by lia.
  apply FL_inj in E1; [|assumption|assumption]. lia.
Qed.
Lemma tr_index_surj j : j < 1024 -> exists i, i < 1024 /\ tr_index i = j.
Proof.
  intros H. assert (j = j / 64 * 64 + (j / 8) mod 8 * 8 + j mod 8 /\ j / 64 < 16 /\ (j / 8) mod 8 < 8 /\ j mod 8 < 8) as (E & A & B & C) by lia.
  set (a := j / 64) in *. set (b := (j / 8) mod 8) in *. set (c := j mod 8) in *. clearbody a b c.
  pose proof (FL_lt b). exists (c * 128 + FL_ORDER b * 16 + a). split; [lia|]. unfold tr_index.
  assert ((c * 128 + FL_ORDER b * 16 + a) mod 16 = a) as -> by (symmetry; apply (Nat.mod_unique _ 16 (c * 8 + FL_ORDER b)); lia).
  assert ((c * 128 + FL_ORDER b * 16 + a) / 128 = c) as -> by (symmetry; apply (Nat.div_unique _ 128 c (FL_ORDER b * 16 + a)); lia).
  assert ((c * 128 + FL_ORDER b * 16 + a) / 16 = c * 8 + FL_ORDER b) as -> by (symmetry; apply (Nat.div_unique _ 16 _ a); lia).
  assert ((c * 8 + FL_ORDER b) mod 8 = FL_ORDER b) as -> by (symmetry; apply (Nat.mod_unique _ 8 c); lia).
  rewrite FL_inv by exact B. lia.
Qed.

Lemma lanes_cases p : is_unsigned p = true ->
  (nbits p = 8 /\ LANES p = 128) \/ (nbits p = 16 /\ LANES p = 64) \/ (nbits p = 32 /\ LANES p = 32) \/ (nbits p = 64 /\ LANES p = 16).
Proof. destruct p; try discriminate; intros _; auto. Qed.

Lemma lane_index_split p row lane : is_unsigned p = true -> row < nbits p -> lane < LANES p ->
  FL_ORDER (row / 8) * 16 + lane < 128.
Proof.
  intros Hp. assert (row / 8 < 8 \/ 8 <= row / 8) as [Hk|Hk] by lia.
  2:{ intros. destruct (lanes_cases p Hp) as [[E1 E2]|[[E1 E2]|[[E1 E2]|[E1 E2]]]]; lia. }
  intros Hr Hl. assert (row = row / 8 * 8 + row mod 8 /\ row mod 8 < 8) as [Er Em] by lia.
  set (k := row / 8) in *. set (m := row mod 8) in *. clearbody k m.
  destruct (lanes_cases p Hp) as [[E1 E2]|[[E1 E2]|[[E1 E2]|[E1 E2]]]]; rewrite E1 in Hr; rewrite E2 in Hl; clear E1 E2;
    do 8 (destruct k as [|k]; [cbn [FL_ORDER nth] in *; cbn; lia|]); lia.
Qed.

Lemma lane_index_inj p r1 l1 r2 l2 : is_unsigned p = true ->
  r1 < nbits p -> l1 < LANES p -> r2 < nbits p -> l2 < LANES p -> lane_index r1 l1 = lane_index r2 l2 -> r1 = r2 /\ l1 = l2.
Proof.
  intros Hp H1 H2 H3 H4. pose proof (lane_index_split p r1 l1 Hp H1 H2) as S1. pose proof (lane_index_split p r2 l2 Hp H3 H4) as S2.
  unfold lane_index. assert (r1 = r1 / 8 * 8 + r1 mod 8 /\ r1 mod 8 < 8) as [Er Em] by lia. assert (r2 = r2 / 8 * 8 + r2 mod 8 /\ r2 mod 8 < 8) as [Er2 Em2] by lia.
  set (k := r1 / 8) in *. set (m := r1 mod 8) in *. set (k' := r2 / 8) in *. set (m' := r2 mod 8) in *. clearbody k m k' m'.
  intros E. assert (m = m' /\ FL_ORDER k * 16 + l1 = FL_ORDER k' * 16 + l2) as [-> E'] by lia. clear E.
  assert (k < 8 /\ k' < 8) as [Hk Hk'] by (destruct (lanes_cases p Hp) as [[E1 E2]|[[E1 E2]|[[E1 E2]|[E1 E2]]]]; lia).
  destruct (lanes_cases p Hp) as [[E1 E2]|[[E1 E2]|[[E1 E2]|[E1 E2]]]]; rewrite E1 in H1, H3; rewrite E2 in H2, H4; clear E1 E2.
  - assert (k = 0 /\ k' = 0) as [-> ->] by lia. lia.
  - assert (k < 2 /\ k' < 2) as [? ?] by lia.
    destruct k as [|[|k]]; try lia; destruct k' as [|[|k']]; try lia; cbn in E'; lia.
  - assert (k < 4 /\ k' < 4) as [? ?] by lia.
    destruct k as [|[|[|[|k]]]]; try lia; destruct k' as [|[|[|[|k']]]]; try lia; cbn in E'; lia.
  - assert (FL_ORDER k = FL_ORDER k' /\ l1 = l2) as [E1 ->] by lia. apply FL_inj in E1; lia.
Qed.

Lemma lane_index_surj p j : is_unsigned p = true -> j < 1024 ->
  exists row lane, row < nbits p /\ lane < LANES p /\ lane_index row lane = j.
Proof.
  intros Hp Hj. assert (j = j / 128 * 128 + j mod 128 /\ j / 128 < 8 /\ j mod 128 < 128) as (E & A & B) by lia.
  set (m := j / 128) in *. set (r := j mod 128) in *. clearbody m r.
  assert (exists k l, k * 8 < nbits p /\ k < 8 /\ l < LANES p /\ FL_ORDER k * 16 + l = r) as (k & l & K1 & K2 & K3 & K4).
  { destruct (lanes_cases p Hp) as [[E1 E2]|[[E1 E2]|[[E1 E2]|[E1 E2]]]]; rewrite E1, E2; clear E1 E2.
    - exists 0, r. cbn. lia.
    - destruct (le_lt_dec 64 r); [exists 1, (r - 64)|exists 0, r]; cbn; lia.
    - destruct (le_lt_dec 96 r); [exists 3, (r - 96); cbn; lia|]. destruct (le_lt_dec 64 r); [exists 1, (r - 64); cbn; lia|].
      destruct (le_lt_dec 32 r); [exists 2, (r - 32)|exists 0, r]; cbn; lia.
    - assert (r = r / 16 * 16 + r mod 16 /\ r / 16 < 8 /\ r mod 16 < 16) as (F & G & H) by lia.
      exists (FL_ORDER (r / 16)), (r mod 16). rewrite FL_inv by exact G. pose proof (FL_lt (r / 16)). lia. }
  exists (k * 8 + m), l. split.
  { destruct (lanes_cases p Hp) as [[E1 E2]|[[E1 E2]|[[E1 E2]|[E1 E2]]]]; lia. }
  split; [exact K3|]. unfold lane_index.
  assert ((k * 8 + m) / 8 = k) as -> by (symmetry; apply (Nat.div_unique _ 8 k m); lia).
  assert ((k * 8 + m) mod 8 = m) as -> by (symmetry; apply (Nat.mod_unique _ 8 k m); lia). lia.
Qed.

(** * The kernels *)
Lemma fold_set (g : nat -> nat) (h : nat -> Z) : forall l out, NoDup (map g l) -> Forall (fun i => g i < length out) l ->
  let r := fold_left (fun out i => list_set out (g i) (h i)) l out in
  length r = length out /\ (forall i, In i l -> nth (g i) r 0%Z = h i) /\ (forall j, ~ In j (map g l) -> nth j r 0%Z = nth j out 0%Z).
Proof.
  induction l as [|x l IH]; intros out N F; cbv zeta; cbn [fold_left map]; [split; [reflexivity|split; [intros i []|reflexivity]]|].
  inversion N as [|? ? Nx Nl]; subst. pose proof (Forall_inv F) as Hx. cbv beta in Hx.
  destruct (IH (list_set out (g x) (h x)) Nl) as (L & P1 & P2).
  { eapply Forall_impl; [|exact (Forall_inv_tail F)]. intros i Hi. rewrite list_set_length. exact Hi. }
  rewrite list_set_length in L. split; [exact L|]. split.
  - intros i [<-|Hi]; [|apply P1; exact Hi]. rewrite P2 by exact Nx. rewrite nth_list_set by exact Hx. rewrite Nat.eqb_refl. reflexivity.
  - intros j Hj. cbn [In] in Hj. rewrite P2 by tauto. rewrite nth_list_set by exact Hx.
    destruct (Nat.eqb_spec j (g x)) as [->|]; [tauto|reflexivity].
Qed.

Lemma NoDup_map_inj {A B} (g : A -> B) l : (forall x y, In x l -> In y l -> g x = g y -> x = y) -> NoDup l -> NoDup (map g l).
Proof.
  induction l as [|x l IH]; intros Hi N; [constructor|]. inversion N; subst. cbn [map]. constructor.
  - rewrite in_map_iff. intros (y & E & Hy). apply Hi in E; [|right; exact Hy|left; reflexivity]. subst y. contradiction.
  - apply IH; [|assumption]. intros a b Ha Hb. apply Hi; right; assumption.
Qed.

Lemma untranspose_transpose x : length x = 1024 -> untranspose (transpose x) = x.
Proof.
  intros L. unfold untranspose.
  destruct (fold_set tr_index (fun i => nth i (transpose x) 0%Z) (seq 0 1024) (repeat 0%Z 1024)) as (R1 & R2 & _).
  - apply NoDup_map_inj; [|apply seq_NoDup]. intros a b Ha Hb. apply in_seq in Ha, Hb. apply tr_index_inj; lia.
  - apply Forall_forall. intros i Hi. apply in_seq in Hi. rewrite repeat_length. apply tr_index_lt. lia.
  - rewrite repeat_length in R1. apply nth_ext_len with (d := 0%Z); [rewrite R1, L; reflexivity|]. rewrite R1. intros j Hj.
    destruct (tr_index_surj j Hj) as (i & Hi & <-). rewrite R2 by (apply in_seq; lia). unfold transpose. rewrite nth_tab by exact Hi. reflexivity.
Qed.

Fixpoint chain (p : ptype) (x d : list Z) (prev : Z) (idx : list nat) : Prop :=
  match idx with
  | [] => True
  | i :: r => nth i d 0%Z = wrap p (nth i x 0%Z - prev) /\ chain p x d (nth i x 0%Z) r
  end.
Lemma chain_ext p x d d' idx : forall prev, (forall i, In i idx -> nth i d 0%Z = nth i d' 0%Z) -> chain p x d prev idx -> chain p x d' prev idx.
Proof.
  induction idx as [|i r IH]; intros prev E C; [exact I|]. destruct C as [C1 C2]. split.
  - rewrite <- E by (left; reflexivity). exact C1.
  - apply IH; [|exact C2]. intros j Hj. apply E. right. exact Hj.
Qed.

Lemma delta_lane_spec p x : forall idx prev out, NoDup idx -> Forall (fun i => i < length out) idx ->
  let r := delta_lane p x prev idx out in
  length r = length out /\ (forall j, ~ In j idx -> nth j r 0%Z = nth j out 0%Z) /\ chain p x r prev idx.
Proof.
  induction idx as [|i idx IH]; intros prev out N F; cbv zeta; cbn [delta_lane]; [split; [reflexivity|split; [reflexivity|exact I]]|].
  inversion N as [|? ? Ni Nl]; subst. pose proof (Forall_inv F) as Hi. cbv beta in Hi.
  destruct (IH (nth i x 0%Z) (list_set out i (wrap p (nth i x 0%Z - prev))) Nl) as (L & P & C).
  { eapply Forall_impl; [|exact (Forall_inv_tail F)]. intros k Hk. rewrite list_set_length. exact Hk. }
  rewrite list_set_length in L. split; [exact L|]. split.
  - intros j Hj. cbn [In] in Hj. rewrite P by tauto. rewrite nth_list_set by exact Hi. destruct (Nat.eqb_spec j i); [exfalso; apply Hj; left; congruence|reflexivity].
  - split; [|exact C]. rewrite P by exact Ni. rewrite nth_list_set by exact Hi. rewrite Nat.eqb_refl. reflexivity.
Qed.

Lemma wrap_sub_add p a b : in_range p a -> wrap p (wrap p (a - b) + b) = a.
Proof.
  intros H. rewrite <- (wrap_id p a H) at 2. apply wrap_eq. rewrite Zplus_mod, wrap_mod, <- Zplus_mod. f_equal. lia.
Qed.

Lemma undelta_lane_spec p x d : Forall (in_range p) x -> forall idx prev out, NoDup idx -> Forall (fun i => i < length out) idx ->
  Forall (fun i => i < length x) idx -> chain p x d prev idx ->
  let r := undelta_lane p d prev idx out in
  length r = length out /\ (forall j, ~ In j idx -> nth j r 0%Z = nth j out 0%Z) /\ (forall i, In i idx -> nth i r 0%Z = nth i x 0%Z).
Proof.
  intros Hx. induction idx as [|i idx IH]; intros prev out N F Fx C; cbv zeta; cbn [undelta_lane]; [split; [reflexivity|split; [reflexivity|intros i []]]|].
  inversion N as [|? ? Ni Nl]; subst. pose proof (Forall_inv F) as Hi. pose proof (Forall_inv Fx) as Hi'. cbv beta in Hi, Hi'.
  destruct C as [C1 C2]. rewrite C1. rewrite wrap_sub_add by (apply (proj1 (Forall_forall _ _) Hx), nth_In; exact Hi').
  destruct (IH (nth i x 0%Z) (list_set out i (nth i x 0%Z)) Nl) as (L & P & Q).
  { eapply Forall_impl; [|exact (Forall_inv_tail F)]. intros k Hk. rewrite list_set_length. exact Hk. }
  { exact (Forall_inv_tail Fx). } { exact C2. }
  rewrite list_set_length in L. split; [exact L|]. split.
  - intros j Hj. cbn [In] in Hj. rewrite P by tauto. rewrite nth_list_set by exact Hi. destruct (Nat.eqb_spec j i); [exfalso; apply Hj; left; congruence|reflexivity].
  - intros j [<-|Hj]; [|apply Q; exact Hj]. rewrite P by exact Ni. rewrite nth_list_set by exact Hi. rewrite Nat.eqb_refl. reflexivity.
Qed.

Section Lanes.
  Variables (p : ptype) (x base : list Z).
  Hypothesis Hp : is_unsigned p = true.
  Hypothesis Lx : length x = 1024.
  Hypothesis Rx : Forall (in_range p) x.

  Lemma lane_rows_In j lane : In j (lane_rows p lane) <-> exists row, row < nbits p /\ lane_index row lane = j.
  Proof.
    unfold lane_rows. rewrite in_map_iff. split.
    - intros (row & E & Hr). apply in_seq in Hr. exists row. split; [lia|exact E].
    - intros (row & Hr & E). exists row. split; [exact E|apply in_seq; lia].
  Qed.
  Lemma lane_rows_lt lane : lane < LANES p -> Forall (fun i => i < 1024) (lane_rows p lane).
  Proof.
    intros Hl. apply Forall_forall. intros j Hj. apply lane_rows_In in Hj. destruct Hj as (row & Hr & <-).
    pose proof (lane_index_split p row lane Hp Hr Hl). unfold lane_index. assert (row mod 8 < 8) by lia. lia.
  Qed.
  Lemma lane_rows_NoDup lane : lane < LANES p -> NoDup (lane_rows p lane).
  Proof.
    intros Hl. apply NoDup_map_inj; [|apply seq_NoDup]. intros a b Ha Hb E. apply in_seq in Ha, Hb.
    eapply (lane_index_inj p) in E; try eassumption; lia.
  Qed.
  Lemma lane_rows_disjoint l1 l2 j : l1 < LANES p -> l2 < LANES p -> In j (lane_rows p l1) -> In j (lane_rows p l2) -> l1 = l2.
  Proof.
    intros H1 H2 I1 I2. apply lane_rows_In in I1, I2. destruct I1 as (r1 & R1 & E1). destruct I2 as (r2 & R2 & E2).
    rewrite <- E2 in E1. eapply (lane_index_inj p) in E1; try eassumption. apply E1.
  Qed.

  Lemma delta_kernel_fold : forall k a out, a + k <= LANES p -> length out = 1024 ->
    let r := fold_left (fun out lane => delta_lane p x (nth lane base 0%Z) (lane_rows p lane) out) (seq a k) out in
    length r = 1024 /\
    (forall lane, a <= lane < a + k -> chain p x r (nth lane base 0%Z) (lane_rows p lane)) /\
    (forall j, (forall lane, a <= lane < a + k -> ~ In j (lane_rows p lane)) -> nth j r 0%Z = nth j out 0%Z).
  Proof.
    induction k as [|k IH]; intros a out Ha Lo; cbv zeta; cbn [seq fold_left]; [split; [exact Lo|split; [intros; lia|reflexivity]]|].
    destruct (delta_lane_spec p x (lane_rows p a) (nth a base 0%Z) out) as (L1 & P1 & C1).
    { apply lane_rows_NoDup. lia. } { rewrite Lo. apply lane_rows_lt. lia. }
    rewrite Lo in L1.
    destruct (IH (S a) (delta_lane p x (nth a base 0%Z) (lane_rows p a) out) ltac:(lia) L1) as (L2 & C2 & P2).
    split; [exact L2|]. split.
    - intros lane Hl. destruct (Nat.eq_dec lane a) as [->|Hne]; [|apply C2; lia].
      eapply chain_ext; [|exact C1]. intros i Hi. symmetry. apply P2. intros lane' Hl' Hin.
      assert (a = lane') by (eapply lane_rows_disjoint; [| |exact Hi|exact Hin]; lia). lia.
    - intros j Hj. rewrite P2 by (intros lane Hl; apply Hj; lia). apply P1. apply Hj. lia.
  Qed.

  Lemma undelta_kernel_fold d : forall k a out, a + k <= LANES p -> length out = 1024 ->
    (forall lane, a <= lane < a + k -> chain p x d (nth lane base 0%Z) (lane_rows p lane)) ->
    let r := fold_left (fun out lane => undelta_lane p d (nth lane base 0%Z) (lane_rows p lane) out) (seq a k) out in
    length r = 1024 /\
    (forall lane j, a <= lane < a + k -> In j (lane_rows p lane) -> nth j r 0%Z = nth j x 0%Z) /\
    (forall j, (forall lane, a <= lane < a + k -> ~ In j (lane_rows p lane)) -> nth j r 0%Z = nth j out 0%Z).
  Proof.
    induction k as [|k IH]; intros a out Ha Lo Hc; cbv zeta; cbn [seq fold_left]; [split; [exact Lo|split; [intros; lia|reflexivity]]|].
    destruct (undelta_lane_spec p x d Rx (lane_rows p a) (nth a base 0%Z) out) as (L1 & P1 & Q1).
    { apply lane_rows_NoDup. lia. } { rewrite Lo. apply lane_rows_lt. lia. } { rewrite Lx. apply lane_rows_lt. lia. } { apply Hc. lia. }
    rewrite Lo in L1.
    destruct (IH (S a) (undelta_lane p d (nth a base 0%Z) (lane_rows p a) out) ltac:(lia) L1) as (L2 & Q2 & P2).
    { intros lane Hl. apply Hc. lia. }
    split; [exact L2|]. split.
    - intros lane j Hl Hj. destruct (Nat.eq_dec lane a) as [->|Hne]; [|apply (Q2 lane); [lia|exact Hj]].
      rewrite P2; [apply Q1; exact Hj|]. intros lane' Hl' Hin.
      assert (a = lane') by (eapply lane_rows_disjoint; [| |exact Hj|exact Hin]; lia). lia.
    - intros j Hj. rewrite P2 by (intros lane Hl; apply Hj; lia). apply P1. apply Hj. lia.
  Qed.

  Lemma delta_kernel_length : length (delta_kernel p x base) = 1024.
  Proof. unfold delta_kernel. apply (delta_kernel_fold (LANES p) 0); [lia|apply repeat_length]. Qed.

  Lemma undelta_delta : undelta_kernel p (delta_kernel p x base) base = x.
  Proof.
    unfold undelta_kernel. destruct (delta_kernel_fold (LANES p) 0 (repeat 0%Z 1024) ltac:(lia) ltac:(apply repeat_length)) as (L & C & _).
    fold (delta_kernel p x base) in C.
    destruct (undelta_kernel_fold (delta_kernel p x base) (LANES p) 0 (repeat 0%Z 1024) ltac:(lia) ltac:(apply repeat_length) C) as (L2 & Q & _).
    apply nth_ext_len with (d := 0%Z); [rewrite L2, Lx; reflexivity|]. rewrite L2. intros j Hj.
    destruct (lane_index_surj p j Hp Hj) as (row & lane & Hr & Hl & E). apply (Q lane); [lia|]. apply lane_rows_In. eauto.
  Qed.
End Lanes.

Lemma scalar_undelta_delta p l : Forall (in_range p) l -> forall prev, scalar_undelta p prev (scalar_delta p prev l) = l.
Proof.
  induction l as [|x l IH]; intros F prev; [reflexivity|]. cbn [scalar_delta scalar_undelta].
  rewrite wrap_sub_add by exact (Forall_inv F). rewrite IH by exact (Forall_inv_tail F). reflexivity.
Qed.
Lemma scalar_delta_length p l prev : length (scalar_delta p prev l) = length l.
Proof. revert prev; induction l as [|x l IH]; intros prev; [reflexivity|]. cbn. rewrite IH. reflexivity. Qed.

(** * Compression *)
Lemma transpose_length x : length (transpose x) = 1024.
Proof. apply tab_length. Qed.
Lemma LANES_le p : is_unsigned p = true -> 16 <= LANES p <= 128.
Proof. intros Hp. destruct (lanes_cases p Hp) as [[_ E]|[[_ E]|[[_ E]|[_ E]]]]; rewrite E; lia. Qed.
Lemma transpose_range p x : length x = 1024 -> Forall (in_range p) x -> Forall (in_range p) (transpose x).
Proof.
  intros L F. apply Forall_tab. intros i Hi. apply (proj1 (Forall_forall _ _) F), nth_In. rewrite L. apply tr_index_lt. exact Hi.
Qed.

Definition chunks_of (l : list Z) : nat := length l / 1024.
Lemma chunks_skip (l : list Z) k : length l / 1024 = S k -> length (skipn 1024 l) / 1024 = k /\ 1024 <= length l /\ length (skipn 1024 l) mod 1024 = length l mod 1024.
Proof. intros H. rewrite skipn_length. lia. Qed.

Lemma compress_lengths p : is_unsigned p = true -> forall k l, length l / 1024 = k ->
  length (fst (compress_loop p k l)) = k * LANES p + (if 0 <? length l mod 1024 then 1 else 0) /\
  length (snd (compress_loop p k l)) = length l.
Proof.
  intros Hp. pose proof (LANES_le p Hp) as HL. induction k as [|k IH]; intros l H.
  - cbn [compress_loop]. destruct l as [|b l]; [split; reflexivity|]. cbn [fst snd]. rewrite scalar_delta_length.
    assert (length (b :: l) mod 1024 = length (b :: l)) as -> by (apply Nat.mod_small; lia). split; [|reflexivity]. reflexivity.
  - destruct (chunks_skip l k H) as (H1 & H2 & H3). cbn [compress_loop]. specialize (IH _ H1).
    destruct (compress_loop p k (skipn 1024 l)) as [bs ds]. cbn [fst snd] in *. destruct IH as [I1 I2].
    rewrite !app_length, I1, I2, H3, skipn_length, firstn_length, transpose_length.
    rewrite delta_kernel_length by (first [exact Hp|apply transpose_length]).
    split; [|lia]. rewrite Nat.min_l by lia. lia.
Qed.

Theorem decompress_compress p : is_unsigned p = true -> forall l, Forall (in_range p) l ->
  decompress_primitive p (fst (compress_primitive p l)) (snd (compress_primitive p l)) = Ok l.
Proof.
  intros Hp l F. unfold decompress_primitive, compress_primitive. pose proof (LANES_le p Hp) as HL.
  destruct (compress_lengths p Hp (length l / 1024) l eq_refl) as [_ ->].
  remember (length l / 1024) as k eqn:Ek. symmetry in Ek. revert l F Ek. induction k as [|k IH]; intros l F Ek.
  - cbn [compress_loop]. destruct l as [|b l]; [reflexivity|]. cbn [fst snd decompress_loop].
    destruct (scalar_delta p b (b :: l)) eqn:E; [apply (f_equal (@length Z)) in E; rewrite scalar_delta_length in E; discriminate|].
    rewrite <- E, scalar_undelta_delta by exact F. reflexivity.
  - destruct (chunks_skip l k Ek) as (H1 & H2 & H3).
    assert (Forall (in_range p) (skipn 1024 l)) as Fs by (apply Forall_forall; intros z Hz; apply (proj1 (Forall_forall _ _) F); rewrite <- (firstn_skipn 1024 l); apply in_or_app; right; exact Hz).
    assert (Forall (in_range p) (firstn 1024 l)) as Ff by (apply Forall_forall; intros z Hz; apply (proj1 (Forall_forall _ _) F); rewrite <- (firstn_skipn 1024 l); apply in_or_app; left; exact Hz).
    specialize (IH _ Fs H1). cbn [compress_loop].
    destruct (compress_loop p k (skipn 1024 l)) as [bs ds]. cbn [fst snd] in *.
    set (t := transpose (firstn 1024 l)). set (base := firstn (LANES p) t).
    assert (length (firstn 1024 l) = 1024) as L1 by (rewrite firstn_length; lia).
    assert (length t = 1024) as Lt by apply transpose_length.
    assert (length base = LANES p) as Lb by (unfold base; rewrite firstn_length; lia).
    assert (length (delta_kernel p t base) = 1024) as Lk by (apply delta_kernel_length; assumption).
    cbn [decompress_loop]. rewrite app_length. destruct (Nat.ltb_spec (length base + length bs) (LANES p)); [lia|].
    rewrite (skipn_app (LANES p)), Lb, Nat.sub_diag, (skipn_all2 base) by lia. cbn [app].
    rewrite (skipn_app 1024), Lk, Nat.sub_diag, (skipn_all2 (delta_kernel p t base)) by lia. cbn [app].
    change (skipn 0 ds) with ds. change (skipn 0 bs) with bs. rewrite IH. cbn [bind]. f_equal.
    rewrite (firstn_app 1024), Lk, Nat.sub_diag, (firstn_all2 (delta_kernel p t base)) by lia. change (firstn 0 ?x) with (@nil Z). rewrite app_nil_r.
    rewrite (firstn_app (LANES p)), Lb, Nat.sub_diag, (firstn_all2 base) by lia. change (firstn 0 ?x) with (@nil Z). rewrite app_nil_r.
    rewrite undelta_delta by (first [assumption|apply transpose_range; assumption]). unfold t. rewrite untranspose_transpose by exact L1.
    apply firstn_skipn.
Qed.

(** Aligned pieces of the compressed form are the compressed form of the pieces. *)
Lemma compress_skip p : is_unsigned p = true -> forall a l, a <= length l / 1024 ->
  compress_primitive p (skipn (a * 1024) l) = (skipn (a * LANES p) (fst (compress_primitive p l)), skipn (a * 1024) (snd (compress_primitive p l))).
Proof.
  intros Hp. pose proof (LANES_le p Hp) as HL. induction a as [|a IH]; intros l Ha.
  - cbn [Nat.mul skipn]. destruct (compress_primitive p l); reflexivity.
  - destruct (length l / 1024) as [|k] eqn:Ek; [lia|]. destruct (chunks_skip l k Ek) as (H1 & H2 & H3).
    replace (S a * 1024) with (1024 + a * 1024) by lia. rewrite <- skipn_plus.
    rewrite IH by lia. unfold compress_primitive. rewrite Ek. rewrite H1. cbn [compress_loop].
    destruct (compress_loop p k (skipn 1024 l)) as [bs ds]. cbn [fst snd].
    set (t := transpose (firstn 1024 l)). set (base := firstn (LANES p) t).
    assert (length base = LANES p) as Lb by (unfold base; rewrite firstn_length; unfold t; rewrite transpose_length; lia).
    assert (length (delta_kernel p t base) = 1024) as Lk by (apply delta_kernel_length; [exact Hp|apply transpose_length]).
    replace (S a * LANES p) with (LANES p + a * LANES p) by lia. rewrite <- !skipn_plus.
    rewrite (skipn_app (LANES p)), Lb, Nat.sub_diag, (skipn_all2 base) by lia.
    rewrite (skipn_app 1024), Lk, Nat.sub_diag, (skipn_all2 (delta_kernel p t base)) by lia. reflexivity.
Qed.
Lemma compress_first p : is_unsigned p = true -> forall b l,
  compress_primitive p (firstn (b * 1024) l) = (firstn (b * LANES p) (fst (compress_primitive p l)), firstn (b * 1024) (snd (compress_primitive p l))).
Proof.
  intros Hp. pose proof (LANES_le p Hp) as HL. induction b as [|b IH]; intros l; [reflexivity|].
  unfold compress_primitive. destruct (length l / 1024) as [|k] eqn:Ek.
  - assert (length l < 1024) as Hl by lia. rewrite (firstn_all2 l) by lia. rewrite Ek.
    destruct (compress_lengths p Hp 0 l Ek) as [L1 L2]. destruct (compress_loop p 0 l) as [bs ds]. cbn [fst snd] in *.
    assert (length bs <= 1) by (rewrite L1; destruct (0 <? _); lia).
    rewrite !firstn_all2 by lia. reflexivity.
  - destruct (chunks_skip l k Ek) as (H1 & H2 & H3).
    assert (length (firstn (S b * 1024) l) / 1024 = S (length (firstn (b * 1024) (skipn 1024 l)) / 1024)) as ->.
    { rewrite !firstn_length, skipn_length. replace (Nat.min (S b * 1024) (length l)) with (Nat.min (b * 1024) (length l - 1024) + 1 * 1024) by lia.
      rewrite Nat.div_add by lia. lia. }
    cbn [compress_loop].
    assert (firstn 1024 (firstn (S b * 1024) l) = firstn 1024 l) as -> by (rewrite firstn_firstn; f_equal; lia).
    assert (skipn 1024 (firstn (S b * 1024) l) = firstn (b * 1024) (skipn 1024 l)) as ->.
    { rewrite skipn_firstn_comm. f_equal. lia. }
    specialize (IH (skipn 1024 l)). unfold compress_primitive in IH. rewrite H1 in IH. rewrite IH.
    destruct (compress_loop p k (skipn 1024 l)) as [bs ds]. cbn [fst snd].
    set (t := transpose (firstn 1024 l)). set (base := firstn (LANES p) t).
    assert (length base = LANES p) as Lb by (unfold base; rewrite firstn_length; unfold t; rewrite transpose_length; lia).
    assert (length (delta_kernel p t base) = 1024) as Lk by (apply delta_kernel_length; [exact Hp|apply transpose_length]).
    rewrite !firstn_app, Lb, Lk. replace (S b * LANES p - LANES p) with (b * LANES p) by lia. replace (S b * 1024 - 1024) with (b * 1024) by lia.
    rewrite (firstn_all2 base), (firstn_all2 (delta_kernel p t base)) by lia. reflexivity.
Qed.

(** * Arrays *)
(** A delta array represents these rows: its children are the compressed form of some values, of which it shows the
    window [off, off + len) masked by its validity. *)
Definition delta_represents (d : darray) (rows : list value) : Prop :=
  exists l, is_unsigned (d_p d) = true /\ Forall (in_range (d_p d)) l /\
    compress_primitive (d_p d) l = (d_bases d, d_deltas d) /\
    d_off d < 1024 /\ d_off d + d_len d <= length l /\ vwf (d_v d) (d_len d) /\
    rows = tab (d_len d) (fun i => if vvalid (d_v d) i then VInt (nth (d_off d + i) l 0%Z) else VNull).

Lemma compress_len p l bs ds : is_unsigned p = true -> compress_primitive p l = (bs, ds) ->
  length ds = length l /\ length bs = bases_len p (length l).
Proof.
  intros Hp E. destruct (compress_lengths p Hp (length l / 1024) l eq_refl) as [H1 H2]. unfold compress_primitive in E. rewrite E in H1, H2.
  cbn [fst snd] in *. split; [exact H2|exact H1].
Qed.

Lemma try_new_ok p nl l bs ds v off len : is_unsigned p = true -> compress_primitive p l = (bs, ds) ->
  off < 1024 -> off + len <= length l -> vwf v len -> delta_try_new p nl bs ds v off len = Ok (DArr p nl bs ds v off len).
Proof.
  intros Hp E Ho Hl Hv. destruct (compress_len p l bs ds Hp E) as [L1 L2]. unfold delta_try_new.
  destruct (Nat.leb_spec 1024 off); [lia|]. destruct (Nat.ltb_spec (length ds) (off + len)); [lia|].
  rewrite (proj2 (vfits_vwf v len) Hv), Hp. cbn [negb]. rewrite L1, L2, Nat.eqb_refl. cbn [negb].
  assert (Bool.eqb (length l mod 1024 =? 0) (bases_len p (length l) mod LANES p =? 0) = true) as ->; [|reflexivity].
  pose proof (LANES_le p Hp) as HL. unfold bases_len. rewrite Nat.add_comm, Nat.mod_add by lia.
  destruct (Nat.ltb_spec 0 (length l mod 1024)) as [G|G].
  - rewrite (Nat.mod_small 1 (LANES p)) by lia. destruct (Nat.eqb_spec (length l mod 1024) 0); [lia|reflexivity].
  - replace (length l mod 1024) with 0 by lia. rewrite (Nat.mod_small 0 (LANES p)) by lia. reflexivity.
Qed.

(** Decoding an array whose validity is not a bitmap, or which has not been sliced. *)
Theorem delta_decompress_spec :
  forall d rows, delta_represents d rows ->
  ((forall bits, d_v d <> VBits bits) \/ (d_off d = 0 /\ d_len d = length (d_deltas d))) ->
  exists a, delta_decompress d = Ok a /\ logical a = rows /\ adtype a = DPrim (d_p d) (vnullable (d_v d)) /\ wf f0 a.
Proof.
  intros d rows (l & Hp & F & E & Ho & Hl & Hv & ->) H. unfold delta_decompress. rewrite Hp. cbn [negb].
  destruct (compress_len _ _ _ _ Hp E) as [L1 L2].
  pose proof (decompress_compress (d_p d) Hp l F) as D. rewrite E in D. cbn [fst snd] in D. rewrite D. cbn [bind].
  assert (vwf (d_v d) (length l)) as Hvl.
  { destruct H as [H|[H1 H2]]; [destruct (d_v d) as [| | |b]; try exact I; contradiction (H b eq_refl)|]. rewrite <- L1, <- H2. exact Hv. }
  rewrite (proj2 (vfits_vwf _ _) Hvl). cbn [negb].
  assert (wf f_dec (APrim (d_p d) l (d_v d))) as W by (split; assumption).
  pose proof (slice_correct (APrim (d_p d) l (d_v d)) f_dec (d_off d) (d_off d + d_len d) W ltac:(lia) Hl) as S. unfold outc in S.
  pose proof (slice_correct (APrim (d_p d) l (d_v d)) f0 (d_off d) (d_off d + d_len d) W ltac:(lia) Hl) as S0. unfold outc in S0.
  destruct (slice _ _ _) as [a| |]; [|contradiction S; left; reflexivity|contradiction S; left; reflexivity].
  exists a. split; [reflexivity|]. destruct S as (Wa & La & Da & _). split.
  - rewrite La. change (logical (APrim (d_p d) l (d_v d))) with (tab (length l) (fun i => if vvalid (d_v d) i then VInt (nth i l 0%Z) else VNull)).
    rewrite lslice_tab by exact Hl. replace (d_off d + d_len d - d_off d) with (d_len d) by lia. apply tab_ext. intros i Hi.
    destruct H as [H|[H1 H2]]; [|rewrite H1; reflexivity].
    assert (vvalid (d_v d) (d_off d + i) = vvalid (d_v d) i) as -> by (destruct (d_v d) as [| | |b]; try reflexivity; contradiction (H b eq_refl)). reflexivity.
  - split; [rewrite Da; reflexivity|]. apply S0.
Qed.
Print Assumptions delta_decompress_spec.

(** Compressing (with the array's own validity, as the compressor does) and decompressing is the identity. *)
Theorem delta_roundtrip :
  forall p l v, wf f0 (APrim p l v) -> is_unsigned p = true ->
  exists d a, delta_encode p l v = Ok d /\ delta_represents d (logical (APrim p l v)) /\
    delta_decompress d = Ok a /\ logical a = logical (APrim p l v) /\ adtype a = adtype (APrim p l v).
Proof.
  intros p l v W Hp. pose proof W as [Wl Wv].
  assert (exists l', fill_forward (APrim p l v) = Ok (APrim p l' (if vnullable v then VAllValid else VNonNull)) /\ length l' = length l /\ Forall (in_range p) l' /\
    (forall i, i < length l -> vvalid v i = true -> nth i l' 0%Z = nth i l 0%Z)) as (l' & E & L & F & N).
  { pose proof (fill_forward_spec (APrim p l v)) as S. pose proof (proj1 (fill_forward_total _ W)) as T.
    assert (is_ok (fill_forward (APrim p l v)) = true) as O by (apply T; right; left; eauto).
    unfold fill_forward in *. cbn [adtype nullable] in *. destruct (vnullable v) eqn:En; cbn [negb] in *.
    - unfold fill_prim in *. pose proof (to_logical_inv v (length l) Wv) as H.
      destruct (to_logical v (length l)) as [m|m|m]; cbn [l_all_valid l_all_invalid to_null_buffer] in *.
      + exists l. split; [reflexivity|]. auto.
      + exists (repeat 0%Z (length l)). split; [reflexivity|]. split; [apply repeat_length|]. split.
        { apply Forall_forall. intros z Hz. apply repeat_spec in Hz. subst z. apply in_range_zero. }
        intros i Hi Hv. destruct H as [_ H]. rewrite H in Hv by exact Hi. discriminate.
      + exists (fill_scan 0%Z l m). split; [reflexivity|]. destruct H as [-> H].
        split; [apply (fill_scan_spec VInt ltac:(discriminate)); lia|].
        split; [apply (S _ W eq_refl)|]. intros i Hi Hv. cbn [vvalid] in Hv. clear - Hi Hv. revert l i Hi Hv. generalize 0%Z at 1 as last.
        induction m as [|b m IH]; intros last l i Hi Hv; [destruct i; discriminate|].
        destruct l as [|x l]; [cbn in Hi; lia|]. destruct i as [|i]; cbn in *; [rewrite Hv; reflexivity|]. apply IH; [lia|exact Hv].
    - exists l. destruct v; try discriminate. split; [reflexivity|]. auto. }
  unfold delta_encode, delta_compress. rewrite E. cbn [bind]. rewrite Hp.
  destruct (compress_primitive p l') as [bs ds] eqn:Ec. cbn [bind].
  destruct (compress_len p l' bs ds Hp Ec) as [L1 L2].
  rewrite (try_new_ok p (vnullable v) l' bs ds v 0 (length ds) Hp Ec) by (first [lia|rewrite L1, L; exact Wv]).
  set (d := DArr p (vnullable v) bs ds v 0 (length ds)).
  assert (delta_represents d (logical (APrim p l v))) as R.
  { exists l'. unfold d. cbn [d_p d_v d_bases d_deltas d_off d_len]. split; [exact Hp|]. split; [exact F|]. split; [exact Ec|]. split; [lia|]. split; [lia|].
    rewrite L1, L. split; [exact Wv|]. cbn [logical]. apply tab_ext. intros i Hi. destruct (vvalid v i) eqn:Ev; [|reflexivity].
    cbn [Nat.add]. rewrite N by assumption. reflexivity. }
  destruct (delta_decompress_spec d _ R) as (a & D1 & D2 & D3 & _); [right; split; reflexivity|].
  exists d, a. split; [reflexivity|]. split; [exact R|]. split; [exact D1|]. split; [exact D2|]. rewrite D3. reflexivity.
Qed.
Print Assumptions delta_roundtrip.

Lemma lslice_clip {A} (x : list A) a b : a <= b -> lslice x (min a (length x)) (min b (length x)) = firstn (b - a) (skipn a x).
Proof.
  intros H. unfold lslice. destruct (le_lt_dec (length x) a).
  - rewrite (skipn_all2 x) by lia. rewrite (skipn_all2 x) by lia. rewrite !firstn_nil. reflexivity.
  - rewrite (Nat.min_l a) by lia. destruct (le_lt_dec b (length x)).
    + rewrite Nat.min_l by lia. reflexivity.
    + rewrite Nat.min_r by lia. rewrite !firstn_all2 by (rewrite skipn_length; lia). reflexivity.
Qed.

Theorem delta_slice_spec :
  forall d rows i j, delta_represents d rows -> i <= j -> j <= d_len d ->
  exists d', delta_slice d i j = Ok d' /\ delta_represents d' (spec_slice rows i j) /\
    d_p d' = d_p d /\ vnullable (d_v d') = vnullable (d_v d) /\ ((forall b, d_v d <> VBits b) -> d_v d' = d_v d).
Proof.
  intros d rows i j (l & Hp & F & E & Ho & Hl & Hv & ->) Hij Hj. unfold delta_slice. rewrite slice_good by assumption.
  destruct (compress_len _ _ _ _ Hp E) as [L1 L2]. pose proof (LANES_le (d_p d) Hp) as HL.
  set (ps := i + d_off d). set (pe := j + d_off d). set (sc := ps / 1024). set (ec := div_ceil pe 1024).
  assert (sc * 1024 + ps mod 1024 = ps /\ ps mod 1024 < 1024) as [Hsc Hpm] by (unfold sc; lia).
  assert (pe <= ec * 1024 /\ ec * 1024 < pe + 1024) as [Hec Hec'] by (unfold ec, div_ceil; lia).
  assert (sc <= length l / 1024) as Hscl.
  { unfold sc. apply Nat.div_le_mono; [lia|]. unfold ps. lia. }
  assert (ps <= pe /\ pe <= length l) as [Hpp Hpl] by (unfold ps, pe; lia).
  assert (sc <= ec) as Hse by lia.
  rewrite L1, <- L2.
  rewrite slice_good; [|apply Nat.min_le_compat_r, Nat.mul_le_mono_r; exact Hse|apply Nat.le_min_r]. cbn [bind].
  rewrite slice_good; [|apply Nat.min_le_compat_r, Nat.mul_le_mono_r; exact Hse|apply Nat.le_min_r]. cbn [bind].
  rewrite (lslice_clip (d_bases d)) by (apply Nat.mul_le_mono_r; exact Hse).
  rewrite <- L1. rewrite (lslice_clip (d_deltas d)) by (apply Nat.mul_le_mono_r; exact Hse).
  rewrite <- !Nat.mul_sub_distr_r.
  set (l' := firstn ((ec - sc) * 1024) (skipn (sc * 1024) l)).
  assert (compress_primitive (d_p d) l' = (firstn ((ec - sc) * LANES (d_p d)) (skipn (sc * LANES (d_p d)) (d_bases d)),
     firstn ((ec - sc) * 1024) (skipn (sc * 1024) (d_deltas d)))) as E'.
  { unfold l'. rewrite compress_first by exact Hp. rewrite compress_skip by assumption. rewrite E. reflexivity. }
  destruct (vslice_ok (d_v d) (d_len d) i j Hv Hij Hj) as (w & Ew & Ww & Nw & Vw & _ & _). rewrite Ew. cbn [bind].
  assert (ps mod 1024 + (j - i) <= length l') as Hlen.
  { unfold l'. rewrite firstn_length, skipn_length. apply Nat.min_glb; unfold ps, pe in *; clear - Hsc Hec Hpl Hij Hse; nia. }
  rewrite (try_new_ok _ (d_null d) l' _ _ w (ps mod 1024) (j - i) Hp E' Hpm Hlen Ww).
  eexists. split; [reflexivity|]. split; [|split; [reflexivity|split; [exact Nw|]]].
  - exists l'. cbn [d_p d_v d_bases d_deltas d_off d_len]. split; [exact Hp|]. split.
    { apply Forall_forall. intros z Hz. apply (proj1 (Forall_forall _ _) F). unfold l' in Hz.
      rewrite <- (firstn_skipn (sc * 1024) l). apply in_or_app. right. rewrite <- (firstn_skipn ((ec - sc) * 1024)). apply in_or_app. left. exact Hz. }
    split; [exact E'|]. split; [exact Hpm|]. split; [exact Hlen|]. split; [exact Ww|].
    change (spec_slice ?x i j) with (lslice x i j). rewrite lslice_tab by exact Hj. apply tab_ext. intros k Hk. rewrite Vw by exact Hk.
    destruct (vvalid (d_v d) (i + k)); [|reflexivity]. f_equal. unfold l'.
    assert (ps mod 1024 + k < (ec - sc) * 1024) by (unfold ps, pe in *; clear - Hk Hsc Hec Hij Hse; nia).
    rewrite nth_firstn by assumption. rewrite nth_skipn. f_equal. unfold ps in *. clear - Hsc. lia.
  - intros Hb. cbn [d_v]. destruct (d_v d) as [| | |b]; cbn [vslice] in Ew; [congruence..|]. contradiction (Hb b eq_refl).
Qed.
Print Assumptions delta_slice_spec.

Theorem delta_scalar_at_spec :
  forall d rows i, delta_represents d rows -> (forall b, d_v d <> VBits b) ->
  delta_scalar_at d i = match nth_error rows i with Some x => Ok x | None => Err end.
Proof.
  intros d rows i R Hb. unfold delta_scalar_at. pose proof R as (l & _ & _ & _ & _ & _ & _ & Er).
  assert (length rows = d_len d) as L by (rewrite Er; apply tab_length).
  destruct (Nat.leb_spec (d_len d) i).
  - rewrite (proj2 (nth_error_None rows i)) by lia. reflexivity.
  - destruct (delta_slice_spec d rows i (i + 1) R ltac:(lia) ltac:(lia)) as (d' & E & R' & _ & _ & Hv). rewrite E. cbn [bind].
    destruct (delta_decompress_spec d' _ R') as (a & Ea & La & _); [left; rewrite Hv by exact Hb; exact Hb|].
    rewrite Ea. cbn [bind]. rewrite La. change (spec_slice rows i (i + 1)) with (lslice rows i (i + 1)).
    rewrite nth_lslice by lia. rewrite Nat.add_0_r. rewrite (nth_error_nth' rows VNull) by lia. reflexivity.
Qed.
Print Assumptions delta_scalar_at_spec.

(** Signed (and float) arrays are not supported: a panic. *)
Theorem delta_signed_panics : forall p l v, wf f0 (APrim p l v) -> is_unsigned p = false -> delta_encode p l v = Panic.
Proof.
  intros p l v W Hp. unfold delta_encode, delta_compress.
  assert (is_ok (fill_forward (APrim p l v)) = true) as O by (apply (proj1 (fill_forward_total _ W)); right; left; eauto).
  assert (forall r, fill_forward (APrim p l v) = Ok r -> exists l' v', r = APrim p l' v') as S.
  { intros r. unfold fill_forward. destruct (negb _); [intros [= <-]; eauto|]. unfold fill_prim. destruct (to_logical v (length l)); cbn; intros [= <-]; eauto. }
  destruct (fill_forward (APrim p l v)) as [r| |]; try discriminate. destruct (S r eq_refl) as (l' & v' & ->). cbn [bind]. rewrite Hp. reflexivity.
Qed.
Print Assumptions delta_signed_panics.

(** DeltaArray::try_from_primitive_array forgets nulls: *)
Theorem delta_from_primitive_drops_nulls_refuted :
  exists p l v d a, wf f0 (APrim p l v) /\ is_unsigned p = true /\ delta_from_primitive p l v = Ok d /\ delta_decompress d = Ok a /\
    logical (APrim p l v) = [VInt 5; VNull] /\ logical a = [VInt 5; VInt 5].
Proof.
  exists U8, [5; 7]%Z, (VBits [true; false]). do 2 eexists.
  split; [cbn; repeat split; repeat constructor; unfold in_range; cbn; lia|]. split; [reflexivity|].
  split; [vm_compute; reflexivity|]. split; [vm_compute; reflexivity|]. split; vm_compute; reflexivity.
Qed.
Print Assumptions delta_from_primitive_drops_nulls_refuted.
(** A slice of an array with a validity bitmap cannot be decoded (nor can a single row be read): *)
Theorem delta_nullable_slice_refuted :
  exists p l v d s, wf f0 (APrim p l v) /\ delta_encode p l v = Ok d /\ delta_slice d 0 1 = Ok s /\ delta_decompress s = Panic /\ delta_scalar_at d 0 = Panic.
Proof.
  exists U8, [5; 7]%Z, (VBits [true; false]). do 2 eexists.
  split; [cbn; repeat split; repeat constructor; unfold in_range; cbn; lia|].
  split; [vm_compute; reflexivity|]. split; [vm_compute; reflexivity|]. split; vm_compute; reflexivity.
Qed.
Print Assumptions delta_nullable_slice_refuted.
Example ex_delta : wf f0 (APrim U16 [300; 5; 65535]%Z VAllValid) /\ delta_compress U16 [300; 5; 65535]%Z VAllValid = Ok ([300], [0; 65241; 65530])%Z.
Proof. split; [cbn; repeat split; repeat constructor; unfold in_range; cbn; lia|vm_compute; reflexivity]. Qed.

(** Parts are accepted by DeltaArray::try_new exactly when they fit together. *)
Theorem delta_parts_accepted_exactly :
  forall p nl bs ds v off len,
  (exists d, delta_try_new p nl bs ds v off len = Ok d) <->
  off < 1024 /\ off + len <= length ds /\ vwf v len /\ is_unsigned p = true /\
  length bs = length ds / 1024 * LANES p + (if length ds mod 1024 =? 0 then 0 else 1) /\
  (length ds mod 1024 = 0 <-> length bs mod LANES p = 0).
Proof.
  intros p nl bs ds v off len. unfold delta_try_new.
  destruct (Nat.leb_spec 1024 off); [split; [intros [d E]; discriminate|lia]|].
  destruct (Nat.ltb_spec (length ds) (off + len)); [split; [intros [d E]; discriminate|lia]|].
  destruct (vfits v len) eqn:V; cbn [negb].
  2:{ split; [intros [d E]; discriminate|]. intros (_ & _ & W & _). apply vfits_vwf in W. congruence. }
  apply vfits_vwf in V.
  destruct (is_unsigned p) eqn:U; cbn [negb]; [|split; [intros [d E]; discriminate|intros (_ & _ & _ & E & _); discriminate]].
  assert (bases_len p (length ds) = length ds / 1024 * LANES p + (if length ds mod 1024 =? 0 then 0 else 1)) as B.
  { unfold bases_len. destruct (length ds mod 1024); reflexivity. }
  rewrite <- B. clear B.
  destruct (Nat.eqb_spec (length bs) (bases_len p (length ds))) as [E|E]; cbn [negb]; [|split; [intros [d X]; discriminate|tauto]].
  destruct (Nat.eqb_spec (length ds mod 1024) 0) as [A|A], (Nat.eqb_spec (length bs mod LANES p) 0) as [C|C]; cbn [Bool.eqb negb].
  - split; [intros _; tauto|eauto].
  - split; [intros [d X]; discriminate|]. intros X. exfalso. apply C, X, A.
  - split; [intros [d X]; discriminate|]. intros X. exfalso. apply A, X, C.
  - split; [intros _; tauto|eauto].
Qed.
