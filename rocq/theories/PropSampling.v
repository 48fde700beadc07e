(** C46: the slices the compressor samples. *)
From Verif Require Import Base Spec Arr ArrRead ArrWf ArrReadProofs ArrSlice ArrSliceProofs ArrSliceMain ArrOps OpsBase OpsFlat PropSlice PropOps PropIntEnc Sampling.

(** * Specification *)
(** The ranges are contiguous and cover [a, b). *)
Fixpoint covers (a b : nat) (ps : list (nat * nat)) : Prop :=
  match ps with
  | [] => a = b
  | (x, y) :: r => x = a /\ a <= y /\ covers y b r
  end.
(** The ranges lie in [a, b), in order, without overlap. *)
Fixpoint apart (a b : nat) (ps : list (nat * nat)) : Prop :=
  match ps with
  | [] => a <= b
  | (x, y) :: r => a <= x /\ x <= y /\ apart y b r
  end.
Definition size_of (r : nat * nat) : nat := snd r - fst r.
(** The first [k] parts have one element more than the others. *)
Definition even_sizes (len parts : nat) (ps : list (nat * nat)) : Prop :=
  map size_of ps = repeat (S (len / parts)) (len mod parts) ++ repeat (len / parts) (parts - len mod parts).

(** * Lemmas *)
Lemma ceil_mul k s : 0 < s -> (k * s + s - 1) / s = k.
Proof.
  intros H. symmetry. apply (Nat.div_unique _ _ _ (s - 1)); lia.
Qed.
Lemma step_range_mul a k s : 0 < s -> step_range a (a + k * s) s = Ok (map (fun i => a + i * s) (seq 0 k)).
Proof.
  intros H. unfold step_range. destruct (Nat.eqb_spec s 0); [lia|].
  replace (a + k * s - a + s - 1) with (k * s + s - 1) by lia. rewrite ceil_mul by exact H. reflexivity.
Qed.
Lemma covers_app a b c ps qs : covers a b ps -> covers b c qs -> covers a c (ps ++ qs).
Proof.
  revert a; induction ps as [|[x y] r IH]; cbn [covers app]; intros a H K; [subst; exact K|].
  destruct H as (-> & L & H). repeat split; auto.
Qed.
Lemma covers_steps a s : forall k j, covers (a + j * s) (a + (j + k) * s) (map (fun off => (off, off + s)) (map (fun i => a + i * s) (seq j k))).
Proof.
  induction k as [|k IH]; intros j; cbn [seq map covers]; [f_equal; f_equal; lia|].
  split; [reflexivity|]. split; [lia|]. specialize (IH (S j)).
  replace (a + j * s + s) with (a + S j * s) by lia. replace (j + S k) with (S j + k) by lia. exact IH.
Qed.
Lemma sizes_steps a s : forall k j, map size_of (map (fun off => (off, off + s)) (map (fun i => a + i * s) (seq j k))) = repeat s k.
Proof.
  induction k as [|k IH]; intros j; cbn [seq map repeat]; [reflexivity|]. rewrite IH. f_equal. unfold size_of; cbn. lia.
Qed.

(** * partition_indices *)
(** A range split in no more parts than it has elements: that many parts, contiguous, in order, covering the range exactly, as equal as
    possible, the longer ones first. *)
Theorem partition_covers :
  forall len parts : nat, 0 < parts <= len ->
  exists ps, partition_indices len parts = Ok ps /\ length ps = parts /\ covers 0 len ps /\ even_sizes len parts ps.
Proof.
  intros len parts [H0 Hl]. unfold partition_indices, even_sizes. destruct (Nat.eqb_spec parts 0); [lia|]. cbv zeta.
  pose proof (Nat.div_mod len parts ltac:(lia)) as DM. pose proof (Nat.mod_upper_bound len parts ltac:(lia)) as MB.
  assert (0 < len / parts) as SP by (apply Nat.div_str_pos; lia).
  set (q := len / parts) in *. set (m := len mod parts) in *. clearbody q m.
  assert (step_range 0 (m * (q + 1)) (q + 1) = Ok (map (fun i => 0 + i * (q + 1)) (seq 0 m))) as ES0 by (apply (step_range_mul 0 m (q + 1)); lia).
  rewrite ES0. cbn [bind].
  assert (len = m * (q + 1) + (parts - m) * q) as EL by nia.
  assert (step_range (m * (q + 1)) len q = Ok (map (fun i => m * (q + 1) + i * q) (seq 0 (parts - m)))) as ES
    by (rewrite EL; apply step_range_mul; lia).
  rewrite ES. cbn [bind]. eexists. split; [reflexivity|]. split; [|split].
  - rewrite app_length, !map_length, !seq_length. lia.
  - apply (covers_app 0 (m * (q + 1))).
    + apply (covers_steps 0 (q + 1) m 0).
    + pose proof (covers_steps (m * (q + 1)) q (parts - m) 0) as C. cbn [Nat.mul Nat.add] in C.
      rewrite Nat.add_0_r in C. rewrite EL. exact C.
  - rewrite map_app, (sizes_steps 0), sizes_steps. replace (q + 1) with (S q) by lia. reflexivity.
Qed.
Print Assumptions partition_covers.

(** Otherwise it panics: more parts than elements, or no parts. *)
Theorem partition_panics :
  forall len parts : nat, parts = 0 \/ len < parts -> partition_indices len parts = Panic.
Proof.
  intros len parts H. unfold partition_indices. destruct (Nat.eqb_spec parts 0); [reflexivity|].
  destruct H as [H|H]; [contradiction|]. rewrite (Nat.div_small len parts H). cbv zeta. unfold step_range at 1. cbn [Nat.add Nat.eqb bind].
  reflexivity.
Qed.
Print Assumptions partition_panics.

(** * stratified_slices *)
Lemma covers_le a b ps : covers a b ps -> a <= b.
Proof. revert a; induction ps as [|[x y] r IH]; cbn [covers]; intros a H; [lia|]. destruct H as (-> & L & H). apply IH in H. lia. Qed.
Lemma apart_mono a a' b ps : a' <= a -> apart a b ps -> apart a' b ps.
Proof. destruct ps as [|[x y] r]; cbn [apart]; intros; [lia|]. intuition lia. Qed.

Lemma pick_slices draw size : forall parts b a k0, covers a b parts -> Forall (fun r => size <= size_of r) parts ->
  exists ss, mapM (pick_slice draw) (combine (seq k0 (length parts)) (combine parts (repeat size (length parts)))) = Ok ss /\
    length ss = length parts /\ apart a b ss /\ Forall (fun r => size_of r = size) ss /\
    Forall2 (fun p s => fst p <= fst s /\ snd s <= snd p) parts ss.
Proof.
  induction parts as [|[x y] r IH]; intros b a k0 C F.
  - exists []. cbn in *. repeat split; auto; lia.
  - cbn [covers] in C. destruct C as (-> & L & C). inversion F as [|? ? F1 F2]; subst. unfold size_of in F1; cbn [fst snd] in F1.
    destruct (IH b y (S k0) C F2) as (ss & E & Ls & A & Z & In). clear IH.
    cbn [length seq combine repeat mapM]. unfold pick_slice at 1. destruct (Nat.ltb_spec (y - a) size); [lia|]. cbv zeta. cbn [bind].
    rewrite E. cbn [bind].
    assert (a <= gen_range draw k0 a (y - size) /\ gen_range draw k0 a (y - size) + size <= y) as [G1 G2].
    { unfold gen_range. pose proof (Nat.mod_upper_bound (draw k0) (y - size - a + 1) ltac:(lia)). lia. }
    eexists. split; [reflexivity|]. cbn [length apart]. split; [congruence|]. split; [|split].
    + split; [exact G1|]. split; [lia|]. apply (apart_mono y); [exact G2|exact A].
    + constructor; [unfold size_of; cbn [fst snd]; lia|exact Z].
    + constructor; [split; [exact G1|exact G2]|exact In].
Qed.

(** For positive sample sizes and counts (with a product below 2^16), whatever the random numbers: an array no longer than the sample is
    sampled entirely; from a longer one exactly [count] slices of [size] elements each are taken, inside the array, in order and without
    overlap, the i-th one from the i-th of [count] equal parts. *)
Theorem sample_slices_are_stratified :
  forall (draw : nat -> nat) (len size count : nat), 0 < size -> 0 < count -> (Z.of_nat count * Z.of_nat size <= 65535)%Z ->
  exists ss, stratified_slices draw len size count = Ok ss /\ apart 0 len ss /\
    (len <= count * size -> ss = [(0, len)]) /\
    (count * size < len ->
       length ss = count /\ Forall (fun r => size_of r = size) ss /\
       exists parts, length parts = count /\ covers 0 len parts /\ even_sizes len count parts /\
         Forall2 (fun p s => fst p <= fst s /\ snd s <= snd p) parts ss).
Proof.
  intros draw len size count Hs Hc Hm. unfold stratified_slices, mul_u16. change (pmax U16) with 65535%Z.
  destruct (Z.leb_spec (Z.of_nat count * Z.of_nat size) 65535); [|lia]. cbn [bind].
  destruct (Nat.leb_spec len (count * size)) as [LE|LT].
  - exists [(0, len)]. split; [reflexivity|]. cbn [apart]. split; [lia|]. split; [reflexivity|]. lia.
  - assert (count <= count * size) as M by nia.
    destruct (partition_covers len count ltac:(lia)) as (ps & E1 & L1 & C1 & Z1). rewrite E1. cbn [bind].
    destruct (partition_covers (count * size) count ltac:(lia)) as (qs & E2 & L2 & C2 & Z2). rewrite E2. cbn [bind]. cbv zeta.
    unfold even_sizes in Z2. rewrite Nat.mul_comm, Nat.mod_mul, Nat.div_mul, Nat.sub_0_r in Z2 by lia. cbn [repeat app] in Z2.
    change (map (fun r : nat * nat => snd r - fst r) qs) with (map size_of qs). rewrite Z2.
    assert (Forall (fun r => size <= size_of r) ps) as BIG.
    { apply Forall_forall. intros r Hr. apply (in_map size_of) in Hr. rewrite Z1 in Hr.
      assert (size <= len / count) by (apply Nat.div_le_lower_bound; lia).
      apply in_app_or in Hr. destruct Hr as [Hr|Hr]; apply repeat_spec in Hr; lia. }
    replace (repeat size count) with (repeat size (length ps)) by (rewrite L1; reflexivity).
    destruct (pick_slices draw size ps len 0 0 C1 BIG) as (ss & E & Ls & A & Z & In).
    rewrite E. exists ss. split; [reflexivity|]. split; [exact A|]. split; [lia|]. intros _. split; [congruence|]. split; [exact Z|].
    exists ps. auto.
Qed.
Print Assumptions sample_slices_are_stratified.

(** * The sample itself *)
(** A subsequence: some elements left out, the order kept. *)
Inductive subseq {A} : list A -> list A -> Prop :=
| sub_nil : subseq [] []
| sub_skip x l m : subseq l m -> subseq l (x :: m)
| sub_keep x l m : subseq l m -> subseq (x :: l) (x :: m).

Lemma subseq_skipn {A} (l m : list A) n : subseq l (skipn n m) -> subseq l m.
Proof.
  revert m; induction n as [|n IH]; intros m H; [exact H|]. destruct m as [|x m]; [exact H|]. apply sub_skip, IH, H.
Qed.
Lemma subseq_app_same {A} (p l m : list A) : subseq l m -> subseq (p ++ l) (p ++ m).
Proof. intros H. induction p as [|x p IH]; [exact H|]. apply sub_keep, IH. Qed.
Lemma subseq_nil {A} (m : list A) : subseq [] m.
Proof. induction m; constructor; assumption. Qed.

Lemma skipn_skipn_ {A} (l : list A) : forall x y, skipn x (skipn y l) = skipn (x + y) l.
Proof.
  intros x y; revert l x; induction y as [|y IH]; intros l x; [rewrite Nat.add_0_r; reflexivity|].
  rewrite Nat.add_succ_r. destruct l as [|a l]; [rewrite !skipn_nil; reflexivity|]. cbn [skipn]. apply IH.
Qed.
Lemma apart_le a b ps : apart a b ps -> a <= b.
Proof. revert a; induction ps as [|[x y] r IH]; cbn [apart]; intros a H; [lia|]. destruct H as (L & L' & H). apply IH in H. lia. Qed.
Lemma apart_in a b ps : apart a b ps -> Forall (fun r => a <= fst r /\ fst r <= snd r /\ snd r <= b) ps.
Proof.
  revert a; induction ps as [|[x y] r IH]; cbn [apart]; intros a H; [constructor|]. destruct H as (L & L' & H).
  pose proof (apart_le _ _ _ H). constructor; [cbn; lia|]. eapply Forall_impl; [|exact (IH y H)]. cbn. lia.
Qed.
Lemma apart_subseq {A} (l : list A) : forall ps a b, apart a b ps -> b <= length l ->
  subseq (concat (map (fun r => spec_slice l (fst r) (snd r)) ps)) (skipn a l).
Proof.
  induction ps as [|[x y] r IH]; cbn [apart map concat]; intros a b H Hb; [apply subseq_nil|].
  destruct H as (L & L' & H). pose proof (apart_le _ _ _ H). cbn [fst snd]. unfold spec_slice at 1.
  apply (subseq_skipn _ _ (x - a)). rewrite skipn_skipn_. replace (x - a + a) with x by lia.
  rewrite <- (firstn_skipn (y - x) (skipn x l)) at 2. apply subseq_app_same. rewrite skipn_skipn_. replace (y - x + x) with y by lia.
  exact (IH y b H Hb).
Qed.

(** The sample the codecs are tried on: its elements are those of the sampled slices, in order — so a subsequence of the array's elements,
    [size * count] of them — and taking it succeeds for every array of the class on which slicing and decoding cannot fail. *)
Theorem sample_is_a_subsequence :
  forall (draw : nat -> nat) (size count : nat) (a : array),
  wf f_dec a -> match adtype a with DExt _ _ => False | DStruct ns ts _ => length ns = length ts | _ => True end ->
  0 < size -> 0 < count -> (Z.of_nat count * Z.of_nat size <= 65535)%Z -> count * size < length (logical a) ->
  exists s ss, take_sample draw size count a = Ok s /\ stratified_slices draw (alen a) size count = Ok ss /\
    logical s = concat (map (fun r => spec_slice (logical a) (fst r) (snd r)) ss) /\
    subseq (logical s) (logical a) /\ length (logical s) = count * size /\ same_kind (adtype s) (adtype a) /\
    (is_str (adtype a) = false -> adtype s = adtype a).
Proof.
  intros draw size count a W D Hs Hc Hm HL. rewrite logical_length in HL.
  destruct (sample_slices_are_stratified draw (alen a) size count Hs Hc Hm) as (ss & E & A & _ & K). destruct (K HL) as (Ln & Sz & _). clear K.
  unfold take_sample. rewrite E. cbn [bind]. pose proof (apart_in _ _ _ A) as AI.
  assert (exists cs, mapM (fun r => slice a (fst r) (snd r)) ss = Ok cs /\ Forall (fun c => wf f_dec c /\ adtype c = adtype a) cs /\
            map logical cs = map (fun r => spec_slice (logical a) (fst r) (snd r)) ss) as (cs & Ec & Wc & Lc).
  { clear - W AI. induction AI as [|[x y] r (H1 & H2 & H3) AI IH]; [exists []; repeat split; constructor|]. cbn [fst snd] in *.
    destruct (slice_commutes_with_decoding f_dec a x y W H2 ltac:(rewrite logical_length; exact H3) ltac:(left; reflexivity)) as (b & Eb & Wb & Db & _ & Lb).
    destruct IH as (cs & Ec & Wc & Lc). exists (b :: cs). cbn [mapM fst snd]. rewrite Eb. cbn [bind]. rewrite Ec. cbn [bind].
    split; [reflexivity|]. split; [constructor; auto|]. cbn [map fst snd]. congruence. }
  rewrite Ec. cbn [bind]. unfold try_chunked.
  rewrite (proj2 (forallb_forall _ _)) by (intros c Hc'; apply dtype_eqb_eq; rewrite Forall_forall in Wc; apply (Wc c Hc')). cbn [bind].
  assert (wf f_dec (AChunked (adtype a) cs)) as WC.
  { cbn [wf]. rewrite wf_chunks_iff. split; [exact Wc|]. cbn. repeat split; auto; try discriminate.
    intros _ ->. apply mapM_length in Ec. cbn in Ec. lia. }
  destruct (canonical_is_lossless f_dec _ WC eq_refl) as [CL CT]. destruct (CT eq_refl) as [s Es]. rewrite Es.
  destruct (CL s Es) as (_ & L & _ & SK & SD & _). exists s, ss. split; [reflexivity|]. split; [reflexivity|].
  assert (logical s = concat (map (fun r => spec_slice (logical a) (fst r) (snd r)) ss)) as LS.
  { rewrite L. cbn [logical]. rewrite <- Lc. f_equal. }
  split; [exact LS|]. split; [|split; [|split; [exact SK|exact SD]]].
  - rewrite LS. apply (apart_subseq (logical a) ss 0 (alen a) A). rewrite logical_length. lia.
  - rewrite LS, concat_length_sum, map_map. rewrite <- Ln. clear - AI Sz.
    induction AI as [|[x y] r (H1 & H2 & H3) AI IH]; [reflexivity|]. inversion Sz as [|? ? S1 S2]; subst. cbn [map length fst snd] in *.
    change (list_sum (?x :: ?l)) with (x + list_sum l). rewrite IH by exact S2. unfold spec_slice. fold (lslice (logical a) x y).
    rewrite lslice_length by (rewrite logical_length; lia). unfold size_of; cbn [fst snd]. lia.
Qed.
Print Assumptions sample_is_a_subsequence.

(** * Failures *)
(** The number of samples is computed in 16 bits: with 256 samples of 256 elements (which the options allow), an array long enough to be
    sampled makes the compressor panic instead of sampling it. Without overflow checks the product wraps to 0, and partitioning 0 samples
    panics as well. *)
Theorem sampling_overflow_refuted :
  (forall draw a, (65536 < Z.of_nat (alen a))%Z -> take_sample draw 256 256 a = Panic) /\ ((256 * 256) mod 65536 = 0)%Z /\ partition_indices 0 256 = Panic.
Proof. split; [reflexivity|split; reflexivity]. Qed.
Print Assumptions sampling_overflow_refuted.

(** A sample size or count of 0 panics on every non-empty array. *)
Theorem empty_samples_refuted :
  forall draw a, 0 < alen a ->
  (forall count, take_sample draw 0 count a = Panic) /\ (forall size, take_sample draw size 0 a = Panic).
Proof.
  intros draw a H. unfold take_sample, stratified_slices, mul_u16. split; intros n.
  - rewrite Z.mul_0_r. cbn [Z.leb]. change (0 <=? pmax U16)%Z with true. cbn [bind]. rewrite Nat.mul_0_r.
    destruct (Nat.leb_spec (alen a) 0); [lia|]. destruct n as [|n]; [reflexivity|]. destruct (Nat.le_gt_cases (S n) (alen a)).
    + destruct (partition_covers (alen a) (S n) ltac:(lia)) as (ps & E & _). rewrite E. cbn [bind].
      rewrite (partition_panics 0 (S n)) by lia. reflexivity.
    + rewrite partition_panics by lia. reflexivity.
  - cbn [Z.of_nat]. rewrite Z.mul_0_l. change (0 <=? pmax U16)%Z with true. cbn [bind Nat.mul].
    destruct (Nat.leb_spec (alen a) 0); [lia|]. rewrite partition_panics by lia. reflexivity.
Qed.
Print Assumptions empty_samples_refuted.

(** Non-vacuity: 2 samples of 2 elements from a nullable array of 9, with the random numbers 1 and 2. *)
Example ex_sample :
  let a := APrim I32 (map Z.of_nat (seq 0 9)) (VBits [true; true; false; true; true; true; true; true; true]) in
  wf f_dec a /\
  stratified_slices (fun k => S k) 9 2 2 = Ok [(1, 3); (7, 9)] /\
  option_map logical (match take_sample (fun k => S k) 2 2 a with Ok s => Some s | _ => None end) = Some [VInt 1; VNull; VInt 7; VInt 8].
Proof.
  split; [|split; reflexivity].
  cbn [wf]. repeat split; try reflexivity; try discriminate; try (repeat constructor; cbn; (lia || discriminate)).
Qed.
