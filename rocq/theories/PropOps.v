(** Properties C03 (take), C04 (filter), C05 (pipelines), C06 (canonicalisation), for every nesting of the encodings.

    The hypotheses are classes of arrays ([wf f a], ArrWf.v): [fc] and [ft] exclude the arrays on which decoding, or take,
    is wrong; [fC], [fT], [fN], [fF] exclude those on which it can fail; [fk] those whose data type take changes. For each
    exclusion there is a refuted theorem below. *)
From Verif Require Import Base Spec SearchModel SearchProofs Arr ArrRead ArrWf ArrReadProofs ArrSearchProofs ArrSlice ArrSliceProofs ArrSliceMain
  ValidityModel PropValidity IntEnc PropIntEnc RunEnc PropRunEnc PropUnary PropDict ArrOps OpsBase OpsFlat OpsTake OpsChunked OpsFilter OpsMain PropRead PropSlice.

(** * Reading the selection lemmas in terms of the specification *)
Lemma spec_take_pick l idx : Forall (fun i => i < length l) idx -> spec_take l idx = Some (pick l idx).
Proof.
  induction 1 as [|i r Hi Hr IH]; [reflexivity|]. cbn [spec_take]. rewrite (nth_error_nth' l VNull Hi), IH. reflexivity.
Qed.
Lemma spec_filter_pick l m : length m = length l -> pick l (set_indices m) = spec_filter l m.
Proof.
  revert m; induction l as [|x l IH]; intros [|b m] H; try discriminate; [reflexivity|]. cbn [length] in H.
  rewrite set_indices_cons. cbn [spec_filter]. rewrite pick_app.
  assert (pick (x :: l) (map S (set_indices m)) = pick l (set_indices m)) as -> by (unfold pick; rewrite map_map; reflexivity).
  rewrite IH by lia. destruct b; reflexivity.
Qed.

(** The data type up to nullability (of the array and of its fields). *)
Definition same_kind (d d' : dtype) : Prop := derase d = derase d'.

(** * C06: canonicalisation *)
Theorem canonical_is_lossless :
  forall (f : flags) (a : array), wf f a -> fc f = true ->
  (forall c, canon a = Ok c ->
     is_canon c = true /\ logical c = logical a /\ alen c = alen a /\ same_kind (adtype c) (adtype a) /\
     (is_str (adtype a) = false -> adtype c = adtype a) /\ wf (cf f) c) /\
  (fC f = true -> exists c, canon a = Ok c).
Proof.
  intros f a W C. pose proof (g_canon _ _ (ops_correct (depth a) a (le_n _)) f W C) as H. unfold canon. unfold outc in H. split.
  - intros c E. rewrite E in H. destruct H as (H1 & H2 & H3 & H4 & H5). split; [exact H1|]. split; [exact H2|].
    split; [rewrite <- !logical_length, H2; reflexivity|]. split; [apply erase_derase; exact H3|]. split; [|exact H5]. auto.
  - intros T. destruct (o_canon _) as [c| |]; [eauto|contradiction (H T)|contradiction (H T)].
Qed.
Print Assumptions canonical_is_lossless.

(** Decoding and then reading an element is reading the element (with C01: random access agrees with decoding). *)
Theorem scalar_at_agrees_with_canonical :
  forall (f : flags) (a c : array) (i : nat), wf f a -> fc f = true -> canon a = Ok c -> scalar_at c i = scalar_at a i.
Proof.
  intros f a c i W C E. destruct (canonical_is_lossless f a W C) as [H _]. destruct (H c E) as (_ & L & A & _ & _ & Wc).
  destruct (scalar_at_is_the_element f a W) as (R1 & _ & R3). destruct (scalar_at_is_the_element _ c Wc) as (S1 & _ & S3).
  rewrite logical_length in *. destruct (Nat.lt_ge_cases i (alen a)).
  - rewrite R1 by assumption. rewrite S1 by lia. rewrite L. reflexivity.
  - rewrite R3 by assumption. rewrite S3 by lia. reflexivity.
Qed.
Print Assumptions scalar_at_agrees_with_canonical.

(** Canonicalising again changes nothing: the array is returned as it is, except that a string view array comes back with
    the same views and buffers, the same rows and data type, and possibly another representation of the same validity. *)
Theorem canonical_is_idempotent :
  forall (f : flags) (a c : array), wf f a -> fc f = true -> canon a = Ok c ->
  exists c', canon c = Ok c' /\ logical c' = logical a /\ adtype c' = adtype c /\
    match c with AView u vs bufs _ => exists v, c' = AView u vs bufs v | _ => c' = c end.
Proof.
  intros f a c W C E. destruct (canonical_is_lossless f a W C) as [H _]. destruct (H c E) as (K & L & A & _ & _ & Wc).
  destruct c as [| | |u vs bufs v| | | | | | | | | | | | ]; try discriminate K; unfold canon.
  1,2,3,5,6: eexists; split; [destruct (depth _); reflexivity|]; auto.
  destruct (OpsCanon.view_canon_ok u vs bufs v _ Wc) as (w & Ew & Ww & Lw & Nw). exists (AView u vs bufs w).
  split; [destruct (depth _); cbn [ops ops_step o_canon]; rewrite Ew; reflexivity|]. split; [congruence|]. split; [cbn [adtype]; rewrite Nw; reflexivity|]. eauto.
Qed.
Print Assumptions canonical_is_idempotent.

(** The validity an array reports is the nullness of its rows. *)
Theorem logical_validity_is_nullness :
  forall (f : flags) (a : array), wf f a -> fc f = true -> fv f = true -> nullable (adtype a) = true ->
  (forall l, logical_validity a = Ok l -> lbuf l = map (fun x => negb (is_null x)) (logical a)) /\
  (fC f = true -> exists l, logical_validity a = Ok l).
Proof.
  intros f a W C V N. pose proof (g_lval _ _ (ops_correct (depth a) a (le_n _)) f W C) as H. unfold logical_validity. unfold outc in H. split.
  - intros l E. rewrite E in H. apply H; auto.
  - intros T. destruct (o_lval _) as [c| |]; [eauto|contradiction (H T)|contradiction (H T)].
Qed.
Print Assumptions logical_validity_is_nullness.

(** * C03: take *)

(** A take that succeeds is right: for in-range indices in any order, with repeats. (Indices are given as unsigned or signed
    integers of any type [ip].) *)
Theorem take_commutes_with_decoding :
  forall (f : flags) (a : array) (ip : ptype) (idx : list nat),
  wf f a -> fc f = true -> ft f = true -> is_int ip = true -> (Z.of_nat (length idx) <= pmax U64)%Z ->
  Forall (fun i => i < length (logical a)) idx ->
  (forall b, take a ip idx = Ok b ->
     spec_take (logical a) idx = Some (logical b) /\ alen b = length idx /\ same_kind (adtype b) (adtype a) /\
     (fk f = true \/ is_prim (adtype a) = true -> adtype b = adtype a) /\ wf (pf f) b) /\
  (fT f = true \/ (fN f = true /\ idx <> [] /\ ip = U64) -> exists b, take a ip idx = Ok b).
Proof.
  intros f a ip idx W C T I Hl HI. pose proof HI as HI'. rewrite logical_length in HI'.
  pose proof (g_take _ _ (ops_correct (depth a) a (le_n _)) f ip idx W C T Hl HI') as H. unfold take. rewrite I. unfold outc in H. split.
  - intros b E. rewrite E in H. pose proof (sel_alen _ _ _ _ _ H) as Lb. destruct H as (H1 & H2 & H3 & H4 & H5).
    rewrite spec_take_pick by exact HI. rewrite H2. auto 6.
  - intros X. destruct (o_take _ ip idx) as [b| |]; [eauto|contradiction (H X)|contradiction (H X)].
Qed.
Print Assumptions take_commutes_with_decoding.

(** * C04: filter, with a mask whose bits start at bit 0 of its buffer *)
Theorem filter_commutes_with_decoding :
  forall (f : flags) (a : array) (m : list bool),
  wf f a -> fc f = true -> ft f = true -> (Z.of_nat (length m) <= pmax U64)%Z -> length m = length (logical a) ->
  (forall b, filter_array a (mask_of m) = Ok b ->
     logical b = spec_filter (logical a) m /\ same_kind (adtype b) (adtype a) /\
     (fk f = true \/ is_prim (adtype a) = true -> adtype b = adtype a) /\ wf (pF f) b) /\
  (fF f = true -> exists b, filter_array a (mask_of m) = Ok b).
Proof.
  intros f a m W C T Hl Hm. pose proof Hm as Hm'. rewrite logical_length in Hm'.
  pose proof (g_filter _ _ (ops_correct (depth a) a (le_n _)) f (mask_of m) W C T ltac:(rewrite <- Hm'; exact Hl) eq_refl Hm' eq_refl) as H.
  unfold filter_array. unfold outc, filter_post in H. replace (mbits (mask_of m)) with m in H by (symmetry; apply mbits_eq; reflexivity). split.
  - intros b E. rewrite E in H. destruct H as (H1 & H2 & H3 & H4 & H5). rewrite H2, spec_filter_pick by exact Hm. auto.
  - intros X. destruct (o_filter _ _) as [b| |]; [eauto|contradiction (H X)|contradiction (H X)].
Qed.
Print Assumptions filter_commutes_with_decoding.

(** * C05: pipelines *)
Inductive step := SSlice (i j : nat) | STake (ip : ptype) (idx : list nat) | SFilter (m : list bool).
Definition run_step (s : step) (a : array) : result array :=
  match s with SSlice i j => slice a i j | STake ip idx => take a ip idx | SFilter m => filter_array a (mask_of m) end.
Fixpoint run (ss : list step) (a : array) : result array :=
  match ss with [] => Ok a | s :: r => do b <- run_step s a; run r b end.

(** The same steps on plain lists; [None] when a step is not valid. *)
Definition list_step {A} (s : step) (l : list A) : option (list A) :=
  match s with
  | SSlice i j => if (i <=? j) && (j <=? length l) then Some (spec_slice l i j) else None
  | STake _ idx => spec_take l idx
  | SFilter m => if length m =? length l then Some (spec_filter l m) else None
  end.
Fixpoint list_run {A} (ss : list step) (l : list A) : option (list A) :=
  match ss with [] => Some l | s :: r => match list_step s l with Some l' => list_run r l' | None => None end end.
(** Lengths fit in 64 bits. *)
Definition step_fits (s : step) : Prop :=
  match s with STake _ idx => (Z.of_nat (length idx) <= pmax U64)%Z | SFilter m => (Z.of_nat (length m) <= pmax U64)%Z | _ => True end.

Lemma spec_take_some_inv {A} (l : list A) idx r : spec_take l idx = Some r -> Forall (fun i => i < length l) idx.
Proof.
  revert r; induction idx as [|i idx IH]; intros r H; [constructor|]. cbn [spec_take] in H.
  destruct (nth_error l i) eqn:E; [|discriminate]. destruct (spec_take l idx) eqn:E2; [|discriminate].
  constructor; [|eauto]. apply nth_error_Some. congruence.
Qed.
Lemma pf_fc f : fc (pf f) = fc f.
Proof. unfold pf. destruct (_ || _); reflexivity. Qed.
Lemma pf_ft f : ft (pf f) = ft f.
Proof. unfold pf. destruct (_ || _); reflexivity. Qed.
Lemma pF_fc f : fc (pF f) = fc f.
Proof. unfold pF. destruct (fF f); [reflexivity|apply pf_fc]. Qed.
Lemma pF_ft f : ft (pF f) = ft f.
Proof. unfold pF. destruct (fF f); [reflexivity|apply pf_ft]. Qed.

Theorem pipeline_commutes_with_decoding :
  forall (ss : list step) (f : flags) (a b : array) (l : list value),
  wf f a -> fc f = true -> ft f = true -> Forall step_fits ss ->
  list_run ss (logical a) = Some l -> run ss a = Ok b ->
  logical b = l /\ same_kind (adtype b) (adtype a) /\
  (forall c, canon b = Ok c -> logical c = l).
Proof.
  induction ss as [|s ss IH]; intros f a b l W C T F S R; cbn [list_run run] in *.
  - injection S as <-. injection R as <-. split; [reflexivity|]. split; [reflexivity|]. intros c E. apply (proj1 (canonical_is_lossless f a W C) c E).
  - inversion F as [|? ? F1 F2]; subst. destruct (list_step s (logical a)) as [l1|] eqn:S1; [|discriminate].
    destruct (run_step s a) as [a1| |] eqn:R1; try discriminate. cbn [bind] in R.
    assert (exists g, wf g a1 /\ fc g = true /\ ft g = true /\ logical a1 = l1 /\ same_kind (adtype a1) (adtype a)) as (g & Wg & Cg & Tg & Lg & Kg).
    { destruct s as [i j|ip idx|m]; cbn [list_step run_step step_fits] in *.
      - destruct ((i <=? j) && (j <=? length (logical a))); [|discriminate]. injection S1 as <-.
        destruct (slice_never_wrong f a a1 i j W R1) as (_ & _ & W1 & D1 & L1). exists f. unfold same_kind. rewrite D1. auto 6.
      - assert (is_int ip = true) as Ii by (unfold take in R1; destruct (is_int ip); [reflexivity|discriminate]).
        pose proof (spec_take_some_inv _ _ _ S1) as HI.
        destruct (proj1 (take_commutes_with_decoding f a ip idx W C T Ii F1 HI) a1 R1) as (L1 & _ & K1 & _ & W1).
        exists (pf f). rewrite pf_fc, pf_ft. split; [exact W1|]. split; [exact C|]. split; [exact T|]. split; [congruence|exact K1].
      - destruct (Nat.eqb_spec (length m) (length (logical a))) as [Em|]; [|discriminate]. injection S1 as <-.
        destruct (proj1 (filter_commutes_with_decoding f a m W C T F1 Em) a1 R1) as (L1 & K1 & _ & W1).
        exists (pF f). rewrite pF_fc, pF_ft. auto. }
    subst l1. destruct (IH g a1 b l Wg Cg Tg F2 S R) as (X1 & X2 & X3). split; [exact X1|]. split; [unfold same_kind in *; congruence|exact X3].
Qed.
Print Assumptions pipeline_commutes_with_decoding.

(** When a pipeline cannot fail: slices of non-empty ranges (or any valid ranges, for arrays without run-end parts and
    without chunked arrays without chunks), followed by any takes and filters; for arrays containing chunked arrays the
    takes must be non-empty with u64 indices. *)
Definition total_sel (f : flags) (s : step) : Prop :=
  match s with
  | SSlice _ _ => False
  | STake ip idx => is_int ip = true /\ (fT f = true \/ (fN f = true /\ idx <> [] /\ ip = U64))
  | SFilter _ => fF f = true
  end.
Definition total_slice (f : flags) (s : step) : Prop :=
  match s with SSlice i j => fs f = true \/ (fn f = true /\ i < j) | _ => False end.
Lemma keep_wf f a : wf f a -> wf (keep f) a.
Proof. apply wf_fle, fle_keep. Qed.
Lemma selections_total ss : forall f a l, wf (keep f) a -> fc f = true -> ft f = true -> Forall step_fits ss -> Forall (total_sel f) ss ->
  list_run ss (logical a) = Some l -> exists b, run ss a = Ok b.
Proof.
  induction ss as [|s ss IH]; intros f a l W C T F Ts S; cbn [list_run run] in *; [eauto|].
  inversion F as [|? ? F1 F2]; subst. inversion Ts as [|? ? T1 T2]; subst. destruct (list_step s (logical a)) as [l1|] eqn:S1; [|discriminate].
  destruct s as [i j|ip idx|m]; cbn [list_step run_step step_fits total_sel] in *; [contradiction| |].
  - destruct T1 as [Ii T1]. pose proof (spec_take_some_inv _ _ _ S1) as HI.
    destruct (take_commutes_with_decoding (keep f) a ip idx W C T Ii F1 HI) as [H1 H2]. destruct (H2 T1) as (a1 & E1). rewrite E1. cbn [bind].
    destruct (H1 a1 E1) as (L1 & _ & _ & _ & W1). apply (IH f a1 l); auto; [|replace (logical a1) with l1 by congruence; exact S].
    unfold pf, keep in W1; cbn in W1. destruct (fT f || fN f) eqn:X; [exact W1|]. apply orb_false_iff in X. destruct X as [X1 X2].
    destruct T1 as [T1|[T1 _]]; congruence.
  - destruct (Nat.eqb_spec (length m) (length (logical a))) as [Em|]; [|discriminate]. injection S1 as <-.
    destruct (filter_commutes_with_decoding (keep f) a m W C T F1 Em) as [H1 H2]. destruct (H2 T1) as (a1 & E1). rewrite E1. cbn [bind].
    destruct (H1 a1 E1) as (L1 & _ & _ & W1). apply (IH f a1 l); auto; [|rewrite L1; exact S].
    unfold pF, keep in W1; cbn in W1. rewrite T1 in W1. unfold keep. rewrite T1. exact W1.
Qed.
Theorem pipeline_total :
  forall (ss ts : list step) (f : flags) (a : array) (l : list value),
  wf f a -> fc f = true -> ft f = true -> Forall step_fits (ss ++ ts) ->
  Forall (total_slice f) ss -> Forall (total_sel f) ts ->
  list_run (ss ++ ts) (logical a) = Some l -> exists b, run (ss ++ ts) a = Ok b /\ logical b = l.
Proof.
  intros ss ts f a l W C T F S1 S2 L.
  assert (exists b, run (ss ++ ts) a = Ok b) as (b & E).
  { revert a l W F L. induction S1 as [|s ss Hs Hss IH]; intros a l W F L; cbn [app list_run run] in *.
    - apply (selections_total ts f a l); auto. apply keep_wf. exact W.
    - inversion F as [|? ? F1 F2]; subst. destruct s as [i j| |]; try contradiction. cbn [total_slice] in Hs. cbn [list_step run_step] in *.
      destruct (Nat.leb_spec i j); [|discriminate]. destruct (Nat.leb_spec j (length (logical a))); [|discriminate]. cbn [andb] in L.
      destruct (slice_commutes_with_decoding f a i j W ltac:(auto) ltac:(auto) Hs) as (a1 & E1 & W1 & _ & _ & L1). rewrite E1. cbn [bind].
      apply (IH a1 l); auto. rewrite L1. exact L. }
  exists b. split; [exact E|]. exact (proj1 (pipeline_commutes_with_decoding (ss ++ ts) f a b l W C T F L E)).
Qed.
Print Assumptions pipeline_total.
