(** Property C19: validity algebra. [vbits v n] is the list "is row i valid", for i < n. *)
From Verif Require Import Base Spec Arr ArrWf ArrSlice ValidityModel.

Lemma vbits_length v n : length (vbits v n) = n.
Proof. apply tab_length. Qed.
Lemma vbits_bits l : vbits (VBits l) (length l) = l.
Proof.
  apply (nth_ext_len _ _ false); [apply vbits_length|]. intros i Hi. rewrite vbits_length in Hi.
  unfold vbits. rewrite nth_tab by lia. reflexivity.
Qed.
Lemma vbits_wf l n : vwf (VBits l) n -> vbits (VBits l) n = l.
Proof. intros H. cbn in H. subst n. apply vbits_bits. Qed.
Lemma tab_const {A} n (x : A) : tab n (fun _ => x) = repeat x n.
Proof.
  apply (nth_ext_len _ _ x); [rewrite tab_length, repeat_length; reflexivity|].
  intros i Hi. rewrite tab_length in Hi. rewrite nth_tab by lia.
  symmetry. apply nth_repeat.
Qed.
Lemma lslice_repeat {A} (x : A) n i j : i <= j -> j <= n -> lslice (repeat x n) i j = repeat x (j - i).
Proof.
  intros. apply (nth_ext_len _ _ x); [rewrite lslice_length, repeat_length; rewrite ?repeat_length; lia|].
  intros k Hk. rewrite lslice_length in Hk by (rewrite repeat_length; lia).
  rewrite nth_lslice by lia. rewrite !nth_repeat. reflexivity.
Qed.

Lemma vbits_nonnull n : vbits VNonNull n = repeat true n.
Proof. rewrite <- tab_const. apply tab_ext. reflexivity. Qed.
Lemma vbits_allvalid n : vbits VAllValid n = repeat true n.
Proof. rewrite <- tab_const. apply tab_ext. reflexivity. Qed.
Lemma vbits_allinvalid n : vbits VAllInvalid n = repeat false n.
Proof. rewrite <- tab_const. apply tab_ext. reflexivity. Qed.
Ltac vb := rewrite ?vbits_nonnull, ?vbits_allvalid, ?vbits_allinvalid.

(** slice *)
Theorem validity_slice :
  forall v n i j, vwf v n -> i <= j -> j <= n ->
  exists v', vslice v i j = Ok v' /\ vwf v' (j - i) /\ vnullable v' = vnullable v /\
    vbits v' (j - i) = spec_slice (vbits v n) i j.
Proof.
  intros v n i j Hw Hij Hj.
  destruct v as [| | |l]; cbn [vslice];
    try (eexists; split; [reflexivity|]; split; [exact I|]; split; [reflexivity|];
         vb; symmetry; apply lslice_repeat; assumption).
  cbn in Hw. unfold slice_bad.
  replace ((length l <? i) || (length l <? j) || (j <? i)) with false by lia.
  eexists; split; [reflexivity|]. split; [cbn; apply lslice_length; lia|]. split; [reflexivity|].
  subst n. rewrite vbits_bits.
  rewrite <- (lslice_length l i j) at 1 by lia. apply vbits_bits.
Qed.
Print Assumptions validity_slice.

(** take: with every index in range, row k of the result is row idx[k]. *)
Lemma mapM_nth_error {A} (l : list A) d idx :
  Forall (fun i => i < length l) idx ->
  mapM (fun i => match nth_error l i with Some b => Ok b | None => Panic end) idx = Ok (map (fun i => nth i l d) idx).
Proof.
  intros H. apply mapM_ok_map. intros x Hx. rewrite Forall_forall in H.
  rewrite (nth_error_nth' l d (H x Hx)). reflexivity.
Qed.
Lemma spec_take_map {A} (l : list A) d idx :
  Forall (fun i => i < length l) idx -> spec_take l idx = Some (map (fun i => nth i l d) idx).
Proof.
  induction idx as [|i r IH]; intros H; [reflexivity|]. inversion H; subst. cbn [spec_take map].
  rewrite (nth_error_nth' l d) by assumption. rewrite IH by assumption. reflexivity.
Qed.
Theorem validity_take :
  forall v n idx, vwf v n -> Forall (fun i => i < n) idx ->
  exists v', vtake v idx = Ok v' /\ vwf v' (length idx) /\ vnullable v' = vnullable v /\
    Some (vbits v' (length idx)) = spec_take (vbits v n) idx.
Proof.
  intros v n idx Hw Hi.
  rewrite (spec_take_map _ false) by (rewrite vbits_length; assumption).
  assert (forall b, (forall i, vvalid v i = b) ->
            vbits v (length idx) = map (fun i => nth i (vbits v n) false) idx) as C.
  { intros b Hb. transitivity (repeat b (length idx)).
    - rewrite <- tab_const. apply tab_ext. intros; apply Hb.
    - clear -Hi Hb. induction Hi as [|i r Hi' Hr IH]; [reflexivity|].
      cbn [map length repeat]. f_equal; [|exact IH].
      unfold vbits. rewrite nth_tab by assumption. symmetry. apply Hb. }
  destruct v as [| | |l]; cbn [vtake];
    try (eexists; split; [reflexivity|]; split; [exact I|]; split; [reflexivity|];
         f_equal; eapply C; intros; cbn; reflexivity).
  cbn in Hw. subst n. rewrite (mapM_nth_error l false) by assumption. cbn [bind].
  eexists; split; [reflexivity|]. split; [cbn; apply map_length|]. split; [reflexivity|].
  f_equal. rewrite vbits_bits.
  rewrite <- (map_length (fun i => nth i l false) idx) at 1. apply vbits_bits.
Qed.
Print Assumptions validity_take.

(** filter *)
Lemma bfilter_spec {A} (l : list A) m : bfilter l m = spec_filter l m.
Proof. revert m; induction l as [|x l IH]; intros [|b m]; cbn; try reflexivity. all: try (rewrite IH; reflexivity). Qed.
Lemma spec_filter_length {A} (l : list A) m : length l = length m -> length (spec_filter l m) = count id m.
Proof.
  revert m; induction l as [|x l IH]; intros [|b m] H; cbn in H |- *; try reflexivity; try discriminate.
  unfold count in *. destruct b; cbn; [f_equal|]; apply IH; lia.
Qed.
Lemma spec_filter_repeat {A} (x : A) m : spec_filter (repeat x (length m)) m = repeat x (count id m).
Proof. unfold count. induction m as [|b m IH]; [reflexivity|]. cbn. destruct b; cbn; rewrite IH; reflexivity. Qed.
Theorem validity_filter :
  forall v n m, vwf v n -> length m = n ->
  exists v', vfilter v m = Ok v' /\ vwf v' (count id m) /\ vnullable v' = vnullable v /\
    vbits v' (count id m) = spec_filter (vbits v n) m.
Proof.
  intros v n m Hw Hm. subst n.
  destruct v as [| | |l]; cbn [vfilter];
    try (eexists; split; [reflexivity|]; split; [exact I|]; split; [reflexivity|];
         vb; symmetry; apply spec_filter_repeat).
  cbn in Hw. rewrite (proj2 (Nat.eqb_eq _ _) Hw).
  eexists; split; [reflexivity|]. rewrite bfilter_spec.
  split; [cbn; apply spec_filter_length; lia|]. split; [reflexivity|].
  rewrite <- Hw, vbits_bits. rewrite <- (spec_filter_length l m) by lia. apply vbits_bits.
Qed.
Print Assumptions validity_filter.

(** A validity built from bits means those bits. *)
Lemma filter_length_le {A} (f : A -> bool) l : length (filter f l) <= length l.
Proof. induction l as [|x l IH]; cbn; [lia|]. destruct (f x); cbn; lia. Qed.
Lemma count_all l : count id l = length l -> l = repeat true (length l).
Proof.
  unfold count. induction l as [|b l IH]; [reflexivity|]. cbn. destruct b; cbn; intros H.
  - f_equal. apply IH. lia.
  - pose proof (filter_length_le id l). lia.
Qed.
Lemma count_none l : count id l = 0 -> l = repeat false (length l).
Proof.
  unfold count. induction l as [|b l IH]; [reflexivity|]. cbn. destruct b; cbn; intros H; [lia|].
  f_equal. apply IH. lia.
Qed.
Lemma vfrom_bits l : vbits (vfrom l) (length l) = l.
Proof.
  unfold vfrom. destruct (Nat.eqb_spec (count id l) (length l)) as [E|E].
  - apply count_all in E. vb. symmetry. exact E.
  - destruct (Nat.eqb_spec (count id l) 0) as [E0|E0]; [|apply vbits_bits].
    apply count_none in E0. vb. symmetry. exact E0.
Qed.
Lemma vfrom_wf l : vwf (vfrom l) (length l).
Proof. unfold vfrom. destruct (_ =? _); [exact I|]. destruct (_ =? _); [exact I|reflexivity]. Qed.
Theorem validity_from_bits :
  forall l, vwf (vfrom l) (length l) /\ vnullable (vfrom l) = true /\ vbits (vfrom l) (length l) = l.
Proof.
  intros l. split; [apply vfrom_wf|]. split; [|apply vfrom_bits].
  unfold vfrom. destruct (_ =? _); [reflexivity|]. destruct (_ =? _); reflexivity.
Qed.
Print Assumptions validity_from_bits.

(** and: pointwise conjunction; the result is nullable as soon as one side is. *)
Lemma nth_vbits v n i d : i < n -> nth i (vbits v n) d = vvalid v i.
Proof. intros. unfold vbits. apply nth_tab. assumption. Qed.
Lemma and_lists_length l r :
  length l = length r -> length (map (fun '(x, y) => x && y) (combine l r)) = length l.
Proof. intros. rewrite map_length, combine_length. lia. Qed.
Lemma nth_and_lists l r i :
  length l = length r -> i < length l ->
  nth i (map (fun '(x, y) => x && y) (combine l r)) false = nth i l false && nth i r false.
Proof.
  intros H Hi. rewrite (map_nth_lt _ _ (false, false)) by (rewrite combine_length; lia).
  rewrite combine_nth by assumption. reflexivity.
Qed.
Theorem validity_and :
  forall a b n, vwf a n -> vwf b n ->
  exists c, vand a b = Ok c /\ vwf c n /\ vnullable c = vnullable a || vnullable b /\
    forall i, i < n -> vvalid c i = vvalid a i && vvalid b i.
Proof.
  intros a b n Ha Hb.
  destruct a as [| | |l], b as [| | |r]; cbn [vand];
    try (eexists; split; [reflexivity|]; split; [first [exact I|assumption]|]; split; [reflexivity|];
         intros; cbn [vvalid]; rewrite ?andb_true_r, ?andb_false_r; reflexivity).
  cbn in Ha, Hb. rewrite Ha, Hb, Nat.eqb_refl.
  set (z := map (fun '(x, y) => x && y) (combine l r)).
  assert (length z = n) as Hz by (subst z; rewrite and_lists_length; lia).
  exists (vfrom z). destruct (validity_from_bits z) as (W & N & B). rewrite Hz in *.
  split; [reflexivity|]. split; [exact W|]. split; [rewrite N; reflexivity|].
  intros i Hi. rewrite <- (nth_vbits (vfrom z) n i false Hi), B. subst z.
  rewrite nth_and_lists by lia. reflexivity.
Qed.
Print Assumptions validity_and.

(** to_logical / into_validity / collecting the validities of consecutive chunks. *)
Lemma forallb_id l : forallb id l = true -> l = repeat true (length l).
Proof. induction l as [|b l IH]; cbn; [reflexivity|]. destruct b; cbn; intros; [f_equal; auto|discriminate]. Qed.
Lemma existsb_id l : existsb id l = false -> l = repeat false (length l).
Proof. induction l as [|b l IH]; cbn; [reflexivity|]. destruct b; cbn; intros; [discriminate|f_equal; auto]. Qed.
Theorem validity_to_logical :
  forall v n, vwf v n -> llen (to_logical v n) = n /\ lbuf (to_logical v n) = vbits v n.
Proof.
  intros v n Hw. destruct v as [| | |l]; cbn [to_logical];
    try (split; [reflexivity|]; cbn [lbuf]; vb; reflexivity).
  cbn in Hw. subst n. rewrite vbits_bits. destruct l as [|b0 l0]; [split; reflexivity|].
  remember (b0 :: l0) as l eqn:El. clear El b0 l0.
  destruct (forallb id l) eqn:E1.
  - split; [reflexivity|]. cbn. symmetry. apply forallb_id, E1.
  - destruct (existsb id l) eqn:E2; cbn [negb]; [split; reflexivity|].
    split; [reflexivity|]. cbn. symmetry. apply existsb_id, E2.
Qed.
Print Assumptions validity_to_logical.

Theorem validity_into_validity :
  forall v, vwf (into_validity v) (llen v) /\ vbits (into_validity v) (llen v) = lbuf v.
Proof.
  intros [n|n|l]; cbn [into_validity llen lbuf].
  - split; [exact I|]. vb. reflexivity.
  - split; [exact I|]. vb. reflexivity.
  - split; [reflexivity|]. apply vbits_bits.
Qed.
Print Assumptions validity_into_validity.

Lemma lbuf_length v : length (lbuf v) = llen v.
Proof. destruct v; cbn; rewrite ?repeat_length; reflexivity. Qed.
Lemma concat_all (f : lvalidity -> bool) (b : bool) vs :
  (forall v, f v = true -> lbuf v = repeat b (llen v)) ->
  forallb f vs = true -> concat (map lbuf vs) = repeat b (list_sum (map llen vs)).
Proof.
  intros Hf. induction vs as [|v vs IH]; cbn [forallb map concat]; intros H; [reflexivity|].
  apply andb_true_iff in H. destruct H as [H1 H2].
  change (list_sum (llen v :: map llen vs)) with (llen v + list_sum (map llen vs)).
  rewrite repeat_app, (Hf v H1), IH by assumption. reflexivity.
Qed.
Theorem validity_collect :
  forall vs, let n := list_sum (map llen vs) in
  vwf (vcollect vs) n /\ vbits (vcollect vs) n = concat (map lbuf vs).
Proof.
  intros vs n. unfold vcollect. destruct (forallb l_all_valid vs) eqn:E1.
  - split; [exact I|]. vb. subst n. symmetry.
    apply (concat_all l_all_valid true); [|exact E1]. intros [k|k|l]; cbn; intros; try discriminate. reflexivity.
  - destruct (forallb l_all_invalid vs) eqn:E2.
    + split; [exact I|]. vb. subst n. symmetry.
      apply (concat_all l_all_invalid false); [|exact E2]. intros [k|k|l]; cbn; intros; try discriminate. reflexivity.
    + assert (length (concat (map lbuf vs)) = n) as L.
      { subst n. clear. induction vs as [|v vs IH]; [reflexivity|]. cbn [map concat].
        rewrite app_length, lbuf_length, IH. reflexivity. }
      split; [exact L|]. rewrite <- L. apply vbits_bits.
Qed.
Print Assumptions validity_collect.

(** The null count derived from a validity is the number of null rows. *)
Theorem validity_null_count :
  forall v n, vwf v n -> null_count_of (to_logical v n) = count negb (vbits v n).
Proof.
  intros v n Hw. destruct (validity_to_logical v n Hw) as [Hl Hb]. rewrite <- Hb.
  unfold null_count_of. destruct (to_logical v n) as [k|k|l]; cbn; try reflexivity.
  clear. induction k as [|k IH]; cbn; auto.
Qed.
Print Assumptions validity_null_count.

(** LogicalValidity::try_new_from_array keeps the bits; it is an error exactly on an empty array. *)
Theorem validity_try_new :
  forall l, match l_try_new l with Ok v => l <> [] /\ lbuf v = l | Err => l = [] | Panic => False end.
Proof.
  intros l. unfold l_try_new. destruct l as [|b0 l0]; [reflexivity|].
  remember (b0 :: l0) as l eqn:El.
  assert (l <> []) by (subst; discriminate). clear El.
  destruct (Nat.eqb_spec (count id l) (length l)) as [E|E].
  - split; [assumption|]. cbn. symmetry. apply count_all, E.
  - destruct (Nat.eqb_spec (count id l) 0) as [E0|E0]; [|split; [assumption|reflexivity]].
    split; [assumption|]. cbn. symmetry. apply count_none, E0.
Qed.
Print Assumptions validity_try_new.

(** Non-vacuity. *)
Example ex_validity :
  let v := VBits [true; false; true; true] in
  vwf v 4 /\ vslice v 1 3 = Ok (VBits [false; true]) /\ vtake v [3; 1; 1] = Ok (VBits [true; false; false]) /\
  vfilter v [false; true; true; false] = Ok (VBits [false; true]) /\
  vand v (VBits [true; true; false; false]) = Ok (VBits [true; false; false; false]) /\
  null_count_of (to_logical v 4) = 1 /\
  vcollect [LAllValid 2; LBits [true; false]] = VBits [true; true; true; false].
Proof. repeat split. Qed.
