(** Properties C29 (statistics are sound) and C30 (merging statistics is sound). *)
From Verif Require Import Base Spec Arr ArrRead ArrWf ArrReadProofs ArrSlice ValidityModel PropValidity StatsModel StatsProofs
  StatsProofs2 StatsProofs3.

(** C30. Merging. [sound d l s] (StatsModel.v) says that every statistic present in [s] is true of the values [l].
    The hypothesis [merge_pre] excludes two situations in which the code is wrong (refuted theorems below): a part
    without any non-null value next to a part with some, and [IsConstant] known without [Min]; [nice] excludes -0.0. *)
Theorem merge_is_sound :
  forall d l1 l2 s1 s2,
  ordered d = true -> Forall (vtyped d) (l1 ++ l2) -> Forall (nice d) (l1 ++ l2) ->
  sound d l1 s1 -> sound d l2 s2 -> merge_pre l1 l2 s1 s2 ->
  sound d (l1 ++ l2) (merge d s1 s2).
Proof.
  intros d l1 l2 s1 s2 Ho T N S1 S2 P. apply Forall_app in T, N. destruct T, N.
  apply merge_sound; assumption.
Qed.
Print Assumptions merge_is_sound.

(** Null and true counts, min and the histograms merge soundly with no hypothesis on nulls or -0.0. *)
Theorem merge_counts_are_sound :
  forall d l1 l2 s1 s2,
  ordered d = true -> Forall (vtyped d) (l1 ++ l2) -> sound d l1 s1 -> sound d l2 s2 ->
  oall (fun n => n = count is_null (l1 ++ l2)) (s_nulls (merge d s1 s2)) /\
  oall (fun n => n = count is_true_v (l1 ++ l2)) (s_true (merge d s1 s2)) /\
  oall (fun n => run_count (nn (l1 ++ l2)) <= n) (s_runs (merge d s1 s2)) /\
  oall (fun m => is_least d (l1 ++ l2) (snd m)) (s_min (merge d s1 s2)).
Proof.
  intros d l1 l2 s1 s2 Ho T S1 S2. apply Forall_app in T. destruct T as [T1 T2].
  cbn [merge s_nulls s_true s_runs s_min]. repeat split.
  - pose proof (so_nulls _ _ _ S1) as A1. pose proof (so_nulls _ _ _ S2) as A2.
    unfold merge_sum. destruct (s_nulls s1), (s_nulls s2); cbn in *; try exact I. rewrite count_app. lia.
  - pose proof (so_true _ _ _ S1) as A1. pose proof (so_true _ _ _ S2) as A2.
    unfold merge_sum. destruct (s_true s1), (s_true s2); cbn in *; try exact I.
    rewrite count_app. unfold is_true_v. lia.
  - pose proof (so_runs _ _ _ S1) as A1. pose proof (so_runs _ _ _ S2) as A2.
    unfold merge_sum. destruct (s_runs s1), (s_runs s2); cbn in *; try exact I.
    rewrite nn_app. pose proof (run_count_app_le (nn l1) (nn l2)). lia.
  - pose proof (so_min _ _ _ S1) as A1. pose proof (so_min _ _ _ S2) as A2.
    unfold merge_ordered, lt_scalar. destruct (s_min s1) as [m1|], (s_min s2) as [m2|]; cbn in *; try exact I.
    pose proof (is_least_app d l1 l2 _ _ Ho T1 T2 A1 A2) as H.
    destruct (vcmp d (snd m2) (snd m1)) as [[]|]; exact H.
Qed.
Print Assumptions merge_counts_are_sound.

(** An all-null part makes the merged maximum null although the other part has values. *)
Theorem merge_max_with_nulls_refuted :
  exists d l1 l2 s1 s2,
  ordered d = true /\ Forall (vtyped d) (l1 ++ l2) /\ sound d l1 s1 /\ sound d l2 s2 /\
  ~ oall (fun m => is_greatest d (l1 ++ l2) (snd m)) (s_max (merge d s1 s2)).
Proof.
  exists (DPrim I32 true), [VInt 1], [VNull], (prim_stats I32 [1%Z] VAllValid), (prim_stats I32 [0%Z] VAllInvalid).
  split; [reflexivity|].
  split; [repeat constructor; unfold in_range; cbn; lia|].
  split; [apply (prim_stats_sound I32 [1%Z] VAllValid); [repeat constructor; unfold in_range; cbn; lia|exact I|repeat constructor; intros; discriminate]|].
  split; [apply (prim_stats_sound I32 [0%Z] VAllInvalid); [repeat constructor; unfold in_range; cbn; lia|exact I|repeat constructor]|].
  vm_compute. intros [[H|[]] _]. discriminate.
Qed.
Print Assumptions merge_max_with_nulls_refuted.

(** Two constant parts whose minimum is not known merge into "constant". *)
Theorem merge_constant_refuted :
  exists d l1 l2 s1 s2,
  ordered d = true /\ Forall (vtyped d) (l1 ++ l2) /\ sound d l1 s1 /\ sound d l2 s2 /\
  s_const (merge d s1 s2) = Some true /\ ~ exists x, Forall (eq x) (l1 ++ l2).
Proof.
  pose (s := Stats None None (Some true) None None None None None None None).
  exists (DPrim I32 true), [VInt 1], [VInt 2], s, s.
  split; [reflexivity|].
  split; [repeat constructor; unfold in_range; cbn; lia|].
  split; [constructor; cbn; try exact I; intros _; exists (VInt 1); repeat constructor|].
  split; [constructor; cbn; try exact I; intros _; exists (VInt 2); repeat constructor|].
  split; [reflexivity|]. intros [x Hx]. inversion Hx as [|? ? H1 H2]; subst. inversion H2; subst. discriminate.
Qed.
Print Assumptions merge_constant_refuted.

(** * C29: whole arrays *)

(** Conditions under which the statistics of an array are sound; each clause excludes a case in which the code is wrong
    (see the refuted theorems):
    - floats: -0.0 and 0.0 compare equal, so [0.0, -0.0] is reported constant;
    - booleans: with nulls and only true values the minimum is reported false;
    - constants: an empty constant still reports min/max;
    - chunks: see C30;
    - dictionaries: min/max/null count are those of the dictionary values and of the codes, so every value must be used,
      occur once, and no null may be referenced. *)
Definition chunk_fits (b : bool) (k : stat) (c : array) : Prop :=
  ((s_min (stats_after k c) = None /\ s_max (stats_after k c) = None) \/ (nn (logical c) = [] <-> b = true)) /\
  (s_const (stats_after k c) = Some true -> s_min (stats_after k c) <> None).
Fixpoint st_ok (k : stat) (a : array) {struct a} : Prop :=
  match a with
  | ABool _ _ _ _ | AByteBool _ _ => bool_cond (logical a)
  | APrim _ _ _ => Forall (nice (adtype a)) (logical a)
  | AConst d x n => 0 < n /\ (ordered d = true \/ x = VNull)
  | AChunked d cs =>
      ordered d = true /\ Forall (nice d) (logical a) /\
      (exists b, Forall (chunk_fits b k) cs) /\
      (fix go (l : list array) : Prop := match l with [] => True | c :: r => st_ok k c /\ go r end) cs
  | ADict codes vals =>
      st_ok KConst codes /\ st_ok KSorted codes /\ st_ok KStrict codes /\ st_ok KRuns codes /\ st_ok KNulls codes /\
      st_ok KSorted vals /\ st_ok KMin vals /\ st_ok KMax vals /\
      ordered (adtype vals) = true /\ NoDup (logical vals) /\ ~ In VNull (logical a) /\
      (forall x, In x (nn (logical vals)) -> In x (logical a)) /\ logical vals <> []
  | _ => True
  end.

Lemma st_ok_chunks k cs :
  (fix go (l : list array) : Prop := match l with [] => True | c :: r => st_ok k c /\ go r end) cs <-> Forall (st_ok k) cs.
Proof.
  induction cs as [|c r IH]; [split; constructor|]. rewrite IH. split; [intros [A B]; constructor; auto|].
  intros H; inversion H; auto.
Qed.

Lemma logical_bool off buf len v : off + len <= length buf -> vwf v len ->
  logical (ABool off buf len v) = map voB (opts (lslice buf off (off + len)) (vbits v len)).
Proof.
  intros Hl Hw. cbn [logical].
  assert (length (lslice buf off (off + len)) = len) as L by (rewrite lslice_length; lia).
  apply (nth_ext_len _ _ VNull).
  - rewrite tab_length, map_length, opts_length; rewrite ?vbits_length; lia.
  - rewrite tab_length. intros i Hi. rewrite nth_tab by lia.
    rewrite (map_nth_lt voB _ None) by (rewrite opts_length; rewrite ?vbits_length; lia).
    rewrite (nth_opts _ _ i false) by (rewrite ?vbits_length; lia).
    rewrite nth_vbits by lia. rewrite nth_lslice by lia. destruct (vvalid v i); reflexivity.
Qed.
Lemma logical_bytebool l v : Forall (fun z => z = 0 \/ z = 1)%Z l -> vwf v (length l) ->
  logical (AByteBool l v) = map voB (opts (map (fun z => negb (z =? 0)%Z) l) (vbits v (length l))).
Proof.
  intros Hb Hw. cbn [logical]. set (m := map _ l). assert (length m = length l) as L by apply map_length.
  apply (nth_ext_len _ _ VNull).
  - rewrite tab_length, map_length, opts_length; rewrite ?vbits_length; lia.
  - rewrite tab_length. intros i Hi. rewrite nth_tab by lia.
    rewrite (map_nth_lt voB _ None) by (rewrite opts_length; rewrite ?vbits_length; lia).
    rewrite (nth_opts _ _ i false) by (rewrite ?vbits_length; lia).
    rewrite nth_vbits by lia. unfold m. rewrite (map_nth_lt _ l 0%Z) by lia.
    rewrite Forall_forall in Hb. destruct (Hb (nth i l 0%Z)) as [E|E]; [apply nth_In; lia| |]; rewrite E;
      destruct (vvalid v i); reflexivity.
Qed.
Lemma str_opts_inv l : Forall (fun x => match x with VNull | VBytes _ => True | _ => False end) l ->
  map voS (str_opts l) = l.
Proof. unfold str_opts. rewrite map_map. intros H. induction H as [|x l Hx Hl IH]; [reflexivity|]. cbn. rewrite IH. destruct x; tauto. Qed.

(** The run of merges over the chunks. *)
Definition acc_fits (b : bool) (l : list value) (s : stats) : Prop :=
  ((s_max s = None \/ (nn l = [] <-> b = true))) /\ (s_const s = Some true -> s_min s <> None).
Lemma fold_merge_sound d b k cs : ordered d = true ->
  Forall (fun c => Forall (vtyped d) (logical c) /\ Forall (nice d) (logical c) /\ sound d (logical c) (stats_after k c) /\
    chunk_fits b k c) cs ->
  forall l s, Forall (vtyped d) l -> Forall (nice d) l -> sound d l s -> acc_fits b l s ->
  sound d (l ++ concat (map logical cs)) (fold_left (merge d) (map (stats_after k) cs) s).
Proof.
  intros Ho H. induction H as [|c cs (T & N & S & [Q1 Q2]) Hcs IH]; intros l s Tl Nl Sl [A1 A2]; cbn [map concat fold_left].
  - rewrite app_nil_r. exact Sl.
  - rewrite app_assoc. apply IH.
    + apply Forall_app; auto.
    + apply Forall_app; auto.
    + apply merge_sound; auto. split.
      * destruct A1 as [A1|A1]; [left; exact A1|]. destruct Q1 as [Q1|Q1]; [right; left; exact Q1|].
        right; right. rewrite A1, Q1. reflexivity.
      * intros E _. apply A2, E.
    + split.
      * cbn [merge s_max]. unfold merge_ordered. destruct A1 as [A1|A1]; [rewrite A1; left; reflexivity|].
        destruct Q1 as [[_ Q1]|Q1]; [rewrite Q1; left; destruct (s_max s); reflexivity|].
        right. rewrite nn_app. destruct b.
        -- rewrite (proj2 A1), (proj2 Q1) by reflexivity. tauto.
        -- split; [|discriminate]. intros E. apply app_eq_nil in E. apply A1, E.
      * cbn [merge s_const s_min]. unfold merge_const, merge_ordered.
        destruct (s_const s) as [[]|]; try (destruct (s_const (stats_after k c)); cbn; discriminate).
        destruct (s_const (stats_after k c)) as [[]|]; try (cbn; discriminate).
        destruct (s_min s) as [m1|]; [|destruct (A2 eq_refl eq_refl)].
        destruct (s_min (stats_after k c)) as [m2|]; [|destruct (Q2 eq_refl eq_refl)].
        intros _. destruct (lt_scalar d m2 m1); discriminate.
Qed.

(** Dictionary lemmas. *)
Lemma sorted_by_nth (r : value -> value -> Prop) l : (forall i j, i < j -> j < length l -> r (nth i l VNull) (nth j l VNull)) -> sorted_by r l.
Proof.
  induction l as [|x l IH]; intros H; [exact I|]. cbn [sorted_by]. split.
  - intros y Hy. apply (In_nth _ _ VNull) in Hy. destruct Hy as (j & Hj & <-). apply (H 0 (S j)); cbn; lia.
  - apply IH. intros i j Hi Hj. apply (H (S i) (S j)); cbn; lia.
Qed.
Lemma sorted_by_nth_nn (r : value -> value -> Prop) l : sorted_by r (nn l) -> forall i j, i < j -> j < length l ->
  nth i l VNull <> VNull -> nth j l VNull <> VNull -> r (nth i l VNull) (nth j l VNull).
Proof.
  induction l as [|x l IH]; intros H i j Hi Hj Ni Nj; [cbn in Hj; lia|].
  destruct j as [|j]; [lia|]. cbn [length] in Hj.
  destruct i as [|i].
  - cbn [nth] in Ni |- *. unfold nn in H. cbn [filter] in H.
    rewrite (proj2 (is_null_false x) Ni) in H. cbn [sorted_by] in H. apply H. apply In_nn. split; [apply nth_In; lia|exact Nj].
  - cbn [nth] in *. apply IH; try lia; auto. unfold nn in *. cbn [filter] in H. destruct (negb (is_null x)); [apply H|exact H].
Qed.
Lemma nn_id l : ~ In VNull l -> nn l = l.
Proof.
  intros H. unfold nn. induction l as [|x l IH]; [reflexivity|]. cbn [filter].
  rewrite (proj2 (is_null_false x)) by (intros ->; apply H; left; reflexivity).
  f_equal. apply IH. intros Hi. apply H. right. exact Hi.
Qed.
Lemma run_count_map d d' f l : Forall (elem d) l -> Forall (elem d') (map f l) -> run_count (map f l) <= run_count l.
Proof.
  induction l as [|x l IH]; intros E1 E2; [reflexivity|].
  destruct l as [|y l]; [reflexivity|].
  change (map f (x :: y :: l)) with (f x :: f y :: map f l) in *. rewrite !run_count_cons2.
  inversion E1 as [|? ? Ex E1']; subst. inversion E2 as [|? ? Efx E2']; subst.
  specialize (IH E1' E2'). change (map f (y :: l)) with (f y :: map f l) in IH.
  inversion E1' as [|? ? Ey _]; subst. inversion E2' as [|? ? Efy _]; subst.
  destruct (vsame x y) eqn:Exy.
  - apply (vsame_eq d) in Exy; auto. subst y. rewrite (proj2 (vsame_eq d' (f x) (f x) Efx Efx) eq_refl). lia.
  - destruct (vsame (f x) (f y)); lia.
Qed.

Lemma dict_sound f k c vals :
  wf f (ADict c vals) ->
  (forall k, st_ok k c -> sound (adtype c) (logical c) (stats_after k c)) ->
  (forall k, st_ok k vals -> sound (adtype vals) (logical vals) (stats_after k vals)) ->
  st_ok k (ADict c vals) -> sound (adtype (ADict c vals)) (logical (ADict c vals)) (stats_after k (ADict c vals)).
Proof.
  intros Hwf IHc IHv (K1 & K2 & K3 & K4 & K5 & V1 & V2 & V3 & Ho & ND & NN & USE & NE).
  pose proof (vtyped_logical _ _ Hwf) as TA. change (adtype (ADict c vals)) with (adtype vals) in *.
  set (A := ADict c vals) in *.
  assert (logical A = map (fun c => nth (Z.to_nat (vint c)) (logical vals) VNull) (logical c)) as LA by reflexivity.
  destruct Hwf as (Wc & Wv & (p & Dp & Up) & Rg & Fl & _).
  pose proof (vtyped_logical _ _ Wc) as Tc. rewrite Dp in Tc. pose proof (vtyped_logical _ _ Wv) as Tv.
  set (D := adtype vals) in *. set (L := logical A) in *. set (C := logical c) in *. set (V := logical vals) in *.
  assert (length L = length C) as LL by (rewrite LA; apply map_length).
  assert (forall i, i < length C -> nth i L VNull = nth (Z.to_nat (vint (nth i C VNull))) V VNull) as NL.
  { intros i Hi. rewrite LA. rewrite (map_nth_lt _ C VNull) by lia. reflexivity. }
  assert (forall i, i < length C -> (0 <= vint (nth i C VNull) < Z.of_nat (length V))%Z) as RG.
  { intros i Hi. rewrite Forall_forall in Rg. unfold V. rewrite logical_length. apply Rg. unfold ints. apply in_map, nth_In, Hi. }
  assert (forall i, i < length C -> exists z, nth i C VNull = VInt z) as IC.
  { intros i Hi. rewrite Forall_forall in Tc. specialize (Tc (nth i C VNull) (nth_In _ _ Hi)).
    apply vtyped_prim in Tc as Tc'. destruct Tc' as [E|(z & E & _)]; [|eauto]. rewrite E in Tc. discriminate Tc. }
  assert (nn L = L) as NNL by (apply nn_id, NN).
  assert (~ In VNull C) as NC. { intros H. apply (In_nth _ _ VNull) in H. destruct H as (i & Hi & E). destruct (IC i Hi). congruence. }
  assert (nn C = C) as NNC by (apply nn_id, NC).
  assert (Forall (elem D) L) as EL by (rewrite <- NNL; apply elem_nn; assumption).
  assert (Forall (elem (adtype c)) C) as EC by (rewrite <- NNC, Dp; apply elem_nn; [reflexivity|exact Tc]).
  assert (forall i, i < length L -> nth i L VNull <> VNull) as NNi.
  { intros i Hi E. apply NN. rewrite <- E. apply nth_In, Hi. }
  assert (forall i, i < length L -> elem D (nth i L VNull)) as ELi by (intros i Hi; rewrite Forall_forall in EL; apply EL, nth_In, Hi).
  assert (forall i, i < length C -> elem (adtype c) (nth i C VNull)) as ECi by (intros i Hi; rewrite Forall_forall in EC; apply EC, nth_In, Hi).
  assert (forall i j, i < length C -> j < length C ->
     (vle (adtype c) (nth i C VNull) (nth j C VNull) <-> (vint (nth i C VNull) <= vint (nth j C VNull))%Z)) as VLE.
  { intros i j Hi Hj. destruct (IC i Hi) as [zi ->], (IC j Hj) as [zj ->]. unfold vle. rewrite Dp. cbn [vcmp vint].
    unfold zkey. assert (is_float p = false) as -> by (destruct p; cbn in *; congruence).
    destruct (Z.compare_spec zi zj); split; intros; try lia; auto; destruct H0; discriminate. }
  assert (forall i j, i < length C -> j < length C ->
     (vlt (adtype c) (nth i C VNull) (nth j C VNull) <-> (vint (nth i C VNull) < vint (nth j C VNull))%Z)) as VLT.
  { intros i j Hi Hj. destruct (IC i Hi) as [zi ->], (IC j Hj) as [zj ->]. unfold vlt. rewrite Dp. cbn [vcmp vint].
    unfold zkey. assert (is_float p = false) as -> by (destruct p; cbn in *; congruence).
    destruct (Z.compare_spec zi zj); split; intros; try lia; auto; discriminate. }
  assert (sorted_by (vle D) (nn V) -> forall i j, i < length C -> j < length C ->
    (vint (nth i C VNull) < vint (nth j C VNull))%Z -> vlt D (nth i L VNull) (nth j L VNull)) as MONO.
  { intros SV i j Hi Hj Hlt. pose proof (RG i Hi). pose proof (RG j Hj).
    assert (vle D (nth i L VNull) (nth j L VNull)) as Le.
    { rewrite !NL by lia. apply sorted_by_nth_nn; auto; try lia; rewrite <- NL by lia; apply NNi; lia. }
    apply vle_cases in Le; [|apply ELi; lia|apply ELi; lia]. destruct Le as [Le|Le]; [exact Le|].
    rewrite !NL in Le by lia. rewrite NoDup_nth in ND.
    apply ND in Le; try lia. }
  set (srt := match s_sorted (stats_after KSorted vals) with Some b => b | None => false end).
  assert (srt = true -> sorted_by (vle D) (nn V)) as SRT.
  { unfold srt. pose proof (so_sorted _ _ _ (IHv KSorted V1)) as H. destruct (s_sorted (stats_after KSorted vals)); [exact H|discriminate]. }
  constructor; cbn [stats_after A s_min s_max s_const s_sorted s_strict s_runs s_true s_nulls s_bw s_tz]; fold srt; try exact I.
  - pose proof (so_min _ _ _ (IHv KMin V2)) as H. destruct (s_min (stats_after KMin vals)) as [m|]; [|exact I]. cbn [oall] in *.
    unfold is_least in *. fold V in H. rewrite NNL. destruct L as [|x0 L0] eqn:EL0.
    + destruct (nn V) as [|y r]; [exact H|]. specialize (USE y (or_introl eq_refl)). destruct USE.
    + rewrite <- EL0 in *. destruct (nn V) as [|y r] eqn:EV.
      * exfalso. assert (0 < length C) as H0 by (rewrite <- LL, EL0; cbn; lia).
        assert (In (nth 0 L VNull) (nn V)) as Hin.
        { apply In_nn. split; [|apply NNi; lia]. rewrite NL by lia. apply nth_In. specialize (RG 0 H0). lia. }
        rewrite EV in Hin. destruct Hin.
      * destruct H as [H1 H2]. split; [apply USE; exact H1|].
        intros z Hz. apply H2. rewrite <- EV. apply (In_nth _ _ VNull) in Hz. destruct Hz as (i & Hi & <-).
        apply In_nn. split; [|apply NNi; exact Hi]. rewrite NL by lia. apply nth_In. specialize (RG i). lia.
  - pose proof (so_max _ _ _ (IHv KMax V3)) as H. destruct (s_max (stats_after KMax vals)) as [m|]; [|exact I]. cbn [oall] in *.
    unfold is_greatest in *. fold V in H. rewrite NNL. destruct L as [|x0 L0] eqn:EL0.
    + destruct (nn V) as [|y r]; [exact H|]. specialize (USE y (or_introl eq_refl)). destruct USE.
    + rewrite <- EL0 in *. destruct (nn V) as [|y r] eqn:EV.
      * exfalso. assert (0 < length C) as H0 by (rewrite <- LL, EL0; cbn; lia).
        assert (In (nth 0 L VNull) (nn V)) as Hin.
        { apply In_nn. split; [|apply NNi; lia]. rewrite NL by lia. apply nth_In. specialize (RG 0 H0). lia. }
        rewrite EV in Hin. destruct Hin.
      * destruct H as [H1 H2]. split; [apply USE; exact H1|].
        intros z Hz. apply H2. rewrite <- EV. apply (In_nth _ _ VNull) in Hz. destruct Hz as (i & Hi & <-).
        apply In_nn. split; [|apply NNi; exact Hi]. rewrite NL by lia. apply nth_In. specialize (RG i). lia.
  - pose proof (so_const _ _ _ (IHc KConst K1)) as H. destruct (s_const (stats_after KConst c)); [|exact I]. cbn [oall] in *.
    intros E. destruct (H E) as [x Hx]. exists (nth (Z.to_nat (vint x)) V VNull). rewrite LA. apply Forall_forall.
    intros y Hy. apply in_map_iff in Hy. destruct Hy as (z & <- & Hz). rewrite Forall_forall in Hx. rewrite (Hx z Hz). reflexivity.
  - destruct srt eqn:Es; [|exact I]. specialize (SRT eq_refl).
    pose proof (so_sorted _ _ _ (IHc KSorted K2)) as H. destruct (s_sorted (stats_after KSorted c)); [|exact I]. cbn [oall] in *.
    intros E. specialize (H E). fold C in H. rewrite NNC in H. rewrite NNL. apply sorted_by_nth. intros i j Hi Hj.
    pose proof (sorted_by_nth_nn (vle (adtype c)) C) as Q. rewrite NNC in Q. specialize (Q H i j Hi).
    rewrite LL in Hj. destruct (IC i ltac:(lia)) as [zi Ei], (IC j Hj) as [zj Ej].
    assert (vle (adtype c) (nth i C VNull) (nth j C VNull)) as Hle by (apply Q; [lia|rewrite Ei; discriminate|rewrite Ej; discriminate]).
    apply VLE in Hle; try lia. apply vle_cases; [apply ELi; lia|apply ELi; lia|].
    destruct (Z.eq_dec (vint (nth i C VNull)) (vint (nth j C VNull))) as [Eq|Ne].
    + right. rewrite !NL by lia. rewrite Eq. reflexivity.
    + left. apply MONO; try lia; auto.
  - destruct srt eqn:Es; [|exact I]. specialize (SRT eq_refl).
    pose proof (so_unsorted _ _ _ (IHc KSorted K2)) as H. destruct (s_sorted (stats_after KSorted c)); [|exact I]. cbn [oall] in *.
    intros E SL. apply (H E). fold C. rewrite NNC. apply sorted_by_nth. intros i j Hi Hj.
    rewrite NNL in SL. pose proof (sorted_by_nth_nn (vle D) L) as Q. rewrite NNL in Q.
    assert (vle D (nth i L VNull) (nth j L VNull)) as Hle by (apply Q; auto; try lia; apply NNi; lia).
    apply VLE; try lia. destruct (Z_le_gt_dec (vint (nth i C VNull)) (vint (nth j C VNull))) as [|Gt]; [assumption|exfalso].
    apply (vlt_not_vle D (nth j L VNull) (nth i L VNull)); [apply ELi; lia|apply ELi; lia| |exact Hle].
    apply MONO; auto; lia.
  - destruct srt eqn:Es; [|exact I]. specialize (SRT eq_refl).
    pose proof (so_strict _ _ _ (IHc KStrict K3)) as H. destruct (s_strict (stats_after KStrict c)); [|exact I]. cbn [oall] in *.
    intros E. specialize (H E). fold C in H. rewrite NNL. apply sorted_by_nth. intros i j Hi Hj. rewrite LL in Hj.
    apply MONO; auto; try lia. apply VLT; try lia.
    destruct (IC i ltac:(lia)) as [zi Ei], (IC j Hj) as [zj Ej].
    apply sorted_by_nth_nn; auto; [rewrite Ei|rewrite Ej]; discriminate.
  - pose proof (so_runs _ _ _ (IHc KRuns K4)) as H. destruct (s_runs (stats_after KRuns c)); [|exact I]. cbn [oall] in *.
    fold C in H. rewrite NNC in H. rewrite NNL. etransitivity; [|exact H].
    rewrite LA. apply (run_count_map (adtype c) D); [exact EC|]. rewrite <- LA. exact EL.
  - pose proof (so_nulls _ _ _ (IHc KNulls K5)) as H. destruct (s_nulls (stats_after KNulls c)); [|exact I]. cbn [oall] in *.
    fold C in H.
    assert (forall l, ~ In VNull l -> count is_null l = 0) as Z0.
    { intros l Hl. pose proof (nn_length l) as Q. rewrite (nn_id l Hl) in Q. lia. }
    rewrite Z0 in H |- * by assumption. exact H.
Qed.

(** C29. After computing any statistic of any array in the class [st_ok], every statistic it carries is true of its
    elements. *)
Theorem stats_sound :
  forall a f k, wf f a -> st_ok k a -> sound (adtype a) (logical a) (stats_after k a).
Proof.
  induction a as [n|o b n v|p l v|u w b v|u o b v IHo|ns fls n v IHfs|id st IHst|d x n|i vs o n fl IHi IHv|d cs IHcs
    |c vs IHc IHv|e vs v o n IHe IHv|p e r s IHe|e IHe|p l bw o n v q IHq|l v] using array_ind'; intros f k Hwf Hok;
    try apply no_stats_sound.
  - apply nulls_sound.
  - destruct Hwf as (Ho & Hl & Hw). cbn [stats_after]. cbn [adtype]. apply (sound_erase DB); [reflexivity|].
    assert (length (lslice b o (o + n)) = n) as L by (rewrite lslice_length; lia).
    apply bool_stats_sound; rewrite ?L; auto. apply logical_bool; assumption.
  - destruct Hwf as (Hr & Hw). cbn [stats_after adtype]. apply (sound_erase (DPrim p true)); [reflexivity|].
    apply prim_stats_sound; auto.
  - pose proof (vtyped_logical _ _ Hwf) as T. cbn [stats_after].
    rewrite <- (str_opts_inv (logical (AView u w b v))) at 1.
    + apply str_stats_sound. cbn [adtype]. destruct u; eauto.
    + eapply Forall_impl; [|exact T]. cbn [adtype]. intros x. destruct x, u; cbn; auto.
  - pose proof (vtyped_logical _ _ Hwf) as T. cbn [stats_after].
    rewrite <- (str_opts_inv (logical (AVarBin u o b v))) at 1.
    + apply str_stats_sound. cbn [adtype]. destruct u; eauto.
    + eapply Forall_impl; [|exact T]. cbn [adtype]. intros x. destruct x, u; cbn; auto.
  - destruct Hok as [Hn Hd]. destruct Hwf as [Ht _]. cbn [adtype logical].
    assert (Forall (eq x) (repeat x n)) as FC by (apply Forall_forall; intros y Hy; symmetry; eapply repeat_spec; exact Hy).
    assert (forall R, nn (repeat x n) = [] \/ R x x -> forall y z, In y (nn (repeat x n)) -> In z (nn (repeat x n)) -> R y z) as RR.
    { intros R HR y z Hy Hz. destruct HR as [HR|HR]; [rewrite HR in Hy; destruct Hy|].
      apply In_nn in Hy, Hz. destruct Hy as [Hy _], Hz as [Hz _]. apply repeat_spec in Hy, Hz. subst. exact HR. }
    assert (x = VNull -> nn (repeat x n) = []) as NE by (intros ->; clear; unfold nn; induction n; cbn; auto).
    assert (nn (repeat x n) = [] \/ vle d x x) as LE.
    { destruct (is_null x) eqn:Ex; [left; apply NE; destruct x; try discriminate; reflexivity|right].
      destruct Hd as [Hd|Hd]; [|subst x; discriminate]. apply vle_refl. split; [exact Ht|]. split; [intros ->; discriminate|exact Hd]. }
    assert (x <> VNull -> nn (repeat x n) = repeat x n) as NI.
    { intros Hx. apply nn_id. intros Hi. apply repeat_spec in Hi. congruence. }
    assert (is_least d (repeat x n) x) as ML.
    { destruct (is_null x) eqn:Ex.
      - unfold is_least. rewrite NE by (destruct x; try discriminate Ex; reflexivity). destruct x; try discriminate Ex; reflexivity.
      - assert (x <> VNull) as Hx by (intros ->; discriminate Ex).
        unfold is_least. specialize (NI Hx). rewrite NI in *. destruct n as [|n]; [lia|].
        change (repeat x (S n)) with (x :: repeat x n) at 1. cbv iota. split; [left; reflexivity|].
        intros y Hy. apply repeat_spec in Hy. subst y. destruct LE as [LE|LE]; [discriminate LE|exact LE]. }
    assert (is_greatest d (repeat x n) x) as MG.
    { destruct (is_null x) eqn:Ex.
      - unfold is_greatest. rewrite NE by (destruct x; try discriminate Ex; reflexivity). destruct x; try discriminate Ex; reflexivity.
      - assert (x <> VNull) as Hx by (intros ->; discriminate Ex).
        unfold is_greatest. specialize (NI Hx). rewrite NI in *. destruct n as [|n]; [lia|].
        change (repeat x (S n)) with (x :: repeat x n) at 1. cbv iota. split; [left; reflexivity|].
        intros y Hy. apply repeat_spec in Hy. subst y. destruct LE as [LE|LE]; [discriminate LE|exact LE]. }
    assert (sorted_by (vle d) (nn (repeat x n))) as SB.
    { assert (forall l, (forall y, In y l -> In y (nn (repeat x n))) -> sorted_by (vle d) l) as G.
      { induction l as [|y l IH]; intros Hl; [exact I|]. cbn [sorted_by]. split.
        - intros z Hz. apply RR; auto; [apply Hl; left; reflexivity|apply Hl; right; exact Hz].
        - apply IH. intros z Hz. apply Hl. right. exact Hz. }
      apply G. auto. }
    assert (run_count (nn (repeat x n)) <= 1) as RC.
    { destruct (is_null x) eqn:Ex; [rewrite NE by (destruct x; try discriminate; reflexivity); cbn; lia|].
      rewrite NI by (intros ->; discriminate). clear -Ex Hd Ht. induction n as [|n IH]; [cbn; lia|].
      destruct n as [|n]; [cbn; lia|]. change (repeat x (S (S n))) with (x :: x :: repeat x n). rewrite run_count_cons2.
      change (repeat x (S n)) with (x :: repeat x n) in IH.
      destruct Hd as [Hd|Hd]; [|subst x; discriminate].
      rewrite (proj2 (vsame_eq d x x ltac:(split; [exact Ht|split; [intros ->; discriminate|exact Hd]]) ltac:(split; [exact Ht|split; [intros ->; discriminate|exact Hd]]))) by reflexivity.
      lia. }
    assert (oall (fun m => m = count (fun y => match y with VBool true => true | _ => false end) (repeat x n))
      (match x with VBool b => Some (if b then n else 0) | _ => None end)) as TC.
    { destruct x as [|b| | |]; try exact I. cbn [oall]. clear. unfold count. destruct b.
      - induction n as [|n IH]; [reflexivity|]. cbn [repeat filter length]. lia.
      - induction n as [|n IH]; [reflexivity|]. cbn [repeat filter]. exact IH. }
    assert (sound d (repeat x n) (const_base d x)) as SB0.
    { constructor; cbn [const_base s_min s_max s_const s_sorted s_strict s_runs s_true s_nulls s_bw s_tz oall snd]; auto; try discriminate.
      intros _. exists x. exact FC. }
    cbn [stats_after]. destruct (has_stat (const_base d x) k); [exact SB0|].
    destruct SB0. constructor; cbn [extend const_computed const_base s_min s_max s_const s_sorted s_strict s_runs s_true s_nulls s_bw s_tz or_else] in *; auto.
    all: try exact I; try (intros _; exists x; exact FC). destruct x; exact TC.
  - pose proof (vtyped_logical _ _ Hwf) as T.
    destruct Hok as (Ho & Hni & (b & Hb) & Hcs). apply (proj1 (st_ok_chunks k cs)) in Hcs.
    cbn [adtype] in *. cbn [wf] in Hwf. destruct Hwf as (Hwf & _). apply wf_chunks_iff in Hwf.
    cbn [logical] in *.
    assert (Forall (fun c => Forall (vtyped d) (logical c) /\ Forall (nice d) (logical c) /\ sound d (logical c) (stats_after k c) /\
      chunk_fits b k c) cs) as All.
    { apply Forall_forall. intros c Hc. rewrite Forall_forall in IHcs, Hcs, Hwf, Hb.
      destruct (Hwf c Hc) as [Wc Dc].
      assert (forall y, In y (logical c) -> In y (concat (map logical cs))) as Sub.
      { intros y Hy. apply in_concat. exists (logical c). split; [apply in_map, Hc|exact Hy]. }
      rewrite Forall_forall in T, Hni. split; [apply Forall_forall; auto|]. split; [apply Forall_forall; auto|]. split.
      - rewrite <- Dc. apply (IHcs c Hc f k Wc (Hcs c Hc)).
      - apply Hb, Hc. }
    cbn [stats_after]. destruct cs as [|c cs]; [apply no_stats_sound|]. cbn [map].
    inversion All as [|? ? (A1 & A2 & A3 & A4 & A5) Rest]; subst. apply (fold_merge_sound d b k cs Ho Rest); auto.
    split; [|exact A5]. destruct A4 as [[_ A4]|A4]; [left|right]; exact A4.
  - apply (dict_sound f); auto.
    + intros k' Hk. destruct Hwf as (Wc & _). apply (IHc f k' Wc Hk).
    + intros k' Hk. destruct Hwf as (_ & Wv & _). apply (IHv f k' Wv Hk).
  - destruct Hwf as (Hb & Hw & _). cbn [stats_after adtype]. destruct l as [|z l]; [apply no_stats_sound|].
    apply (sound_erase DB); [reflexivity|]. remember (z :: l) as zl.
    apply bool_stats_sound; rewrite ?map_length; auto. apply logical_bytebool; assumption.
Qed.
Print Assumptions stats_sound.

(** Non-vacuity: a chunked array of a nullable primitive, a constant and a dictionary. *)
Definition ex_stats : array :=
  AChunked (DPrim I32 true)
    [APrim I32 [3; 0; 5]%Z (VBits [true; false; true]); AConst (DPrim I32 true) (VInt 7) 2;
     ADict (APrim U8 [1; 0; 1]%Z VNonNull) (APrim I32 [8; 12]%Z VAllValid)].
Example ex_stats_hyps : wf f0 ex_stats /\ st_ok KMax ex_stats /\
  option_map snd (s_max (stats_after KMax ex_stats)) = Some (VInt 12) /\
  option_map snd (s_min (stats_after KMax ex_stats)) = Some (VInt 3) /\
  s_sorted (stats_after KMax ex_stats) = Some false.
Proof.
  split.
  - unfold ex_stats. cbn. unfold in_range. cbn.
    repeat match goal with |- _ /\ _ => split | |- Forall _ _ => constructor | |- exists _, _ => eexists end;
      try lia; try reflexivity; try discriminate; auto; intros; discriminate.
  - split.
    + unfold ex_stats. cbn. split; [reflexivity|].
      split; [repeat constructor; intros H; discriminate H|].
      split; [exists false; constructor; [|constructor; [|constructor; [|constructor]]];
        (split; [right; split; discriminate|intros _ H; vm_compute in H; discriminate H])|].
      split; [repeat constructor; intros H; discriminate H|].
      split; [split; [lia|left; reflexivity]|].
      split; [|exact I].
      split; [repeat constructor; intros H; discriminate H|].
      split; [repeat constructor; intros H; discriminate H|].
      split; [repeat constructor; intros H; discriminate H|].
      split; [repeat constructor; intros H; discriminate H|].
      split; [repeat constructor; intros H; discriminate H|].
      split; [repeat constructor; intros H; discriminate H|].
      split; [repeat constructor; intros H; discriminate H|].
      split; [repeat constructor; intros H; discriminate H|].
      split; [reflexivity|].
      split; [repeat constructor; cbn; intuition discriminate|].
      split; [cbn; intuition discriminate|].
      split; [cbn; intuition congruence|discriminate].
    + repeat split.
Qed.

(** Primitive arrays: the run count of the non-null values, the null count, sortedness and the bit-width and
    trailing-zero histograms are exact (nulls counted as width 0 and as [bits] trailing zeros) when a value is present. *)
Theorem prim_stats_exact :
  forall p l v, Forall (in_range p) l -> vwf v (length l) -> nn (logical (APrim p l v)) <> [] ->
  let L := logical (APrim p l v) in
  let s := prim_stats p l v in
  s_runs s = Some (run_count (nn L)) /\ s_nulls s = Some (count is_null L) /\
  (s_sorted s = Some true <-> sorted_by (vle (DPrim p true)) (nn L)) /\
  (s_strict s = Some true <-> sorted_by (vlt (DPrim p true)) (nn L)) /\
  (exists m, s_min s = Some (false, m) /\ is_least (DPrim p true) L m) /\
  (exists m, s_max s = Some (false, m) /\ is_greatest (DPrim p true) L m).
Proof.
  intros p l v R Hw NE L s.
  destruct (prim_stats_cases p l v R Hw) as [[_ E]|[[_ E]|(c & Hc & E)]]; fold L in E |- *.
  - exfalso. apply NE. subst l. reflexivity.
  - exfalso. apply NE. unfold L in E. rewrite E. clear. unfold nn. induction (length l); cbn; auto.
  - unfold s. rewrite E. cbn [pacc_finish s_runs s_nulls s_sorted s_strict s_min s_max].
    destruct Hc as [[K1 K2 K3 K4 K5 K6] Q2 _ _ _ _ _ _]. cbn [pcore c_prev c_min c_max c_sorted c_strict c_runs] in *.
    fold L in K2, K3, K4, K5, K6, Q2, NE.
    split; [rewrite K6; reflexivity|]. split; [rewrite Q2; reflexivity|].
    split; [rewrite <- K4; split; [intros [=H]; exact H|intros ->; reflexivity]|].
    split; [rewrite <- K5; split; [intros [=H]; exact H|intros ->; reflexivity]|].
    unfold is_least, is_greatest. destruct (nn L) as [|y0 r0]; [congruence|].
    split; eexists; (split; [reflexivity|]); assumption.
Qed.
Print Assumptions prim_stats_exact.

(** * Refuted: the cases excluded by [st_ok] *)

(** Minimum of a nullable boolean array that holds only true and null is reported false. *)
Theorem bool_min_with_nulls_refuted :
  exists a, wf f0 a /\ logical a = [VBool true; VNull] /\ s_min (stats_after KMin a) = Some (false, VBool false).
Proof.
  exists (ABool 0 [true; true] 2 (VBits [true; false])). split; [cbn; repeat split; lia|]. split; reflexivity.
Qed.
Print Assumptions bool_min_with_nulls_refuted.

(** [0.0, -0.0] is reported constant although its elements differ. *)
Theorem float_constant_refuted :
  exists a, wf f0 a /\ s_const (stats_after KConst a) = Some true /\ ~ exists x, Forall (eq x) (logical a).
Proof.
  exists (APrim F32 [0; 2 ^ 31]%Z VNonNull). split; [|split; [reflexivity|]].
  - cbn [wf]. split; [|exact I]. constructor; [|constructor; [|constructor]]; unfold in_range; cbn; lia.
  - intros [x H]. vm_compute in H. inversion H as [|? ? H1 H2]; subst. inversion H2; subst. discriminate.
Qed.
Print Assumptions float_constant_refuted.

(** An empty constant array still reports a minimum and one run. *)
Theorem empty_constant_stats_refuted :
  exists a, wf f0 a /\ logical a = [] /\ option_map snd (s_min (stats_after KMin a)) = Some (VInt 5) /\
    s_runs (stats_after KMin a) = Some 1.
Proof.
  exists (AConst (DPrim I32 false) (VInt 5) 0). split; [|repeat split].
  cbn [wf vtyped]. split; [unfold in_range; cbn; lia|discriminate].
Qed.
Print Assumptions empty_constant_stats_refuted.

(** The maximum of a dictionary array is that of the dictionary, used or not (e.g. after a slice), and its null count
    is that of the codes. *)
Theorem dict_max_refuted :
  exists a, wf f0 a /\ logical a = [VInt 1] /\ option_map snd (s_max (stats_after KMax a)) = Some (VInt 9).
Proof.
  exists (ADict (APrim U8 [0]%Z VNonNull) (APrim I32 [1; 9]%Z VNonNull)). split; [|split; reflexivity].
  cbn. unfold in_range. cbn. repeat match goal with |- _ /\ _ => split | |- Forall _ _ => constructor | |- exists _, _ => eexists end;
    try lia; try reflexivity; try discriminate; auto.
Qed.
Print Assumptions dict_max_refuted.
Theorem dict_null_count_refuted :
  exists a, wf f0 a /\ logical a = [VNull; VInt 4] /\ s_nulls (stats_after KNulls a) = Some 0.
Proof.
  exists (ADict (APrim U8 [0; 1]%Z VNonNull) (APrim I32 [0; 4]%Z (VBits [false; true]))). split; [|split; reflexivity].
  cbn. unfold in_range. cbn. repeat match goal with |- _ /\ _ => split | |- Forall _ _ => constructor | |- exists _, _ => eexists end;
    try lia; try reflexivity; try discriminate; auto.
Qed.
Print Assumptions dict_null_count_refuted.

(** Sortedness is about the non-null values: [1, null, 2] is reported strictly sorted, while searching places nulls
    first. *)
Theorem sorted_ignores_nulls_refuted :
  exists a, wf f0 a /\ s_strict (stats_after KStrict a) = Some true /\ logical a = [VInt 1; VNull; VInt 2].
Proof.
  exists (APrim I32 [1; 0; 2]%Z (VBits [true; false; true])). split; [|split; reflexivity].
  cbn. split; [|reflexivity]. constructor; [|constructor; [|constructor; [|constructor]]]; unfold in_range; cbn; lia.
Qed.
Print Assumptions sorted_ignores_nulls_refuted.
