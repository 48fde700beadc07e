(** Property C54: statistics through the cache, in any order of queries, and through messages. *)
From Verif Require Import Base Spec Arr ArrRead ArrWf ArrReadProofs ArrSlice ValidityModel PropValidity StatsModel StatsProofs
  StatsProofs2 StatsProofs3 PropStats StatCache.

Lemma dict_answers_sound f c vals (sc sv : stat -> stats) :
  wf f (ADict c vals) ->
  (forall k, sound (adtype c) (logical c) (sc k)) ->
  (forall k, sound (adtype vals) (logical vals) (sv k)) ->
  (ordered (adtype vals) = true /\ NoDup (logical vals) /\ ~ In VNull (logical (ADict c vals)) /\
   (forall x, In x (nn (logical vals)) -> In x (logical (ADict c vals))) /\ logical vals <> []) ->
  sound (adtype (ADict c vals)) (logical (ADict c vals)) (dict_answers sc sv).
Proof.
  intros Hwf IHc IHv (Ho & ND & NN & USE & NE).
  pose proof (vtyped_logical _ _ Hwf) as TA. change (adtype (ADict c vals)) with (adtype vals) in *.
  set (A := ADict c vals) in *.
  assert (logical A = map (fun c => nth (Z.to_nat (vint c)) (logical vals) VNull) (logical c)) as LA by reflexivity.
  destruct Hwf as (Wc & Wv & (p & Dp & Up) & Rg & Fl & _).
  pose proof (vtyped_logical _ _ Wc) as Tc. rewrite Dp in Tc. pose proof (vtyped_logical _ _ Wv) as Tv.
  set (D := adtype vals) in *. set (L := logical A) in *. set (C := logical c) in *. set (V := logical vals) in *.
  assert (length L = length C) as LL by (rewrite LA; apply map_length).
  assert (forall i, i < length C -> nth i L VNull = nth (Z.to_nat (vint (nth i C VNull))) V VNull) as NL.
  { intros i Hi. rewrite LA. rewrite (map_nth_lt _ C VNull) by lia. reflexivity. }
  assert (forall i, i < length C -> (0 <= vint (nth i C VNull) < Z.of_nat (length V))%Z) as RG.
  { intros i Hi. rewrite Forall_forall in Rg. unfold V. rewrite logical_length. apply Rg. unfold ints. apply in_map, nth_In, Hi. }
  assert (forall i, i < length C -> exists z, nth i C VNull = VInt z) as IC.
  { intros i Hi. rewrite Forall_forall in Tc. specialize (Tc (nth i C VNull) (nth_In _ _ Hi)).
    apply vtyped_prim in Tc as Tc'. destruct Tc' as [E|(z & E & _)]; [|eauto]. rewrite E in Tc. discriminate Tc. }
  assert (nn L = L) as NNL by (apply nn_id, NN).
  assert (~ In VNull C) as NC. { intros H. apply (In_nth _ _ VNull) in H. destruct H as (i & Hi & E). destruct (IC i Hi). congruence. }
  assert (nn C = C) as NNC by (apply nn_id, NC).
  assert (Forall (elem D) L) as EL by (rewrite <- NNL; apply elem_nn; assumption).
  assert (Forall (elem (adtype c)) C) as EC by (rewrite <- NNC, Dp; apply elem_nn; [reflexivity|exact Tc]).
  assert (forall i, i < length L -> nth i L VNull <> VNull) as NNi.
  { intros i Hi E. apply NN. rewrite <- E. apply nth_In, Hi. }
  assert (forall i, i < length L -> elem D (nth i L VNull)) as ELi by (intros i Hi; rewrite Forall_forall in EL; apply EL, nth_In, Hi).
  assert (forall i, i < length C -> elem (adtype c) (nth i C VNull)) as ECi by (intros i Hi; rewrite Forall_forall in EC; apply EC, nth_In, Hi).
  assert (forall i j, i < length C -> j < length C ->
     (vle (adtype c) (nth i C VNull) (nth j C VNull) <-> (vint (nth i C VNull) <= vint (nth j C VNull))%Z)) as VLE.
  { intros i j Hi Hj. destruct (IC i Hi) as [zi ->], (IC j Hj) as [zj ->]. unfold vle. rewrite Dp. cbn [vcmp vint].
    unfold zkey. assert (is_float p = false) as -> by (destruct p; cbn in *; congruence).
    destruct (Z.compare_spec zi zj); split; intros; try lia; auto; destruct H0; discriminate. }
  assert (forall i j, i < length C -> j < length C ->
     (vlt (adtype c) (nth i C VNull) (nth j C VNull) <-> (vint (nth i C VNull) < vint (nth j C VNull))%Z)) as VLT.
  { intros i j Hi Hj. destruct (IC i Hi) as [zi ->], (IC j Hj) as [zj ->]. unfold vlt. rewrite Dp. cbn [vcmp vint].
    unfold zkey. assert (is_float p = false) as -> by (destruct p; cbn in *; congruence).
    destruct (Z.compare_spec zi zj); split; intros; try lia; auto; discriminate. }
  assert (sorted_by (vle D) (nn V) -> forall i j, i < length C -> j < length C ->
    (vint (nth i C VNull) < vint (nth j C VNull))%Z -> vlt D (nth i L VNull) (nth j L VNull)) as MONO.
  { intros SV i j Hi Hj Hlt. pose proof (RG i Hi). pose proof (RG j Hj).
    assert (vle D (nth i L VNull) (nth j L VNull)) as Le.
    { rewrite !NL by lia. apply sorted_by_nth_nn; auto; try lia; rewrite <- NL by lia; apply NNi; lia. }
    apply vle_cases in Le; [|apply ELi; lia|apply ELi; lia]. destruct Le as [Le|Le]; [exact Le|].
    rewrite !NL in Le by lia. rewrite NoDup_nth in ND.
    apply ND in Le; try lia. }
  set (srt := match s_sorted (sv KSorted) with Some b => b | None => false end).
  assert (srt = true -> sorted_by (vle D) (nn V)) as SRT.
  { unfold srt. pose proof (so_sorted _ _ _ (IHv KSorted)) as H. destruct (s_sorted (sv KSorted)); [exact H|discriminate]. }
  constructor; cbn [dict_answers A s_min s_max s_const s_sorted s_strict s_runs s_true s_nulls s_bw s_tz]; fold srt; try exact I.
  - pose proof (so_min _ _ _ (IHv KMin)) as H. destruct (s_min (sv KMin)) as [m|]; [|exact I]. cbn [oall] in *.
    unfold is_least in *. fold V in H. rewrite NNL. destruct L as [|x0 L0] eqn:EL0.
    + destruct (nn V) as [|y r]; [exact H|]. specialize (USE y (or_introl eq_refl)). destruct USE.
    + rewrite <- EL0 in *. destruct (nn V) as [|y r] eqn:EV.
      * exfalso. assert (0 < length C) as H0 by (rewrite <- LL, EL0; cbn; lia).
        assert (In (nth 0 L VNull) (nn V)) as Hin.
        { apply In_nn. split; [|apply NNi; lia]. rewrite NL by lia. apply nth_In. specialize (RG 0 H0). lia. }
        rewrite EV in Hin. destruct Hin.
      * destruct H as [H1 H2]. split; [apply USE; exact H1|].
        intros z Hz. apply H2. rewrite <- EV. apply (In_nth _ _ VNull) in Hz. destruct Hz as (i & Hi & <-).
        apply In_nn. split; [|apply NNi; exact Hi]. rewrite NL by lia. apply nth_In. specialize (RG i). lia.
  - pose proof (so_max _ _ _ (IHv KMax)) as H. destruct (s_max (sv KMax)) as [m|]; [|exact I]. cbn [oall] in *.
    unfold is_greatest in *. fold V in H. rewrite NNL. destruct L as [|x0 L0] eqn:EL0.
    + destruct (nn V) as [|y r]; [exact H|]. specialize (USE y (or_introl eq_refl)). destruct USE.
    + rewrite <- EL0 in *. destruct (nn V) as [|y r] eqn:EV.
      * exfalso. assert (0 < length C) as H0 by (rewrite <- LL, EL0; cbn; lia).
        assert (In (nth 0 L VNull) (nn V)) as Hin.
        { apply In_nn. split; [|apply NNi; lia]. rewrite NL by lia. apply nth_In. specialize (RG 0 H0). lia. }
        rewrite EV in Hin. destruct Hin.
      * destruct H as [H1 H2]. split; [apply USE; exact H1|].
        intros z Hz. apply H2. rewrite <- EV. apply (In_nth _ _ VNull) in Hz. destruct Hz as (i & Hi & <-).
        apply In_nn. split; [|apply NNi; exact Hi]. rewrite NL by lia. apply nth_In. specialize (RG i). lia.
  - pose proof (so_const _ _ _ (IHc KConst)) as H. destruct (s_const (sc KConst)); [|exact I]. cbn [oall] in *.
    intros E. destruct (H E) as [x Hx]. exists (nth (Z.to_nat (vint x)) V VNull). rewrite LA. apply Forall_forall.
    intros y Hy. apply in_map_iff in Hy. destruct Hy as (z & <- & Hz). rewrite Forall_forall in Hx. rewrite (Hx z Hz). reflexivity.
  - destruct srt eqn:Es; [|exact I]. specialize (SRT eq_refl).
    pose proof (so_sorted _ _ _ (IHc KSorted)) as H. destruct (s_sorted (sc KSorted)); [|exact I]. cbn [oall] in *.
    intros E. specialize (H E). fold C in H. rewrite NNC in H. rewrite NNL. apply sorted_by_nth. intros i j Hi Hj.
    pose proof (sorted_by_nth_nn (vle (adtype c)) C) as Q. rewrite NNC in Q. specialize (Q H i j Hi).
    rewrite LL in Hj. destruct (IC i ltac:(lia)) as [zi Ei], (IC j Hj) as [zj Ej].
    assert (vle (adtype c) (nth i C VNull) (nth j C VNull)) as Hle by (apply Q; [lia|rewrite Ei; discriminate|rewrite Ej; discriminate]).
    apply VLE in Hle; try lia. apply vle_cases; [apply ELi; lia|apply ELi; lia|].
    destruct (Z.eq_dec (vint (nth i C VNull)) (vint (nth j C VNull))) as [Eq|Ne].
    + right. rewrite !NL by lia. rewrite Eq. reflexivity.
    + left. apply MONO; try lia; auto.
  - destruct srt eqn:Es; [|exact I]. specialize (SRT eq_refl).
    pose proof (so_unsorted _ _ _ (IHc KSorted)) as H. destruct (s_sorted (sc KSorted)); [|exact I]. cbn [oall] in *.
    intros E SL. apply (H E). fold C. rewrite NNC. apply sorted_by_nth. intros i j Hi Hj.
    rewrite NNL in SL. pose proof (sorted_by_nth_nn (vle D) L) as Q. rewrite NNL in Q.
    assert (vle D (nth i L VNull) (nth j L VNull)) as Hle by (apply Q; auto; try lia; apply NNi; lia).
    apply VLE; try lia. destruct (Z_le_gt_dec (vint (nth i C VNull)) (vint (nth j C VNull))) as [|Gt]; [assumption|exfalso].
    apply (vlt_not_vle D (nth j L VNull) (nth i L VNull)); [apply ELi; lia|apply ELi; lia| |exact Hle].
    apply MONO; auto; lia.
  - destruct srt eqn:Es; [|exact I]. specialize (SRT eq_refl).
    pose proof (so_strict _ _ _ (IHc KStrict)) as H. destruct (s_strict (sc KStrict)); [|exact I]. cbn [oall] in *.
    intros E. specialize (H E). fold C in H. rewrite NNL. apply sorted_by_nth. intros i j Hi Hj. rewrite LL in Hj.
    apply MONO; auto; try lia. apply VLT; try lia.
    destruct (IC i ltac:(lia)) as [zi Ei], (IC j Hj) as [zj Ej].
    apply sorted_by_nth_nn; auto; [rewrite Ei|rewrite Ej]; discriminate.
  - pose proof (so_runs _ _ _ (IHc KRuns)) as H. destruct (s_runs (sc KRuns)); [|exact I]. cbn [oall] in *.
    fold C in H. rewrite NNC in H. rewrite NNL. etransitivity; [|exact H].
    rewrite LA. apply (run_count_map (adtype c) D); [exact EC|]. rewrite <- LA. exact EL.
  - pose proof (so_nulls _ _ _ (IHc KNulls)) as H. destruct (s_nulls (sc KNulls)); [|exact I]. cbn [oall] in *.
    fold C in H.
    assert (forall l, ~ In VNull l -> count is_null l = 0) as Z0.
    { intros l Hl. pose proof (nn_length l) as Q. rewrite (nn_id l Hl) in Q. lia. }
    rewrite Z0 in H |- * by assumption. exact H.
Qed.


(** * Sets of statistics *)
Lemma pick_sound d l k s : sound d l s -> sound d l (pick k s).
Proof. intros []. destruct k; constructor; cbn in *; auto; exact I. Qed.
Lemma oall_or {A} (P : A -> Prop) n o : oall P n -> oall P o -> oall P (or_else n o).
Proof. destruct n; cbn; auto. Qed.
Lemma extend_sound d l s n : sound d l s -> sound d l n -> sound d l (extend s n).
Proof. intros [] []. constructor; cbn [extend s_bw s_tz s_const s_sorted s_strict s_max s_min s_runs s_true s_nulls]; apply oall_or; assumption. Qed.
Lemma usable_extend a s n : usable a s -> usable a n -> usable a (extend s n).
Proof.
  intros [S1 M1] [S2 M2]. split; [apply extend_sound; assumption|]. cbn [extend s_const s_min].
  destruct (s_const n) as [b|]; cbn [or_else].
  - intros E. specialize (M2 E). destruct (s_min n); [discriminate|contradiction].
  - intros E. specialize (M1 E). destruct (s_min n); [discriminate|exact M1].
Qed.
Lemma usable_none a : usable a no_stats.
Proof. split; [apply no_stats_sound|discriminate]. Qed.

(** * The class of arrays *)
(** As for C29 ([st_ok]), but not depending on the statistic asked for: the chunks of a chunked array all have, or all lack,
    a non-null element; the values of a dictionary are primitives, constants or byte strings. *)
Definition mins (a : array) : Prop :=
  match a with APrim _ _ _ | AConst _ _ _ | AView _ _ _ _ | AVarBin _ _ _ _ => True | _ => False end.
Fixpoint hist_ok (a : array) {struct a} : Prop :=
  match a with
  | ABool _ _ _ _ | AByteBool _ _ => bool_cond (logical a)
  | APrim _ _ _ => Forall (nice (adtype a)) (logical a)
  | AConst d x n => 0 < n /\ (ordered d = true \/ x = VNull)
  | AChunked d cs =>
      ordered d = true /\ Forall (nice d) (logical a) /\
      (exists b, Forall (fun c => nn (logical c) = [] <-> b = true) cs) /\
      (fix go (l : list array) : Prop := match l with [] => True | c :: r => hist_ok c /\ go r end) cs
  | ADict codes vals =>
      hist_ok codes /\ hist_ok vals /\ mins vals /\
      ordered (adtype vals) = true /\ NoDup (logical vals) /\ ~ In VNull (logical a) /\
      (forall x, In x (nn (logical vals)) -> In x (logical a)) /\ logical vals <> []
  | _ => True
  end.
Lemma hist_ok_chunks cs :
  (fix go (l : list array) : Prop := match l with [] => True | c :: r => hist_ok c /\ go r end) cs <-> Forall hist_ok cs.
Proof.
  induction cs as [|c r IH]; [split; constructor|]. rewrite IH. split; [intros [A B]; constructor; auto|].
  intros H; inversion H; auto.
Qed.
Lemma caches_chunks cs : forall ts,
  (fix go (cs : list array) (ts : list tree) : Prop :=
     match cs, ts with [], [] => True | c :: cs', t :: ts' => caches_true c t /\ go cs' ts' | _, _ => False end) cs ts
  <-> Forall2 caches_true cs ts.
Proof.
  induction cs as [|c cs IH]; intros [|t ts]; try solve [split; [intros []|intros H; inversion H]].
  { split; constructor. }  
  rewrite IH. split; [intros [A B]; constructor; auto|intros H; inversion H; auto].
Qed.

(** * One computation *)
Lemma str_go_min l : forall n d, s_min (str_stats_go n d l) <> None.
Proof. induction l as [|[x|] l IH]; intros n d; cbn; [discriminate|discriminate|apply IH]. Qed.
Lemma str_min d l : l <> [] -> s_min (str_stats d l) <> None.
Proof. destruct l; [congruence|]. intros _. apply str_go_min. Qed.
Lemma prim_min p l v : l <> [] -> s_min (prim_stats p l v) <> None.
Proof.
  intros NE. unfold prim_stats. destruct (to_logical v (length l)); [| |]; unfold prim_stats_valid, prim_stats_nullable.
  all: destruct l; [congruence|]; try discriminate. destruct (first_true l0); discriminate.
Qed.
Lemma bool_min l v : l <> [] -> s_min (bool_stats l v) <> None.
Proof.
  intros NE. unfold bool_stats. destruct l; [congruence|]. destruct (to_logical v _); try discriminate.
  destruct (first_true l0); discriminate.
Qed.
(** The encodings that look only at their own data. *)
Definition leaf (a : array) : Prop := match a with AConst _ _ _ | AChunked _ _ | ADict _ _ => False | _ => True end.
Lemma leaf_usable f k a : leaf a -> wf f a -> hist_ok a -> usable a (stats_after k a).
Proof.
  intros L W Hk. split.
  - apply (stats_sound a f k W). destruct a; try exact I; try exact Hk; destruct L.
  - destruct a as [n|o b n v|p l v|u w b v|u o b v|ns fls n v|id st|d x n|i vs o n fl|d cs|c vs|e vs v o n|p e r s|e|p l bw o n v q|l v];
      try discriminate; try (destruct L; fail); cbn [stats_after].
    + intros E. apply bool_min. intros E0. rewrite E0 in E. discriminate.
    + destruct l; [|intros _; apply prim_min; discriminate]. unfold prim_stats. destruct (to_logical v _); cbn; discriminate.
    + intros E. apply str_min. intros E0. rewrite E0 in E. discriminate.
    + intros E. apply str_min. intros E0. rewrite E0 in E. discriminate.
    + destruct l; [discriminate|]. intros _. apply bool_min. discriminate.
Qed.

Definition compute_all (k : stat) := fix go (cs : list array) (ts : list tree) : list tree :=
  match cs, ts with c :: cs', t :: ts' => snd (compute k c t) :: go cs' ts' | _, _ => [] end.
Lemma compute_chunked k d cs v o ks : has_stat o k = false ->
  compute k (AChunked d cs) (Node v o ks) =
  let ks' := compute_all k cs ks in
  let s := match map own ks' with [] => no_stats | s :: r => fold_left (merge d) r s end in
  if v then (s, Node v o ks') else (extend o s, Node v (extend o s) ks').
Proof. intros E. cbn [compute]. rewrite E. reflexivity. Qed.

Lemma fold_merge_usable d b cs ss : ordered d = true ->
  Forall2 (fun c s => Forall (vtyped d) (logical c) /\ Forall (nice d) (logical c) /\ sound d (logical c) s /\
    (s_const s = Some true -> s_min s <> None) /\ (nn (logical c) = [] <-> b = true)) cs ss ->
  forall l s, Forall (vtyped d) l -> Forall (nice d) l -> sound d l s -> (s_const s = Some true -> s_min s <> None) ->
  (nn l = [] <-> b = true) ->
  sound d (l ++ concat (map logical cs)) (fold_left (merge d) ss s) /\
  (s_const (fold_left (merge d) ss s) = Some true -> s_min (fold_left (merge d) ss s) <> None).
Proof.
  intros Ho H. induction H as [|c s' cs ss (T & N & S1 & Q1 & Q2) H IH]; intros l s Tl Nl Sl A1 A2; cbn [map concat fold_left].
  - rewrite app_nil_r. auto.
  - rewrite app_assoc. apply IH.
    + apply Forall_app; auto.
    + apply Forall_app; auto.
    + apply merge_sound; auto. split; [right; right; rewrite A2, Q2; reflexivity|]. intros E _. apply A1, E.
    + cbn [merge s_const s_min]. unfold merge_const, merge_ordered.
      destruct (s_const s) as [[]|]; try (destruct (s_const s'); cbn; discriminate).
      destruct (s_const s') as [[]|]; try (cbn; discriminate).
      destruct (s_min s) as [m1|]; [|destruct (A1 eq_refl eq_refl)].
      destruct (s_min s') as [m2|]; [|destruct (Q1 eq_refl eq_refl)].
      intros _. destruct (lt_scalar d m2 m1); discriminate.
    + rewrite nn_app. destruct b.
      * rewrite (proj2 A2), (proj2 Q2) by reflexivity. tauto.
      * split; [|discriminate]. intros E. apply app_eq_nil in E. apply A2, E.
Qed.

Lemma own_usable a t : caches_true a t -> usable a (own t).
Proof. destruct t as [v o ks], a; intros H; apply H. Qed.

(** Asking for the minimum of the values of a dictionary always gives one. *)
Lemma mins_answer k a t : k = KMin -> mins a -> logical a <> [] -> caches_true a t -> s_min (fst (compute k a t)) <> None.
Proof.
  intros -> M NE C. destruct t as [v o ks].
  assert (has_stat o KMin = true -> s_min o <> None) as G by (cbn; destruct (s_min o); discriminate).
  destruct a as [n|off b n va|p l va|u w b va|u off b va|ns fls n va|id st|d x n|i vs off n fl|d cs|c vs|e vs va off n|p e r s|e|p l bw off n va q|l va];
    try destruct M; cbn [compute]; destruct (has_stat o KMin) eqn:E; try (cbn [fst]; apply G; reflexivity).
  - cbn [stats_after]. assert (l <> []) as Hl by (intros ->; apply NE; reflexivity).
    pose proof (prim_min p l va Hl) as P. destruct v; cbn [fst]; [exact P|]. cbn [extend s_min].
    destruct (s_min (prim_stats p l va)); [discriminate|contradiction].
  - cbn [stats_after]. assert (str_opts (logical (AView u w b va)) <> []) as Hl
      by (unfold str_opts; intros E0; apply map_eq_nil in E0; contradiction).
    pose proof (str_min (adtype (AView u w b va)) _ Hl) as P. destruct v; cbn [fst]; [exact P|]. cbn [extend s_min].
    destruct (s_min (str_stats _ _)); [discriminate|contradiction].
  - cbn [stats_after]. assert (str_opts (logical (AVarBin u off b va)) <> []) as Hl
      by (unfold str_opts; intros E0; apply map_eq_nil in E0; contradiction).
    pose proof (str_min (adtype (AVarBin u off b va)) _ Hl) as P. destruct v; cbn [fst]; [exact P|]. cbn [extend s_min].
    destruct (s_min (str_stats _ _)); [discriminate|contradiction].
  - destruct C as [_ C]. cbn in E. destruct (s_min o); [discriminate|contradiction].
Qed.

Lemma compute_leaf f k a t : leaf a -> wf f a -> hist_ok a -> caches_true a t ->
  compute k a t = (let '(Node v o ks) := t in
    if has_stat o k then (o, t) else if v then (stats_after k a, t) else (extend o (stats_after k a), Node v (extend o (stats_after k a)) ks)) ->
  sound (adtype a) (logical a) (fst (compute k a t)) /\ caches_true a (snd (compute k a t)).
Proof.
  intros L W Hk C E. rewrite E. destruct t as [v o ks].
  pose proof (own_usable _ _ C) as [S M]. cbn [own] in S, M. destruct (has_stat o k); [split; [exact S|exact C]|].
  pose proof (leaf_usable f k a L W Hk) as U. destruct v; [split; [apply U|exact C]|]. cbn [fst snd].
  assert (usable a (extend o (stats_after k a))) as U' by (apply usable_extend; [split; assumption|exact U]).
  split; [apply U'|]. destruct a; try destruct L; (split; [exact U'|exact I]).
Qed.

Theorem compute_ok : forall a f k t, wf f a -> hist_ok a -> caches_true a t ->
  sound (adtype a) (logical a) (fst (compute k a t)) /\ caches_true a (snd (compute k a t)).
Proof.
  induction a as [n|o b n v|p l v|u w b v|u o b v IHo|ns fls n v IHfs|id st IHst|d x n|i vs o n fl IHi IHv|d cs IHcs
    |c vs IHc IHv|e vs v o n IHe IHv|p e r s IHe|e IHe|p l bw o n v q IHq|l v] using array_ind'; intros f k t W Hk C;
    try (apply (compute_leaf f); [exact I|exact W|exact Hk|exact C|destruct t as [vw ow ks]; cbn [compute]; destruct (has_stat ow k); [reflexivity|destruct vw; reflexivity]]).
  - (* constants *)
    destruct t as [vw ow ks]. cbn [compute]. destruct C as [[S M] Cm].
    destruct (has_stat ow k) eqn:E; [split; [exact S|split; [split; assumption|exact Cm]]|].
    assert (sound d (repeat x n) (const_computed x n)) as SC.
    { assert (oall (fun m => m = count (fun y => match y with VBool true => true | _ => false end) (repeat x n))
        (match x with VBool b => Some (if b then n else 0) | _ => None end)) as TC.
      { destruct x as [|b| | |]; try exact I. cbn [oall]. clear. unfold count. destruct b.
        - induction n as [|n IH]; [reflexivity|]. cbn [repeat filter length]. lia.
        - induction n as [|n IH]; [reflexivity|]. cbn [repeat filter]. exact IH. }
      constructor; cbn [const_computed s_min s_max s_const s_sorted s_strict s_runs s_true s_nulls s_bw s_tz oall]; try exact I; [|exact TC].
      intros _. exists x. apply Forall_forall. intros y Hy. symmetry. eapply repeat_spec. exact Hy. }
    destruct vw; cbn [fst snd]; [split; [exact SC|split; [split; assumption|exact Cm]]|].
    assert (sound d (repeat x n) (extend ow (const_computed x n))) as SE by (apply extend_sound; assumption).
    split; [exact SE|]. split; [split; [exact SE|]|]; cbn [extend const_computed s_min or_else]; auto.
  - (* chunks *)
    destruct t as [vw ow ks]. pose proof (vtyped_logical _ _ W) as T.
    destruct Hk as (Ho & Hni & (b & Hb) & Hcs). apply (proj1 (hist_ok_chunks cs)) in Hcs.
    destruct (has_stat ow k) eqn:E.
    { pose proof (own_usable _ _ C) as [S M]. cbn [compute]. rewrite E. split; [exact S|exact C]. }
    rewrite compute_chunked by exact E. destruct C as [U C]. apply caches_chunks in C.
    cbn [adtype] in *. cbn [wf] in W. destruct W as (W & _). apply wf_chunks_iff in W. cbn [logical] in *.
    assert (Forall2 caches_true cs (compute_all k cs ks)) as CK.
    { clear Hb Hni T U. revert IHcs Hcs W. induction C as [|c tc cs ks Hc C IH]; intros IHcs Hcs W; [constructor|].
      inversion IHcs as [|? ? I1 I2]; inversion Hcs as [|? ? H1 H2]; inversion W as [|? ? W1 W2]; subst. cbn [compute_all].
      constructor; [apply (I1 f k tc (proj1 W1) H1 Hc)|apply IH; assumption]. }
    set (ks' := compute_all k cs ks) in *. cbv zeta.
    set (s := match map own ks' with [] => no_stats | s :: r => fold_left (merge d) r s end).
    assert (usable (AChunked d cs) s) as US.
    { assert (Forall2 (fun c s => Forall (vtyped d) (logical c) /\ Forall (nice d) (logical c) /\ sound d (logical c) s /\
        (s_const s = Some true -> s_min s <> None) /\ (nn (logical c) = [] <-> b = true)) cs (map own ks')) as All.
      { assert (forall c, In c cs -> forall y, In y (logical c) -> In y (concat (map logical cs))) as Sub.
        { intros c Hc y Hy. apply in_concat. exists (logical c). split; [apply in_map, Hc|exact Hy]. }
        rewrite Forall_forall in T, Hni. clear s U. clearbody ks'.
        revert T Hni Hb W Sub. generalize (concat (map logical cs)). intros LL T Hni Hb W Sub. clear IHcs Hcs C.
        induction CK as [|c tc cs' ts Hc CK IH]; [constructor|]. cbn [map].
        inversion Hb; inversion W as [|? ? W1 W2]; subst. constructor.
        - pose proof (own_usable _ _ Hc) as [S M]. rewrite (proj2 W1) in S. split; [apply Forall_forall; intros y Hy; apply T, (Sub c); [left; reflexivity|exact Hy]|].
          split; [apply Forall_forall; intros y Hy; apply Hni, (Sub c); [left; reflexivity|exact Hy]|]. split; [exact S|]. split; [exact M|assumption].
        - apply IH; auto. intros c' Hc'. apply Sub. right. exact Hc'. }
      subst s. inversion All as [|c s0 cs' ss (A1 & A2 & A3 & A4 & A5) Rest Ecs Ess]; subst.
      - apply usable_none.
      - pose proof (fold_merge_usable d b cs' ss Ho Rest (logical c) s0 A1 A2 A3 A4 A5) as [F1 F2].
        split; [exact F1|exact F2]. }
    assert (forall o', usable (AChunked d cs) o' -> caches_true (AChunked d cs) (Node vw o' ks')) as CN.
    { intros o' Uo. split; [exact Uo|]. apply caches_chunks. exact CK. }
    destruct vw; cbn [fst snd].
    + split; [exact (proj1 US)|apply CN; exact U].
    + pose proof (usable_extend _ _ _ U US) as UE. split; [exact (proj1 UE)|apply CN; exact UE].
  - (* dictionaries *)
    destruct t as [vw ow ks]. pose proof W as W0. destruct W as (Wc & Wv & _).
    destruct Hk as (Hc & Hv & HM & HD).
    destruct (has_stat ow k) eqn:E.
    { pose proof (own_usable _ _ C) as [S M]. cbn [compute]. rewrite E. split; [exact S|exact C]. }
    destruct C as [U C]. destruct ks as [|tc [|tv [|]]]; try destruct C as [].
    rename H into Cc, H0 into Cv.
    pose proof (fun k t => IHc f k t Wc Hc) as JC. pose proof (fun k t => IHv f k t Wv Hv) as JV.
    cbn [compute]. rewrite E.
    pose proof (JC KRuns tc Cc) as [S1 D1]. destruct (compute KRuns c tc) as [c1 tc1]. cbn [fst snd] in *.
    pose proof (JV KMin tv Cv) as [S2 D2]. pose proof (mins_answer KMin vs tv eq_refl HM (proj2 (proj2 (proj2 (proj2 HD)))) Cv) as M1.
    destruct (compute KMin vs tv) as [v1 tv1]. cbn [fst snd] in *.
    pose proof (JV KMax tv1 D2) as [S3 D3]. destruct (compute KMax vs tv1) as [v2 tv2]. cbn [fst snd] in *.
    pose proof (JC KConst tc1 D1) as [S4 D4]. destruct (compute KConst c tc1) as [c2 tc2]. cbn [fst snd] in *.
    pose proof (JC KNulls tc2 D4) as [S5 D5]. destruct (compute KNulls c tc2) as [c3 tc3]. cbn [fst snd] in *.
    pose proof (JV KSorted tv2 D3) as [S6 D6]. destruct (compute KSorted vs tv2) as [v3 tv3]. cbn [fst snd] in *.
    set (srt := match s_sorted v3 with Some b => b | None => false end).
    assert (forall t, caches_true c t -> forall k0,
      sound (adtype c) (logical c) (fst (if srt then compute k0 c t else (no_stats, t))) /\
      caches_true c (snd (if srt then compute k0 c t else (no_stats, t)))) as JS.
    { intros t Ht k0. destruct srt; [apply JC; exact Ht|]. split; [apply no_stats_sound|exact Ht]. }
    pose proof (JS tc3 D5 KSorted) as [S7 D7]. destruct (if srt then compute KSorted c tc3 else (no_stats, tc3)) as [c4 tc4]. cbn [fst snd] in *.
    pose proof (JS tc4 D7 KStrict) as [S8 D8]. destruct (if srt then compute KStrict c tc4 else (no_stats, tc4)) as [c5 tc5]. cbn [fst snd] in *.
    match goal with |- context [dict_answers ?x ?y] => set (sc := x); set (sv := y) end.
    assert (usable (ADict c vs) (dict_answers sc sv)) as US.
    { split; [|intros _; exact M1]. apply (dict_answers_sound f); auto.
      - intros k0. destruct k0; assumption.
      - intros k0. destruct k0; assumption. }
    destruct vw; cbn [fst snd].
    + split; [exact (proj1 US)|]. split; [exact U|split; assumption].
    + pose proof (usable_extend _ _ _ U US) as UE. split; [exact (proj1 UE)|]. split; [exact UE|split; assumption].
Qed.
Print Assumptions compute_ok.

(** * Messages *)
(** What is read from a message is what was written, up to the nullability of the data type of the extrema. *)
Theorem stats_travel : forall d s,
  let r := read_stats d (write_stats s) in
  option_map snd (s_min r) = option_map snd (s_min s) /\ option_map snd (s_max r) = option_map snd (s_max s) /\
  s_const r = s_const s /\ s_sorted r = s_sorted s /\ s_strict r = s_strict s /\ s_runs r = s_runs s /\
  s_true r = s_true s /\ s_nulls r = s_nulls s /\ s_bw r = s_bw s /\ s_tz r = s_tz s /\
  (forall k, has_stat r k = has_stat s k).
Proof.
  intros d [bw tz c so st mx mn ru tr nu]. cbn. destruct mn as [[]|], mx as [[]|]; repeat split; intros []; reflexivity.
Qed.
Lemma travel_usable a s : usable a s -> usable a (read_stats (adtype a) (write_stats s)).
Proof.
  intros [[] M]. split.
  - constructor; cbn [read_stats write_stats s_bw s_tz s_const s_sorted s_strict s_max s_min s_runs s_true s_nulls
      fb_min fb_max fb_sorted fb_strict fb_const fb_runs fb_true fb_nulls fb_bw fb_tz] in *; auto.
    + destruct (s_min s); exact so_min.
    + destruct (s_max s); exact so_max.
  - cbn. intros E. specialize (M E). destruct (s_min s); [discriminate|contradiction].
Qed.
Definition send_all := fix go (cs : list array) (ts : list tree) : list tree :=
  match cs, ts with c :: cs', t :: ts' => send c t :: go cs' ts' | _, _ => [] end.
Lemma send_ok : forall a t, caches_true a t -> caches_true a (send a t).
Proof.
  induction a as [n|o b n v|p l v|u w b v|u o b v IHo|ns fls n v IHfs|id st IHst|d x n|i vs o n fl IHi IHv|d cs IHcs
    |c vs IHc IHv|e vs v o n IHe IHv|p e r s IHe|e IHe|p l bw o n v q IHq|l v] using array_ind'; intros [vw ow ks] C;
    pose proof (travel_usable _ _ (own_usable _ _ C)) as U; cbn [own] in U;
    try (split; [exact U|exact I]).
  - split; [exact U|]. destruct C as [_ C]. cbn. destruct (s_min ow); [discriminate|contradiction].
  - destruct C as [_ C]. apply caches_chunks in C. split; [exact U|]. apply caches_chunks. fold send_all. clear U.
    induction C as [|c tc cs ks Hc C IH]; [constructor|]. inversion IHcs; subst. cbn [send_all]. constructor; auto.
  - destruct C as [_ C]. destruct ks as [|tc [|tv [|]]]; try contradiction. destruct C. split; [exact U|]. split; auto.
Qed.
Lemma put_ok a t s : usable a s -> caches_true a t -> caches_true a (put s t).
Proof.
  intros U C. destruct t as [[] o ks]; [exact C|]. pose proof (own_usable _ _ C) as U0. cbn [own] in U0.
  pose proof (usable_extend _ _ _ U0 U) as UE. cbn [put]. destruct a; destruct C as [_ C]; (split; [exact UE|]); try exact C.
  cbn [extend s_min]. destruct (s_min s); [discriminate|exact C].
Qed.
Lemma thaw_ok a t : caches_true a t -> caches_true a (thaw t).
Proof. destruct t as [v o ks], a; intros C; exact C. Qed.
Lemma fresh_ok : forall a f, hist_ok a -> wf f a -> caches_true a (fresh a).
Proof.
  induction a as [n|o b n v|p l v|u w b v|u o b v IHo|ns fls n v IHfs|id st IHst|d x n|i vs o n fl IHi IHv|d cs IHcs
    |c vs IHc IHv|e vs v o n IHe IHv|p e r s IHe|e IHe|p l bw o n v q IHq|l v] using array_ind'; intros f Hk W;
    try (split; [apply usable_none|exact I]).
  - pose proof (stats_sound (AConst d x n) f KMin W Hk) as S. cbn [stats_after has_stat const_base has s_min] in S.
    split; [split; [exact S|]|]; cbn; discriminate.
  - destruct Hk as (_ & _ & _ & Hcs). apply (proj1 (hist_ok_chunks cs)) in Hcs. cbn [wf] in W. destruct W as (W & _).
    apply wf_chunks_iff in W. split; [apply usable_none|]. apply caches_chunks.
    revert IHcs Hcs W. clear. induction cs as [|c cs IH]; intros IHcs Hcs W; [constructor|].
    inversion IHcs as [|? ? I1 I2]; inversion Hcs as [|? ? H1 H2]; inversion W as [|? ? W1 W2]; subst. cbn [map]. constructor.
    + apply (I1 f H1 (proj1 W1)).
    + apply IH; assumption.
  - destruct W as (Wc & Wv & _). destruct Hk as (Hc & Hv & _). split; [apply usable_none|]. split.
    + apply (IHc f Hc Wc).
    + apply (IHv f Hv Wv).
Qed.

(** * Histories *)
Lemma set_nth_Forall2 {A B} (R : A -> B -> Prop) l m i c x : Forall2 R l m -> nth_error l i = Some c -> R c x -> Forall2 R l (set_nth i x m).
Proof.
  intros H. revert i. induction H as [|a b l m Hab H IH]; intros [|i] E Hx; try discriminate; cbn in *.
  - injection E as ->. constructor; assumption.
  - constructor; [assumption|]. apply IH; assumption.
Qed.
Lemma Forall2_nth_error {A B} (R : A -> B -> Prop) l m i x y : Forall2 R l m -> nth_error l i = Some x -> nth_error m i = Some y -> R x y.
Proof.
  intros H. revert i. induction H as [|a b l m Hab H IH]; intros [|i] E1 E2; try discriminate; cbn in *; [congruence|eauto].
Qed.
Lemma child_ok f a v o ks i c tc : wf f a -> hist_ok a -> caches_true a (Node v o ks) ->
  nth_error (children a) i = Some c -> nth_error ks i = Some tc ->
  wf f c /\ hist_ok c /\ caches_true c tc /\ (forall tc', caches_true c tc' -> caches_true a (Node v o (set_nth i tc' ks))).
Proof.
  intros W Hk C E1 E2. destruct a; cbn [children] in E1; try (destruct i; discriminate E1).
  - destruct Hk as (_ & _ & _ & Hcs). apply (proj1 (hist_ok_chunks _)) in Hcs. cbn [wf] in W. destruct W as (W & _).
    apply wf_chunks_iff in W. destruct C as [U C]. apply caches_chunks in C.
    rewrite Forall_forall in Hcs, W. pose proof (nth_error_In _ _ E1) as Hin. split; [apply W, Hin|]. split; [apply Hcs, Hin|].
    split; [exact (Forall2_nth_error _ _ _ _ _ _ C E1 E2)|]. intros tc' H'. split; [exact U|]. apply caches_chunks.
    eapply set_nth_Forall2; eassumption.
  - destruct W as (Wc & Wv & _). destruct Hk as (Hc & Hv & _). destruct C as [U C]. destruct ks as [|t0 [|t1 [|]]]; try contradiction.
    destruct C as [C0 C1]. destruct i as [|[|i]]; cbn in E1, E2; try discriminate; [| |destruct i; discriminate].
    + injection E1 as <-. injection E2 as <-. split; [exact Wc|]. split; [exact Hc|]. split; [exact C0|].
      intros tc' H'. split; [exact U|]. split; assumption.
    + injection E1 as <-. injection E2 as <-. split; [exact Wv|]. split; [exact Hv|]. split; [exact C1|].
      intros tc' H'. split; [exact U|]. split; assumption.
Qed.

(** What a program writes must be usable. *)
Definition may_ask (a : array) (p : list nat) (q : query) : Prop :=
  match q with Put s => forall c, part p a = Some c -> usable c s | _ => True end.

Lemma ask_ok f q a t : wf f a -> hist_ok a -> caches_true a t -> may_ask a [] q ->
  (forall s, fst (ask q a t) = Some s -> sound (adtype a) (logical a) s) /\ caches_true a (snd (ask q a t)).
Proof.
  intros W Hk C Q. destruct q as [k| |k|s| |]; cbn [ask].
  - split; [|exact C]. cbn. intros s E. injection E as <-. apply pick_sound, (own_usable _ _ C).
  - split; [|exact C]. cbn. intros s E. injection E as <-. apply (own_usable _ _ C).
  - pose proof (compute_ok a f k t W Hk C) as [S D]. destruct (compute k a t) as [s t']. cbn [fst snd] in *.
    split; [|exact D]. intros s' E. injection E as <-. apply pick_sound, S.
  - split; [discriminate|]. apply put_ok; [apply (Q a eq_refl)|exact C].
  - split; [discriminate|]. apply send_ok, C.
  - split; [discriminate|]. apply thaw_ok, C.
Qed.
Lemma ask_at_ok f q : forall p a t, wf f a -> hist_ok a -> caches_true a t -> may_ask a p q ->
  (forall s, fst (ask_at p q a t) = Some s -> exists c, part p a = Some c /\ sound (adtype c) (logical c) s) /\
  caches_true a (snd (ask_at p q a t)).
Proof.
  induction p as [|i p IH]; intros a t W Hk C Q.
  - destruct (ask_ok f q a t W Hk C Q) as [A B]. split; [|exact B]. intros s E. exists a. split; [reflexivity|apply A, E].
  - cbn [ask_at]. destruct t as [v o ks]. cbn [kids is_view own].
    destruct (nth_error (children a) i) as [c|] eqn:E1; [|split; [discriminate|exact C]].
    destruct (nth_error ks i) as [tc|] eqn:E2; [|split; [discriminate|exact C]].
    destruct (child_ok f a v o ks i c tc W Hk C E1 E2) as (Wc & Hc & Cc & Back).
    assert (may_ask c p q) as Qc. { destruct q; try exact I. intros c' Ec. apply Q. cbn [part]. rewrite E1. exact Ec. }
    destruct (IH c tc Wc Hc Cc Qc) as [A B]. destruct (ask_at p q c tc) as [r tc']. cbn [fst snd] in *.
    split; [|apply Back, B]. intros s E. destruct (A s E) as (c' & P & S). exists c'. cbn [part]. rewrite E1. split; assumption.
Qed.

(** C54. Whatever the order in which statistics of an array and of its parts are read, computed, written, sent through a
    message and turned into owned data again, and whoever asks: every answer is true of the elements it is about, and so
    is everything stored at the end. *)
Theorem answers_are_true : forall f a, wf f a -> hist_ok a ->
  forall h t, caches_true a t -> Forall (fun '(p, q) => may_ask a p q) h ->
  Forall (fun '(p, s) => exists c, part p a = Some c /\ sound (adtype c) (logical c) s) (fst (run h a t)) /\
  caches_true a (snd (run h a t)).
Proof.
  intros f a W Hk. induction h as [|[p q] h IH]; intros t C Q; [split; [constructor|exact C]|].
  inversion Q; subst. cbn [run]. destruct (ask_at_ok f q p a t W Hk C ltac:(assumption)) as [A B].
  destruct (ask_at p q a t) as [r t1]. cbn [fst snd] in *. destruct (IH t1 B ltac:(assumption)) as [A' B'].
  destruct (run h a t1) as [rs t2]. cbn [fst snd] in *. split; [|exact B'].
  destruct r as [s|]; [|exact A']. constructor; [apply A; reflexivity|exact A'].
Qed.
Print Assumptions answers_are_true.
Corollary answers_are_true_from_fresh : forall f a, wf f a -> hist_ok a ->
  forall h, Forall (fun '(p, q) => may_ask a p q) h ->
  Forall (fun '(p, s) => exists c, part p a = Some c /\ sound (adtype c) (logical c) s) (fst (run h a (fresh a))).
Proof. intros f a W Hk h Q. apply (answers_are_true f a W Hk h (fresh a)); [|exact Q]. apply (fresh_ok a f Hk W). Qed.

(** ** Nothing known is forgotten *)
Definition keeps (t t' : tree) : Prop :=
  forall p n k, node p t = Some n -> has_stat (own n) k = true ->
  exists n', node p t' = Some n' /\ has_stat (own n') k = true.
Lemma keeps_refl t : keeps t t.
Proof. intros p n k E H. exists n. auto. Qed.
Lemma keeps_trans t1 t2 t3 : keeps t1 t2 -> keeps t2 t3 -> keeps t1 t3.
Proof. intros A B p n k E H. destruct (A p n k E H) as (n2 & E2 & H2). exact (B p n2 k E2 H2). Qed.
Lemma keeps_node v v' o o' ks ks' : (forall k, has_stat o k = true -> has_stat o' k = true) -> Forall2 keeps ks ks' ->
  keeps (Node v o ks) (Node v' o' ks').
Proof.
  intros Ho Hk [|i p] n k E H; cbn [node kids] in *.
  - injection E as <-. eexists. split; [reflexivity|]. cbn [own] in *. apply Ho, H.
  - destruct (nth_error ks i) as [t1|] eqn:E1; [|discriminate].
    assert (exists t2, nth_error ks' i = Some t2 /\ keeps t1 t2) as (t2 & E2 & K).
    { revert i E1. clear -Hk. induction Hk as [|x y ks ks' Hxy Hk IH]; intros [|i] E1; try discriminate; cbn in *.
      - injection E1 as <-. eauto.
      - apply IH, E1. }
    rewrite E2. exact (K p n k E H).
Qed.
Lemma extend_has s n k : has_stat s k = true -> has_stat (extend s n) k = true.
Proof.
  destruct k; cbn; [destruct (s_bw n)|destruct (s_tz n)|destruct (s_const n)|destruct (s_sorted n)|destruct (s_strict n)
    |destruct (s_max n)|destruct (s_min n)|destruct (s_runs n)|destruct (s_true n)|destruct (s_nulls n)]; cbn; auto.
Qed.
Lemma Forall2_same {A} (R : A -> A -> Prop) l : (forall x, R x x) -> Forall2 R l l.
Proof. intros H. induction l; constructor; auto. Qed.

Lemma compute_keeps : forall a f k t, wf f a -> hist_ok a -> caches_true a t -> keeps t (snd (compute k a t)).
Proof.
  assert (forall k a t, leaf a \/ (exists d x n, a = AConst d x n) -> keeps t (snd (compute k a t))) as LF.
  { intros k a [v o ks] L.
    assert (exists s, snd (compute k a (Node v o ks)) = Node v o ks \/ snd (compute k a (Node v o ks)) = Node v (extend o s) ks) as (s & E).
    { destruct a; try (destruct L as [[]|(? & ? & ? & L)]; discriminate L); cbn [compute];
        (destruct (has_stat o k); [exists no_stats; left; reflexivity|destruct v; [exists no_stats; left; reflexivity|eexists; right; reflexivity]]). }
    destruct E as [->| ->]; [apply keeps_refl|]. apply keeps_node; [intros k0; apply extend_has|apply Forall2_same, keeps_refl]. }
  induction a as [n|o b n v|p l v|u w b v|u o b v IHo|ns fls n v IHfs|id st IHst|d x n|i vs o n fl IHi IHv|d cs IHcs
    |c vs IHc IHv|e vs v o n IHe IHv|p e r s IHe|e IHe|p l bw o n v q IHq|l v] using array_ind'; intros f k t W Hk C;
    try (apply LF; left; exact I).
  - apply LF. right. eauto.
  - destruct t as [vw ow ks]. destruct Hk as (_ & _ & _ & Hcs). apply (proj1 (hist_ok_chunks cs)) in Hcs.
    destruct (has_stat ow k) eqn:E; [cbn [compute]; rewrite E; apply keeps_refl|]. rewrite compute_chunked by exact E.
    destruct C as [_ C]. apply caches_chunks in C. cbn [wf] in W. destruct W as (W & _). apply wf_chunks_iff in W.
    assert (Forall2 keeps ks (compute_all k cs ks)) as K.
    { revert IHcs Hcs W. clear -C. induction C as [|c tc cs ks Hc C IH]; intros IHcs Hcs W; [constructor|].
      inversion IHcs as [|? ? I1 I2]; inversion Hcs as [|? ? H1 H2]; inversion W as [|? ? W1 W2]; subst. cbn [compute_all].
      constructor; [apply (I1 f k tc (proj1 W1) H1 Hc)|apply IH; assumption]. }
    cbv zeta. destruct vw; cbn [snd]; apply keeps_node; auto. intros k0. apply extend_has.
  - destruct t as [vw ow ks]. destruct W as (Wc & Wv & _). destruct Hk as (Hc & Hv & _).
    destruct (has_stat ow k) eqn:E; [cbn [compute]; rewrite E; apply keeps_refl|].
    destruct C as [_ C]. destruct ks as [|tc [|tv [|]]]; try contradiction. destruct C as [Cc Cv].
    assert (forall k t, caches_true c t -> caches_true c (snd (compute k c t)) /\ keeps t (snd (compute k c t))) as JC
      by (intros k0 t0 H0; split; [apply (compute_ok c f k0 t0 Wc Hc H0)|apply (IHc f k0 t0 Wc Hc H0)]).
    assert (forall k t, caches_true vs t -> caches_true vs (snd (compute k vs t)) /\ keeps t (snd (compute k vs t))) as JV
      by (intros k0 t0 H0; split; [apply (compute_ok vs f k0 t0 Wv Hv H0)|apply (IHv f k0 t0 Wv Hv H0)]).
    cbn [compute]. rewrite E.
    pose proof (JC KRuns tc Cc) as [D1 K1]. destruct (compute KRuns c tc) as [c1 tc1]. cbn [fst snd] in *.
    pose proof (JV KMin tv Cv) as [D2 K2]. destruct (compute KMin vs tv) as [v1 tv1]. cbn [fst snd] in *.
    pose proof (JV KMax tv1 D2) as [D3 K3]. destruct (compute KMax vs tv1) as [v2 tv2]. cbn [fst snd] in *.
    pose proof (JC KConst tc1 D1) as [D4 K4]. destruct (compute KConst c tc1) as [c2 tc2]. cbn [fst snd] in *.
    pose proof (JC KNulls tc2 D4) as [D5 K5]. destruct (compute KNulls c tc2) as [c3 tc3]. cbn [fst snd] in *.
    pose proof (JV KSorted tv2 D3) as [D6 K6]. destruct (compute KSorted vs tv2) as [v3 tv3]. cbn [fst snd] in *.
    set (srt := match s_sorted v3 with Some b => b | None => false end).
    assert (forall t, caches_true c t -> forall k0,
      caches_true c (snd (if srt then compute k0 c t else (no_stats, t))) /\
      keeps t (snd (if srt then compute k0 c t else (no_stats, t)))) as JS.
    { intros t Ht k0. destruct srt; [apply JC; exact Ht|]. split; [exact Ht|apply keeps_refl]. }
    pose proof (JS tc3 D5 KSorted) as [D7 K7]. destruct (if srt then compute KSorted c tc3 else (no_stats, tc3)) as [c4 tc4]. cbn [fst snd] in *.
    pose proof (JS tc4 D7 KStrict) as [D8 K8]. destruct (if srt then compute KStrict c tc4 else (no_stats, tc4)) as [c5 tc5]. cbn [fst snd] in *.
    assert (Forall2 keeps [tc; tv] [tc5; tv3]) as K.
    { constructor; [|constructor; [|constructor]].
      - repeat (eapply keeps_trans; [eassumption|]). apply keeps_refl.
      - repeat (eapply keeps_trans; [eassumption|]). apply keeps_refl. }
    destruct vw; cbn [snd]; apply keeps_node; auto. intros k0. apply extend_has.
Qed.
Lemma send_keeps : forall a t, caches_true a t -> keeps t (send a t).
Proof.
  induction a as [n|o b n v|p l v|u w b v|u o b v IHo|ns fls n v IHfs|id st IHst|d x n|i vs o n fl IHi IHv|d cs IHcs
    |c vs IHc IHv|e vs v o n IHe IHv|p e r s IHe|e IHe|p l bw o n v q IHq|l v] using array_ind'; intros [vw ow ks] C;
    cbn [send]; (apply keeps_node; [intros k; rewrite (proj2 (proj2 (proj2 (proj2 (proj2 (proj2 (proj2 (proj2 (proj2 (proj2 (stats_travel _ ow))))))))))); auto|]);
    try (apply Forall2_same, keeps_refl).
  - destruct C as [_ C]. apply caches_chunks in C. fold send_all.
    induction C as [|c tc cs ks Hc C IH]; [constructor|]. inversion IHcs; subst. cbn [send_all]. constructor; auto.
  - destruct C as [_ C]. destruct ks as [|tc [|tv [|]]]; try contradiction. destruct C. repeat constructor; auto.
Qed.
Lemma keeps_set i t t' ks v o : nth_error ks i = Some t -> keeps t t' -> keeps (Node v o ks) (Node v o (set_nth i t' ks)).
Proof.
  intros E K. apply keeps_node; [auto|]. revert i E. induction ks as [|x ks IH]; intros [|i] E; try discriminate; cbn in *.
  - injection E as ->. constructor; [exact K|apply Forall2_same, keeps_refl].
  - constructor; [apply keeps_refl|apply IH, E].
Qed.
Lemma ask_at_keeps f q : forall p a t, wf f a -> hist_ok a -> caches_true a t -> keeps t (snd (ask_at p q a t)).
Proof.
  induction p as [|i p IH]; intros a t W Hk C.
  - cbn [ask_at]. destruct q as [k| |k|s| |]; cbn [ask]; try apply keeps_refl.
    + pose proof (compute_keeps a f k t W Hk C) as K. destruct (compute k a t). exact K.
    + destruct t as [[] o ks]; [apply keeps_refl|]. apply keeps_node; [intros k; apply extend_has|apply Forall2_same, keeps_refl].
    + apply send_keeps, C.
    + destruct t as [v o ks]. apply keeps_node; [auto|apply Forall2_same, keeps_refl].
  - cbn [ask_at]. destruct t as [v o ks]. cbn [kids is_view own].
    destruct (nth_error (children a) i) as [c|] eqn:E1; [|apply keeps_refl].
    destruct (nth_error ks i) as [tc|] eqn:E2; [|apply keeps_refl].
    destruct (child_ok f a v o ks i c tc W Hk C E1 E2) as (Wc & Hc & Cc & _).
    pose proof (IH c tc Wc Hc Cc) as K. destruct (ask_at p q c tc) as [r tc']. cbn [snd] in *. eapply keeps_set; eassumption.
Qed.
(** C54. A statistic that some part knows is known to that part for ever, messages included. *)
Theorem known_statistics_stay_known : forall f a, wf f a -> hist_ok a ->
  forall h t, caches_true a t -> Forall (fun '(p, q) => may_ask a p q) h ->
  forall p n k, node p t = Some n -> has_stat (own n) k = true ->
  exists n', node p (snd (run h a t)) = Some n' /\ has_stat (own n') k = true.
Proof.
  intros f a W Hk. change (forall h t, caches_true a t -> Forall (fun '(p, q) => may_ask a p q) h -> keeps t (snd (run h a t))).
  induction h as [|[p q] h IH]; intros t C Q; [apply keeps_refl|]. inversion Q; subst. cbn [run].
  pose proof (ask_at_keeps f q p a t W Hk C) as K. destruct (ask_at_ok f q p a t W Hk C ltac:(assumption)) as [_ B].
  destruct (ask_at p q a t) as [r t1]. cbn [fst snd] in *. specialize (IH t1 B ltac:(assumption)).
  destruct (run h a t1) as [rs t2]. cbn [snd] in *. eapply keeps_trans; eassumption.
Qed.

(** ** Answers given at different times agree *)
Lemma least_unique d l x y : ordered d = true -> Forall (vtyped d) l -> is_least d l x -> is_least d l y -> x = y.
Proof.
  intros Ho T. pose proof (elem_nn d l Ho T) as El. unfold is_least. destruct (nn l) as [|z r]; [congruence|].
  intros [I1 L1] [I2 L2]. rewrite Forall_forall in El. specialize (L1 y I2). specialize (L2 x I1).
  apply (vle_cases d x y (El _ I1) (El _ I2)) in L1. destruct L1 as [L1|L1]; [|exact L1].
  exfalso. apply (vlt_not_vle d x y (El _ I1) (El _ I2) L1 L2).
Qed.
Lemma greatest_unique d l x y : ordered d = true -> Forall (vtyped d) l -> is_greatest d l x -> is_greatest d l y -> x = y.
Proof.
  intros Ho T. pose proof (elem_nn d l Ho T) as El. unfold is_greatest. destruct (nn l) as [|z r]; [congruence|].
  intros [I1 L1] [I2 L2]. rewrite Forall_forall in El. specialize (L1 y I2). specialize (L2 x I1).
  apply (vle_cases d y x (El _ I2) (El _ I1)) in L1. destruct L1 as [L1|L1]; [|symmetry; exact L1].
  exfalso. apply (vlt_not_vle d y x (El _ I2) (El _ I1) L1 L2).
Qed.
Definition agree {A} (x y : option A) : Prop := forall u w, x = Some u -> y = Some w -> u = w.
Theorem true_answers_agree : forall d l s1 s2, sound d l s1 -> sound d l s2 ->
  agree (s_nulls s1) (s_nulls s2) /\ agree (s_true s1) (s_true s2) /\ agree (s_sorted s1) (s_sorted s2) /\
  (ordered d = true -> Forall (vtyped d) l ->
   agree (option_map snd (s_min s1)) (option_map snd (s_min s2)) /\ agree (option_map snd (s_max s1)) (option_map snd (s_max s2))).
Proof.
  intros d l s1 s2 [] []. split; [|split; [|split]].
  - intros u w E1 E2. rewrite E1 in *. rewrite E2 in *. cbn in *. congruence.
  - intros u w E1 E2. rewrite E1 in *. rewrite E2 in *. cbn in *. congruence.
  - intros u w E1 E2. rewrite E1 in *. rewrite E2 in *. cbn in *. destruct u, w; try reflexivity; exfalso;
      match goal with A : false = false -> ~ _, B : true = true -> _ |- _ => exact (A eq_refl (B eq_refl)) end.
  - intros Ho T. split; intros u w E1 E2.
    + destruct (s_min s1), (s_min s2); try discriminate. cbn in *. injection E1 as <-. injection E2 as <-.
      eapply least_unique; eassumption.
    + destruct (s_max s1), (s_max s2); try discriminate. cbn in *. injection E1 as <-. injection E2 as <-.
      eapply greatest_unique; eassumption.
Qed.
(** C54. Two histories over the same array, from whatever true statistics, give the same null counts, true counts,
    sortedness and extrema of the same part. *)
Theorem histories_agree : forall f a, wf f a -> hist_ok a ->
  forall h1 t1 h2 t2, caches_true a t1 -> caches_true a t2 ->
  Forall (fun '(p, q) => may_ask a p q) h1 -> Forall (fun '(p, q) => may_ask a p q) h2 ->
  forall p s1 s2, In (p, s1) (fst (run h1 a t1)) -> In (p, s2) (fst (run h2 a t2)) ->
  agree (s_nulls s1) (s_nulls s2) /\ agree (s_true s1) (s_true s2) /\ agree (s_sorted s1) (s_sorted s2) /\
  (forall c, part p a = Some c -> ordered (adtype c) = true -> Forall (vtyped (adtype c)) (logical c) ->
   agree (option_map snd (s_min s1)) (option_map snd (s_min s2)) /\ agree (option_map snd (s_max s1)) (option_map snd (s_max s2))).
Proof.
  intros f a W Hk h1 t1 h2 t2 C1 C2 Q1 Q2 p s1 s2 I1 I2.
  destruct (answers_are_true f a W Hk h1 t1 C1 Q1) as [A1 _]. destruct (answers_are_true f a W Hk h2 t2 C2 Q2) as [A2 _].
  rewrite Forall_forall in A1, A2. specialize (A1 _ I1). specialize (A2 _ I2). cbn in A1, A2.
  destruct A1 as (c & P1 & S1), A2 as (c' & P2 & S2). rewrite P1 in P2. injection P2 as <-.
  destruct (true_answers_agree _ _ _ _ S1 S2) as (X & Y & Z & E). split; [exact X|]. split; [exact Y|]. split; [exact Z|].
  intros c' P'. rewrite P1 in P'. injection P' as <-. exact E.
Qed.
Print Assumptions known_statistics_stay_known.
Print Assumptions histories_agree.

(** Non-vacuity: a chunked array of a primitive and a dictionary; the second chunk is asked first, the array travels, is
    asked as a view, becomes owned and is asked again. *)
Definition ex_hist : array :=
  AChunked (DPrim I32 true)
    [APrim I32 [3; 0; 5]%Z (VBits [true; false; true]);
     ADict (APrim U8 [1; 0; 1]%Z VNonNull) (APrim I32 [8; 12]%Z VAllValid)].
Example ex_hist_ok : wf f0 ex_hist /\ hist_ok ex_hist /\ caches_true ex_hist (fresh ex_hist) /\
  let h := [([1], Compute KMax); ([], Compute KNulls); ([0], Put (Stats None None None None None None None None None (Some 1)));
            ([], Send); ([], Get KMax); ([1], Thaw); ([1], Compute KSorted); ([0], ToSet)] in
  Forall (fun '(p, q) => may_ask ex_hist p q) h /\
  map (fun '(p, s) => (p, option_map snd (s_max s), s_nulls s, s_sorted s)) (fst (run h ex_hist (fresh ex_hist))) =
  [([1], Some (VInt 12), None, None); ([], None, Some 1, None); ([], Some (VInt 12), None, None);
   ([1], None, None, Some false); ([0], Some (VInt 5), Some 1, Some true)].
Proof.
  assert (wf f0 ex_hist /\ hist_ok ex_hist) as [W Hk].
  { split.
    - unfold ex_hist. cbn. unfold in_range. cbn.
      repeat match goal with |- _ /\ _ => split | |- Forall _ _ => constructor | |- exists _, _ => eexists end;
        try lia; try reflexivity; try discriminate; auto; intros; discriminate.
    - unfold ex_hist. cbn. split; [reflexivity|].
      split; [repeat constructor; intros H; discriminate H|].
      split; [exists false; constructor; [split; discriminate|constructor; [split; discriminate|constructor]]|].
      split; [repeat constructor; intros H; discriminate H|].
      split; [|exact I].
      split; [repeat constructor; intros H; discriminate H|].
      split; [repeat constructor; intros H; discriminate H|].
      split; [exact I|]. split; [reflexivity|].
      split; [repeat constructor; cbn; intuition discriminate|].
      split; [cbn; intuition discriminate|].
      split; [cbn; intuition congruence|discriminate]. }
  split; [exact W|]. split; [exact Hk|]. split; [apply (fresh_ok _ f0 Hk W)|]. split; [|vm_compute; reflexivity].
  repeat constructor; intros; try exact I; cbn in H; injection H as <-; try (constructor; cbn; exact I); try reflexivity; discriminate.
Qed.

(** A view stores nothing, and merging looks only at what the chunks have stored: asked of an array read from a message
    whose chunks carry no statistics, a chunked array never answers, where the owned array does. *)
Theorem chunked_view_never_answers_refuted : exists a, wf f0 a /\ hist_ok a /\
  has_stat (fst (compute KMax a (fresh a))) KMax = true /\
  has_stat (fst (compute KMax a (send a (fresh a)))) KMax = false.
Proof.
  exists (AChunked (DPrim I32 true) [APrim I32 [3; 5]%Z VAllValid]).
  split; [cbn; unfold in_range; cbn; repeat match goal with |- _ /\ _ => split | |- Forall _ _ => constructor end; try lia; try reflexivity; auto; intros; discriminate|].
  split; [|split; reflexivity]. cbn. split; [reflexivity|]. split; [repeat constructor; intros H; discriminate H|].
  split; [exists false; constructor; [split; discriminate|constructor]|].
  split; [repeat constructor; intros H; discriminate H|exact I].
Qed.

(** ** Owned arrays answer *)
(** Null count, run count, extrema and constancy. *)
Definition basic (k : stat) : Prop := k = KNulls \/ k = KRuns \/ k = KMin \/ k = KMax \/ k = KConst.
(** Non-empty primitive and string arrays, null arrays, dictionaries of such, and chunks of such (nested). *)
Fixpoint answering (a : array) : Prop :=
  match a with
  | ANull _ => True
  | APrim _ l _ => l <> []
  | AView _ _ _ _ | AVarBin _ _ _ _ => logical a <> []
  | ADict c v => answering c /\ answering v
  | AChunked _ cs => cs <> [] /\ (fix go (l : list array) : Prop := match l with [] => True | c :: r => answering c /\ go r end) cs
  | _ => False
  end.
(** No part is read in place from a message (each has a cache of its own). *)
Fixpoint all_owned (a : array) (t : tree) {struct a} : Prop :=
  match t with
  | Node v o ks =>
      v = false /\
      match a with
      | AChunked _ cs =>
          (fix go (cs : list array) (ts : list tree) : Prop :=
             match cs, ts with [], [] => True | c :: cs', t :: ts' => all_owned c t /\ go cs' ts' | _, _ => False end) cs ks
      | ADict codes vals => match ks with [tc; tv] => all_owned codes tc /\ all_owned vals tv | _ => False end
      | _ => True
      end
  end.
Lemma extend_new_has o s k : has_stat s k = true -> has_stat (extend o s) k = true.
Proof. destruct o, s. destruct k; cbn; unfold has, or_else; match goal with |- context [match ?x with _ => _ end] => destruct x; try discriminate; auto end. Qed.
Lemma merge_has d k s1 s2 : basic k -> has_stat s1 k = true -> has_stat s2 k = true -> has_stat (merge d s1 s2) k = true.
Proof.
  intros [->|[->|[->|[->| ->]]]]; unfold has_stat, merge; cbn; unfold has, merge_sum, merge_ordered, merge_const; intros A B.
  - destruct (s_nulls s1), (s_nulls s2); try discriminate; reflexivity.
  - destruct (s_runs s1), (s_runs s2); try discriminate; reflexivity.
  - destruct (s_min s1), (s_min s2); try discriminate. destruct (lt_scalar d s0 s); reflexivity.
  - destruct (s_max s1), (s_max s2); try discriminate. destruct (lt_scalar d s s0); reflexivity.
  - destruct (s_const s1), (s_const s2); try discriminate. destruct (b && b0 && opt_scalar_eqb d (s_min s1) (s_min s2)); reflexivity.
Qed.
Lemma merge_all d k r : basic k -> forall s, has_stat s k = true -> Forall (fun s => has_stat s k = true) r -> has_stat (fold_left (merge d) r s) k = true.
Proof. intros B. induction r as [|x r IH]; intros s A F; [exact A|]. inversion F; subst. cbn [fold_left]. apply IH; [apply merge_has; assumption|assumption]. Qed.
Lemma prim_finish_has p c k : basic k -> has_stat (pacc_finish p c) k = true.
Proof. intros [->|[->|[->|[->| ->]]]]; reflexivity. Qed.
Lemma str_finish_has n c k : basic k -> has_stat (sacc_finish n c) k = true.
Proof. intros [->|[->|[->|[->| ->]]]]; reflexivity. Qed.
Lemma nulls_has n d k : basic k -> has_stat (nulls_stats n d) k = true.
Proof. intros [->|[->|[->|[->| ->]]]]; reflexivity. Qed.
Lemma prim_has p l v k : basic k -> l <> [] -> has_stat (prim_stats p l v) k = true.
Proof.
  intros B NE. unfold prim_stats. destruct (to_logical v (length l)) as [|n|m].
  - unfold prim_stats_valid. destruct l; [congruence|]. apply prim_finish_has, B.
  - apply nulls_has, B.
  - unfold prim_stats_nullable. destruct l; [congruence|]. destruct (first_true m); [apply prim_finish_has, B|apply nulls_has, B].
Qed.
Lemma str_has d k l : basic k -> l <> [] -> has_stat (str_stats d l) k = true.
Proof.
  intros B NE. unfold str_stats. destruct l as [|x l]; [congruence|]. generalize 0. generalize (x :: l). clear - B.
  intros l. induction l as [|[s|] r IH]; intros n; cbn [str_stats_go]; [apply nulls_has, B|apply str_finish_has, B|apply IH].
Qed.
Lemma owned_any k a t : all_owned a t -> all_owned a (snd (compute k a t)).
Proof.
  revert k t. induction a as [n|o b n v|p l v|u w b v|u o b v IHo|ns fls n v IHfs|id st IHst|d x n|i vs o n fl IHi IHv|d cs IHcs
    |c vs IHc IHv|e vs v o n IHe IHv|p e r s IHe|e IHe|p l bw o n v q IHq|l v] using array_ind'; intros k [vw ow ks] O';
    pose proof O' as O; cbn [all_owned] in O; destruct O as [-> O]; cbn [compute];
    (destruct (has_stat ow k) eqn:E; [exact O'|]); try (split; [reflexivity|exact I]).
  - split; [reflexivity|]. clear E O'. revert ks O. induction IHcs as [|c r Hc Hr IH]; intros ks O.
    + destruct ks; [exact I|contradiction].
    + destruct ks as [|t ks]; [contradiction|]. destruct O as [O1 O2]. split; [apply Hc, O1|apply IH, O2].
  - destruct ks as [|tc [|tv [|? ?]]]; try contradiction. destruct O as [Oc Ov].
    pose proof (IHc KRuns tc Oc) as O1. destruct (compute KRuns c tc) as [c1 tc1]. cbn [fst snd] in *.
    pose proof (IHv KMin tv Ov) as O2. destruct (compute KMin vs tv) as [v1 tv1]. cbn [fst snd] in *.
    pose proof (IHv KMax tv1 O2) as O3. destruct (compute KMax vs tv1) as [v2 tv2]. cbn [fst snd] in *.
    pose proof (IHc KConst tc1 O1) as O4. destruct (compute KConst c tc1) as [c2 tc2]. cbn [fst snd] in *.
    pose proof (IHc KNulls tc2 O4) as O5. destruct (compute KNulls c tc2) as [c3 tc3]. cbn [fst snd] in *.
    pose proof (IHv KSorted tv2 O3) as O6. destruct (compute KSorted vs tv2) as [v3 tv3]. cbn [fst snd] in *.
    set (srt := match s_sorted v3 with Some b => b | None => false end).
    assert (all_owned c (snd (if srt then compute KSorted c tc3 else (no_stats, tc3)))) as O7 by (destruct srt; [apply IHc|]; exact O5).
    destruct (if srt then compute KSorted c tc3 else (no_stats, tc3)) as [c4 tc4]. cbn [snd] in O7.
    assert (all_owned c (snd (if srt then compute KStrict c tc4 else (no_stats, tc4)))) as O8 by (destruct srt; [apply IHc|]; exact O7).
    destruct (if srt then compute KStrict c tc4 else (no_stats, tc4)) as [c5 tc5]. cbn [snd] in O8.
    split; [reflexivity|split; assumption].
Qed.
Theorem owned_arrays_answer : forall k a t, basic k -> answering a -> all_owned a t ->
  has_stat (fst (compute k a t)) k = true /\ has_stat (own (snd (compute k a t))) k = true /\ all_owned a (snd (compute k a t)).
Proof.
  intros k a. revert k.
  assert (forall k (s : stats) o ks, has_stat s k = true ->
     has_stat (extend o s) k = true /\ has_stat (own (Node false (extend o s) ks)) k = true) as FIN.
  { intros k s o ks H. split; apply extend_new_has, H. }
  induction a as [n|o b n v|p l v|u w b v|u o b v IHo|ns fls n v IHfs|id st IHst|d x n|i vs o n fl IHi IHv|d cs IHcs
    |c vs IHc IHv|e vs v o n IHe IHv|p e r s IHe|e IHe|p l bw o n v q IHq|l v] using array_ind'; intros k [vw ow ks] B A O;
    cbn [answering] in A; try contradiction; pose proof O as O'; cbn [all_owned] in O; destruct O as [-> O]; cbn [compute];
    (destruct (has_stat ow k) eqn:E; [split; [exact E|split; [exact E|exact O']]|]).
  - destruct (FIN k (nulls_stats n DNull) ow ks (nulls_has _ _ _ B)). split; [assumption|]. split; [assumption|]. split; [reflexivity|exact I].
  - destruct (FIN k (prim_stats p l v) ow ks (prim_has _ _ _ _ B A)). split; [assumption|]. split; [assumption|]. split; [reflexivity|exact I].
  - assert (str_opts (logical (AView u w b v)) <> []) as NE by (intros X; apply map_eq_nil in X; congruence).
    destruct (FIN k (stats_after k (AView u w b v)) ow ks (str_has _ _ _ B NE)). split; [assumption|]. split; [assumption|]. split; [reflexivity|exact I].
  - assert (str_opts (logical (AVarBin u o b v)) <> []) as NE by (intros X; apply map_eq_nil in X; congruence).
    destruct (FIN k (stats_after k (AVarBin u o b v)) ow ks (str_has _ _ _ B NE)). split; [assumption|]. split; [assumption|]. split; [reflexivity|exact I].
  - destruct A as [NE A].
    set (go := fix go (cs : list array) (ts : list tree) : list tree :=
                          match cs, ts with c :: cs', t :: ts' => snd (compute k c t) :: go cs' ts' | _, _ => [] end).
    set (ow' := fix go (cs : list array) (ts : list tree) : Prop :=
             match cs, ts with [], [] => True | c :: cs', t :: ts' => all_owned c t /\ go cs' ts' | _, _ => False end) in *.
    assert (Forall (fun s => has_stat s k = true) (map own (go cs ks)) /\ ow' cs (go cs ks) /\ length (go cs ks) = length cs) as (F & K & L).
    { clear NE E O'. revert ks O A. induction IHcs as [|c r Hc Hr IH]; intros ks O A.
      - destruct ks; [|contradiction]. cbn. split; [constructor|]. split; [exact I|reflexivity].
      - destruct ks as [|t ks]; [contradiction|]. destruct O as [O1 O2]. destruct A as [A1 A2]. destruct (Hc k t B A1 O1) as (_ & X & Y).
        destruct (IH ks O2 A2) as (F & K & L). split; [constructor; assumption|]. split; [split; assumption|cbn; f_equal; exact L]. }
    destruct (map own (go cs ks)) as [|s r] eqn:EM.
    { apply (f_equal (@length stats)) in EM. rewrite map_length, L in EM. destruct cs; [congruence|discriminate]. }
    inversion F; subst. destruct (FIN k (fold_left (merge d) r s) ow (go cs ks)) as [F1 F2]; [apply merge_all; assumption|].
    split; [exact F1|]. split; [exact F2|]. split; [reflexivity|exact K].
  - destruct A as [Ac Av]. destruct ks as [|tc [|tv [|? ?]]]; try contradiction. destruct O as [Oc Ov].
    pose proof (IHc KRuns tc ltac:(unfold basic; tauto) Ac Oc) as (R1 & _ & O1). destruct (compute KRuns c tc) as [c1 tc1]. cbn [fst snd] in *.
    pose proof (IHv KMin tv ltac:(unfold basic; tauto) Av Ov) as (R2 & _ & O2). destruct (compute KMin vs tv) as [v1 tv1]. cbn [fst snd] in *.
    pose proof (IHv KMax tv1 ltac:(unfold basic; tauto) Av O2) as (R3 & _ & O3). destruct (compute KMax vs tv1) as [v2 tv2]. cbn [fst snd] in *.
    pose proof (IHc KConst tc1 ltac:(unfold basic; tauto) Ac O1) as (R4 & _ & O4). destruct (compute KConst c tc1) as [c2 tc2]. cbn [fst snd] in *.
    pose proof (IHc KNulls tc2 ltac:(unfold basic; tauto) Ac O4) as (R5 & _ & O5). destruct (compute KNulls c tc2) as [c3 tc3]. cbn [fst snd] in *.
    pose proof (owned_any KSorted vs tv2 O3) as O6. destruct (compute KSorted vs tv2) as [v3 tv3]. cbn [fst snd] in *.
    set (srt := match s_sorted v3 with Some b => b | None => false end).
    assert (all_owned c (snd (if srt then compute KSorted c tc3 else (no_stats, tc3)))) as O7 by (destruct srt; [apply owned_any|]; exact O5).
    destruct (if srt then compute KSorted c tc3 else (no_stats, tc3)) as [c4 tc4]. cbn [snd] in O7.
    assert (all_owned c (snd (if srt then compute KStrict c tc4 else (no_stats, tc4)))) as O8 by (destruct srt; [apply owned_any|]; exact O7).
    destruct (if srt then compute KStrict c tc4 else (no_stats, tc4)) as [c5 tc5]. cbn [snd] in O8.
    cbv beta iota zeta. cbn [fst snd own]. match goal with |- context [extend ow ?s] => destruct (FIN k s ow [tc5; tv3]) as [F1 F2] end.
    { destruct B as [->|[->|[->|[->| ->]]]]; assumption. }
    split; [exact F1|]. split; [exact F2|]. split; [reflexivity|split; assumption].
Qed.
Print Assumptions owned_arrays_answer.
(** A freshly built array is owned throughout. *)
Theorem fresh_is_owned : forall a, all_owned a (fresh a).
Proof.
  induction a as [n|o b n v|p l v|u w b v|u o b v IHo|ns fls n v IHfs|id st IHst|d x n|i vs o n fl IHi IHv|d cs IHcs
    |c vs IHc IHv|e vs v o n IHe IHv|p e r s IHe|e IHe|p l bw o n v q IHq|l v] using array_ind'; (split; [reflexivity|]); try exact I.
  - induction IHcs; [exact I|split; assumption].
  - split; assumption.
Qed.
(** A flat array answers also when it is read in place from a message. *)
Definition flat_part (a : array) : Prop := match a with ANull _ | APrim _ _ _ | AView _ _ _ _ | AVarBin _ _ _ _ => True | _ => False end.
Theorem views_of_flat_arrays_answer : forall k a t, basic k -> answering a -> flat_part a -> has_stat (fst (compute k a t)) k = true.
Proof.
  intros k a [v o ks] B A F.
  destruct a as [n|o' b n w|p l w|u ws b w|u o' b w|ns fls n w|id st|d x n|i vs o' n fl|d cs|c vs|e vs w o' n|p e r s|e|p l bw o' n w q|l w]; try contradiction;
    cbn [compute]; (destruct (has_stat o k) eqn:E; [exact E|]);
    match goal with |- context [stats_after k ?a] => assert (has_stat (stats_after k a) k = true) as X end;
    try (destruct v; [exact X|apply extend_new_has, X]).
  - apply nulls_has, B.
  - apply prim_has; assumption.
  - apply str_has; [exact B|]. intros X. apply map_eq_nil in X. contradiction.
  - apply str_has; [exact B|]. intros X. apply map_eq_nil in X. contradiction.
Qed.
(** The answer to a query is about the statistic that was asked. *)
Theorem asked_and_answered : forall k a t, basic k -> answering a -> (all_owned a t \/ flat_part a) ->
  exists s, fst (ask (Compute k) a t) = Some s /\ has_stat s k = true /\ forall k', k' <> k -> has_stat s k' = false.
Proof.
  intros k a t B A O. assert (has_stat (fst (compute k a t)) k = true) as X.
  { destruct O as [O|O]; [apply owned_arrays_answer; assumption|apply views_of_flat_arrays_answer; assumption]. }
  cbn [ask]. destruct (compute k a t) as [s t']. cbn [fst] in *. exists (pick k s). split; [reflexivity|].
  split; [destruct k; exact X|]. intros k' NE. destruct k, k'; try reflexivity; congruence.
Qed.
Print Assumptions asked_and_answered.
Example answering_demo :
  let a := AChunked (DPrim I32 true) [APrim I32 [3; 5]%Z VAllValid; ADict (APrim U8 [0; 0]%Z VNonNull) (APrim I32 [7]%Z VAllValid)] in
  answering a /\ all_owned a (fresh a) /\ s_nulls (fst (compute KNulls a (fresh a))) = Some 0.
Proof. cbn. repeat split; discriminate. Qed.
