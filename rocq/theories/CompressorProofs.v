(** Proofs about the sampling compressor: the single encodings. *)
From Verif Require Import Base Spec SearchModel Arr ArrRead ArrWf ArrReadProofs ArrSlice ArrSliceProofs ValidityModel PropValidity StatsModel StatsProofs
  StatsProofs2 StatsProofs3 PropStats ArrOps OpsBase OpsFlat OpsSparse IntEnc RunEnc DictEnc PropIntEnc PropRunEnc PropDict PropRead Compressor CompressorSpec.

Local Notation g := decodable.

Definition ixl (a : array) : Prop :=
  ss_ok a /\ match a with APrim p _ v => is_unsigned p = true /\ (v = VNonNull \/ v = VAllValid) | _ => True end.
Definition shape (a b : array) : Prop :=
  match a with
  | ASparse idx vals off len fill =>
      exists i x, b = ASparse i x off len fill /\ logical i = logical idx /\ logical x = logical vals /\ adtype x = adtype vals /\ (ixl vals -> ss_ok x)
  | _ => True
  end.
Definition same (a b : array) : Prop := wf g b /\ logical b = logical a /\ adtype b = adtype a /\ (ixl a -> ss_ok b) /\ shape a b.
Definition good (h : array -> result array) (a : array) : Prop := exists b, h a = Ok b /\ same a b.
Definition not_struct (d : dtype) : Prop := match d with DStruct _ _ _ => False | _ => True end.
Section Mode.
Context {md : mode}.
Definition ok_on (n : nat) (h : array -> result array) : Prop :=
  forall e, wf g e -> input_ok e -> not_struct (adtype e) -> alen e <= S n -> (Z.of_nat (sbytes e) <= pmax I32)%Z -> good h e.
End Mode.

Lemma same_refl a : wf g a -> same a a.
Proof.
  intros W. split; [exact W|]. split; [reflexivity|]. split; [reflexivity|]. split; [intros [H _]; exact H|].
  destruct a; try exact I. cbn [shape]. eexists _, _. split; [reflexivity|]. do 3 (split; [reflexivity|]). intros [H _]; exact H.
Qed.
Lemma good_keep a : wf g a -> good (fun x => Ok x) a.
Proof. intros W. exists a. split; [reflexivity|apply same_refl, W]. Qed.
Lemma same_alen a b : same a b -> alen b = alen a.
Proof. intros (_ & L & _). rewrite <- !logical_length, L. reflexivity. Qed.
Lemma fle_dec : fle g f_dec.
Proof. unfold fle; cbn. intuition. Qed.
Lemma fle_decr : fle g f_decr.
Proof. unfold fle; cbn. intuition. Qed.
Lemma wf_prim_any f h p l v : wf f (APrim p l v) -> wf h (APrim p l v).
Proof. intros H; exact H. Qed.
Lemma int_no_neg_zero p l : is_float p = false -> Forall (no_neg_zero p) l.
Proof. intros H. apply Forall_forall. intros z _ F. congruence. Qed.
Lemma unsigned_not_float p : is_unsigned p = true -> is_float p = false.
Proof. destruct p; cbn; congruence. Qed.
Lemma to_unsigned_not_float p : is_int p = true -> is_float (to_unsigned p) = false.
Proof. destruct p; cbn; congruence. Qed.

(** * Sizes *)
Lemma total_bytes_app a b : total_bytes (a ++ b) = total_bytes a + total_bytes b.
Proof. unfold total_bytes. rewrite map_app, list_sum_app. reflexivity. Qed.
Lemma str_opts_none l : Forall (fun x => match x with VBytes _ => False | _ => True end) l -> total_bytes (str_opts l) = 0.
Proof.
  induction 1 as [|x l Hx H IH]; [reflexivity|]. cbn [str_opts map]. unfold total_bytes in *. cbn [map].
  change (list_sum (?x :: ?r)) with (x + list_sum r). unfold str_opts in IH. rewrite IH. destruct x; (reflexivity || contradiction).
Qed.
(** Outside structs and extensions, the size is that of the strings. *)
Lemma sbytes_flat a : forall f, wf f a -> flat (adtype a) = true -> sbytes a = total_bytes (str_opts (logical a)).
Proof.
  induction a as [n|o b n v|p l v|u w b v|u o b v IHo|ns fls n v IHf|id st IHst|d x n|ix vs o n fl IHi IHv|d cs IHc
    |c vs IHc IHv|e vs v o n IHe IHv|p e r sh IHe|e IHe|p l bw o n v q IHq|l v] using array_ind'; intros f W F; try reflexivity; try discriminate F.
  cbn [wf] in W. destruct W as [W _]. apply wf_chunks_iff in W. cbn [adtype] in F. cbn [sbytes logical].
  revert W. induction IHc as [|c cs Hc H IH]; intros W; [reflexivity|]. inversion W as [|? ? [W1 W2] W3]; subst. cbn [map concat].
  change (list_sum (?x :: ?r)) with (x + list_sum r). unfold str_opts. rewrite map_app, total_bytes_app. f_equal; [apply (Hc f); auto|apply IH; exact W3].
Qed.
Lemma sbytes_prim f a : wf f a -> is_prim (adtype a) = true \/ is_bool (adtype a) = true -> sbytes a = 0.
Proof.
  intros W H. assert (flat (adtype a) = true) as F by (destruct H as [H|H]; destruct (adtype a); try discriminate; reflexivity).
  rewrite (sbytes_flat a f W F). apply str_opts_none. eapply Forall_impl; [|exact (vtyped_logical a f W)].
  intros x T. destruct x; auto. cbn in T. destruct H as [H|H]; destruct (adtype a); try discriminate; contradiction.
Qed.
Lemma sbytes_prim0 f a : wf f a -> is_prim (adtype a) = true \/ is_bool (adtype a) = true -> (Z.of_nat (sbytes a) <= pmax I32)%Z.
Proof. intros W H. rewrite (sbytes_prim f a W H). cbn. lia. Qed.
(** The strings of a VarBin array fit in its bytes. *)
Lemma sbytes_varbin u offs bytes v : wf g (AVarBin u offs bytes v) -> (Z.of_nat (sbytes (AVarBin u offs bytes v)) <= pmax I32)%Z.
Proof.
  intros W. cbn [wf] in W. destruct W as (_ & _ & L1 & SO & F & _ & _ & _ & HB & _). specialize (HB eq_refl).
  enough (sbytes (AVarBin u offs bytes v) <= length bytes) by (generalize dependent (pmax I32); intros; lia).
  cbn [sbytes logical]. set (ol := nats (ints (logical offs))).
  assert (forall i j, i <= j -> j < length ol -> nth i ol 0 <= nth j ol 0) as M.
  { intros i j Hij Hj. unfold ol, nats in *. rewrite map_length in Hj. rewrite !(map_nth_lt Z.to_nat _ 0%Z) by lia. pose proof (sortedZ_nth _ i j SO Hij Hj). lia. }
  assert (forall i, i < length ol -> nth i ol 0 <= length bytes) as B.
  { intros i Hi. unfold ol, nats in *. rewrite map_length in Hi. rewrite (map_nth_lt Z.to_nat _ 0%Z) by lia.
    pose proof (Forall_nth_lt _ _ 0%Z i F Hi) as X. cbv beta in X. lia. }
  assert (1 <= length ol) as L by (unfold ol; rewrite nats_length, ints_length, logical_length; exact L1).
  assert (forall n, n < length ol -> total_bytes (str_opts (tab n (fun i => if vvalid v i then VBytes (lslice bytes (nth i ol 0) (nth (i + 1) ol 0)) else VNull))) <= nth n ol 0) as G.
  { induction n as [|n IH]; intros Hn; [cbn; lia|]. unfold tab. rewrite seq_S, map_app. cbn [map Nat.add]. unfold str_opts. rewrite map_app, total_bytes_app.
    specialize (IH ltac:(lia)). unfold str_opts, tab in IH. pose proof (M n (S n) ltac:(lia) Hn).
    enough (total_bytes (map (fun x => match x with VBytes s => Some s | _ => None end) [if vvalid v n then VBytes (lslice bytes (nth n ol 0) (nth (n + 1) ol 0)) else VNull]) <= nth (S n) ol 0 - nth n ol 0) by lia.
    destruct (vvalid v n); [|cbn; lia]. unfold total_bytes. cbn [map]. change (list_sum [?x]) with (x + 0). rewrite lslice_length by (rewrite Nat.add_1_r; auto). rewrite Nat.add_1_r. lia. }
  specialize (G (length ol - 1) ltac:(lia)). specialize (B (length ol - 1) ltac:(lia)). lia.
Qed.

(** * Constant *)
Lemma bacc_const l c : bs_ok l -> bacc_ok l c -> s_const (bacc_finish c) = Some true -> exists x, Forall (eq x) l.
Proof.
  intros Bl [(k & Hk & P1 & P2 & P3) Hn Ht Hl]. cbn [bacc_finish s_const]. rewrite Hn, Ht, Hl. intros [= H].
  assert (nn l <> []) as NE by (destruct (k_prev _ _ _ Hk) as [pre ->]; destruct pre; discriminate).
  apply orb_true_iff in H. destruct H as [H|H].
  - apply andb_true_iff in H. destruct H as [H0 H]. apply Nat.eqb_eq in H0. apply orb_true_iff in H. destruct H as [H|H].
    + exists (VBool true). apply count_all_true; [exact Bl|]. apply Nat.eqb_eq, H.
    + exists (VBool false). apply Nat.eqb_eq in H. apply Forall_forall. intros x Hx.
      pose proof (count_zero _ _ H0 x Hx) as A. pose proof (count_zero _ _ H x Hx) as B.
      destruct (bs_in l x Bl Hx) as [->|[[] ->]]; try discriminate; reflexivity.
  - apply Nat.eqb_eq in H. pose proof (nn_length l). destruct (nn l); [congruence|]. cbn in *. lia.
Qed.
Lemma bool_stats_const (l : list bool) v (L : list value) :
  vwf v (length l) -> L = map voB (opts l (vbits v (length l))) -> s_const (bool_stats l v) = Some true -> exists x, Forall (eq x) L.
Proof.
  intros Hw HL. pose proof (validity_to_logical v (length l) Hw) as [HN HB].
  assert (bs_ok L) as BL.
  { subst L. apply Forall_forall. intros x Hx. apply in_map_iff in Hx. destruct Hx as ([b|] & <- & _); exact I. }
  assert (forall n, exists x, Forall (eq x) (repeat VNull n)) as RN.
  { intros n. exists VNull. apply Forall_forall. intros y Hy. apply repeat_spec in Hy. auto. }
  rewrite <- HB in HL. unfold bool_stats. destruct l as [|b0 l0]; [discriminate|].
  remember (b0 :: l0) as l eqn:El.
  destruct (to_logical v (length l)) as [n|n|m]; cbn [llen lbuf] in HN, HL.
  - subst n. rewrite opts_all, map_map in HL.
    apply bacc_const; [exact BL|].
    replace (fold_left bacc_next l0 (bacc_new b0)) with (fold_left bacc_nullable_next (map Some l0) (bacc_new b0)).
    + rewrite HL, El. change (map (fun x => voB (Some x)) (b0 :: l0)) with ([VBool b0] ++ map (fun x => voB (Some x)) l0).
      rewrite <- (map_map Some voB). apply bacc_fold_ok; [|apply bacc_new_ok].
      constructor; [exact I|constructor].
    + generalize (bacc_new b0). clear. induction l0 as [|x l IH]; intros c; [reflexivity|]. cbn. apply IH.
  - subst n. rewrite opts_none, map_repeat' in HL by reflexivity. rewrite HL. intros _. apply RN.
  - pose proof (first_true_spec m) as F. destruct (first_true m) as [k|].
    + destruct F as (A & B & C). apply bacc_const; [exact BL|].
      rewrite HL, (opts_split l m k false HN A B C) at 1. rewrite map_app, map_repeat'. cbn [map voB].
      replace (repeat VNull k ++ VBool (nth k l false) :: map voB (skipn (k + 1) (opts l m)))
        with ((repeat VNull k ++ [VBool (nth k l false)]) ++ map voB (skipn (k + 1) (opts l m))) by (rewrite <- app_assoc; reflexivity).
      apply bacc_fold_ok.
      * apply Forall_app. split; [|constructor; [exact I|constructor]]. apply Forall_forall. intros x Hx.
        apply repeat_spec in Hx. subst. exact I.
      * apply (bacc_nulls_ok [] [VBool (nth k l false)]). apply bacc_new_ok.
    + rewrite F, HN in HL. rewrite opts_none, map_repeat' in HL by reflexivity. rewrite HL. intros _. apply RN.
Qed.

Lemma const_stat_sound `{md : mode} a : wf g a -> input_ok a -> match a with AConst _ _ _ | AChunked _ _ | AStruct _ _ _ _ => False | _ => True end ->
  s_const (stats_after KConst a) = Some true -> (exists x, Forall (eq x) (logical a)) /\ flat (adtype a) = true /\ adtype a <> DNull.
Proof.
  intros W C K H.
  assert (st_ok KConst a -> exists x, Forall (eq x) (logical a)) as SS.
  { intros Ok. pose proof (so_const _ _ _ (stats_sound a g KConst W Ok)) as S. rewrite H in S. apply S. reflexivity. }
  destruct a as [n|o b n v|p l v|u w b v|u o b v|ns fls n v|id st|d x n|ix vs o n fl|d cs|c vs|e vs v o n|p e r sh|e|p l bw o n v q|l v];
    try contradiction; try discriminate H.
  - split; [|split; [reflexivity|discriminate]]. destruct W as (Ho & Hl & Hw). cbn [stats_after] in H.
    assert (length (lslice b o (o + n)) = n) as L by (rewrite lslice_length; lia).
    apply (bool_stats_const (lslice b o (o + n)) v); rewrite ?L; auto. apply logical_bool; assumption.
  - split; [|split; [reflexivity|discriminate]]. apply SS. cbn [st_ok adtype]. cbn [input_ok] in C. apply Forall_forall. intros x Hx. cbn [logical] in Hx.
    apply In_tab in Hx. destruct Hx as (i & Hi & ->). destruct (vvalid v i); [|exact I]. cbn [nice]. rewrite Forall_forall in C. apply C, nth_In, Hi.
  - split; [apply SS; exact I|]. cbn [adtype]. destruct u; split; try reflexivity; discriminate.
  - split; [apply SS; exact I|]. cbn [adtype]. destruct u; split; try reflexivity; discriminate.
  - cbn [input_ok] in C. destruct C as [C1 C2]. cbn [wf] in W. destruct W as (W1 & W2 & _ & _ & W5 & _). cbn [adtype]. split; [|auto].
    cbn [stats_after s_const] in H. pose proof (so_const _ _ _ (stats_sound c g KConst W1 C1)) as S. rewrite H in S. destruct (S eq_refl) as [x Hx].
    exists (nth (Z.to_nat (vint x)) (logical vs) VNull). cbn [logical]. rewrite Forall_map. eapply Forall_impl; [|exact Hx]. cbv beta. intros y <-. reflexivity.
  - split; [|split; [reflexivity|discriminate]]. destruct W as (Hb & Hw & _). cbn [stats_after] in H. destruct l as [|z l]; [discriminate H|]. remember (z :: l) as zl.
    apply (bool_stats_const (map (fun z => negb (z =? 0)%Z) zl) v); rewrite ?map_length; auto. apply logical_bytebool; assumption.
Qed.
Lemma const_all (x : value) l : Forall (eq x) l -> l = repeat x (length l).
Proof. induction 1 as [|y l <- H IH]; [reflexivity|]. cbn [length repeat]. f_equal. exact IH. Qed.
Lemma good_const `{md : mode} a : wf g a -> input_ok a -> alen a <> 0 -> good do_const a.
Proof.
  intros W C N.
  assert (match a with AConst _ _ _ | AChunked _ _ | AStruct _ _ _ _ => True | _ => s_const (stats_after KConst a) <> Some true end \/
    (match a with AConst _ _ _ | AChunked _ _ | AStruct _ _ _ _ => False | _ => True end /\ s_const (stats_after KConst a) = Some true)) as [K|[K H]].
  { destruct (s_const (stats_after KConst a)) as [[]|]; destruct a; auto; left; discriminate. }
  - exists a. split; [|apply same_refl, W]. unfold do_const. destruct a; try reflexivity; destruct (s_const _) as [[]|]; try reflexivity; contradiction K; reflexivity.
  - destruct (const_stat_sound a W C K H) as ((x & Hx) & Fl & Nn).
    destruct (scalar_at_is_the_element g a W) as (SA & _ & _). rewrite logical_length in SA. specialize (SA 0 ltac:(lia)).
    pose proof (const_all x _ Hx) as E. rewrite logical_length in E.
    assert (nth 0 (logical a) VNull = x) as Ex by (rewrite E; destruct (alen a); [lia|reflexivity]). rewrite Ex in SA.
    exists (AConst (adtype a) x (alen a)). split.
    { unfold do_const. destruct a; try contradiction; rewrite H, SA; reflexivity. }
    split.
    { cbn [wf]. split; [|auto]. pose proof (vtyped_logical a g W) as T. rewrite Forall_forall in T. apply T. rewrite <- Ex. apply nth_In. rewrite logical_length. lia. }
    split; [cbn [logical]; symmetry; exact E|]. split; [reflexivity|]. split; [intros _; exact I|].
    destruct a; try exact I. discriminate H.
Qed.

(** * Replacing parts by arrays with the same meaning *)
Lemma same_for p e e' r s : wf g (AFoR p e r s) -> wf g e' -> logical e' = logical e -> adtype e' = adtype e ->
  wf g (AFoR p e' r s) /\ logical (AFoR p e' r s) = logical (AFoR p e r s) /\ adtype (AFoR p e' r s) = adtype (AFoR p e r s).
Proof. intros W We L D. cbn [wf] in *. cbn [logical adtype]. rewrite L, D. intuition. Qed.
Lemma same_zigzag e e' : wf g (AZigZag e) -> wf g e' -> logical e' = logical e -> adtype e' = adtype e ->
  wf g (AZigZag e') /\ logical (AZigZag e') = logical (AZigZag e) /\ adtype (AZigZag e') = adtype (AZigZag e).
Proof. intros W We L D. cbn [wf] in *. cbn [logical adtype]. rewrite L, D. intuition. Qed.
Lemma same_alen_ a b : logical b = logical a -> alen b = alen a.
Proof. intros L. rewrite <- !logical_length, L. reflexivity. Qed.
Lemma same_dict c v c' v' : wf g (ADict c v) -> wf g c' -> logical c' = logical c -> adtype c' = adtype c ->
  wf g v' -> logical v' = logical v -> adtype v' = adtype v ->
  wf g (ADict c' v') /\ logical (ADict c' v') = logical (ADict c v) /\ adtype (ADict c' v') = adtype (ADict c v).
Proof.
  intros W Wc Lc Dc Wv Lv Dv. assert (logical (ADict c' v') = logical (ADict c v)) as L by (cbn [logical]; rewrite Lc, Lv; reflexivity).
  split; [|split; [exact L|exact Dv]]. cbn [wf] in *. change (logical (ADict c' v')) with (logical (ADict c' v')) in *.
  destruct W as (_ & _ & W3 & W4 & W5 & W6 & W7 & W8). rewrite Dc, Dv, Lc, (same_alen_ _ _ Lc), (same_alen_ _ _ Lv).
  split; [exact Wc|]. split; [exact Wv|]. split; [exact W3|]. split; [exact W4|]. split; [exact W5|]. split; [|split; [exact W7|exact W8]].
  intros Hv Hn i Hi. change (map (fun c0 => nth (Z.to_nat (vint c0)) (logical v') VNull) (logical c')) with (logical (ADict c' v')). rewrite L. apply W6; auto.
Qed.
Lemma same_runend e x e' x' v o n : wf g (ARunEnd e x v o n) -> wf g e' -> logical e' = logical e -> adtype e' = adtype e -> ss_ok e' ->
  wf g x' -> logical x' = logical x -> adtype x' = adtype x ->
  wf g (ARunEnd e' x' v o n) /\ logical (ARunEnd e' x' v o n) = logical (ARunEnd e x v o n) /\ adtype (ARunEnd e' x' v o n) = adtype (ARunEnd e x v o n).
Proof.
  intros W We Le De Se Wx Lx Dx. split; [|split; [cbn [logical]; rewrite Le, Lx; reflexivity|exact Dx]]. cbn [wf] in *.
  rewrite Le, De, Lx, Dx, (same_alen_ _ _ Le), (same_alen_ _ _ Lx). cbn [ft decodable] in *. intuition discriminate.
Qed.
Lemma same_sparse i x i' x' o n fill : wf g (ASparse i x o n fill) -> wf g i' -> logical i' = logical i -> adtype i' = adtype i -> ix_ok i' o n ->
  wf g x' -> logical x' = logical x -> adtype x' = adtype x ->
  wf g (ASparse i' x' o n fill) /\ logical (ASparse i' x' o n fill) = logical (ASparse i x o n fill) /\ adtype (ASparse i' x' o n fill) = adtype (ASparse i x o n fill).
Proof.
  intros W We Le De Se Wx Lx Dx. split; [|split; [cbn [logical]; rewrite Le, Lx; reflexivity|exact Dx]]. cbn [wf] in *. change (sliceable g) with g in *. cbv zeta in *.
  destruct W as (W1 & W2 & W3 & W4 & W5 & W6). rewrite Le, De, Lx, Dx, (same_alen_ _ _ Le), (same_alen_ _ _ Lx).
  split; [exact We|]. split; [exact Wx|]. split; [exact W3|]. split; [exact W4|]. split; [exact Se|exact W6].
Qed.
