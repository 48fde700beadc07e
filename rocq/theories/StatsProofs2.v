(** Accumulators compute true statistics. *)
From Verif Require Import Base Spec Arr ArrRead ArrWf ArrReadProofs ArrSlice ValidityModel PropValidity StatsModel StatsProofs.

(** Common core of the accumulators: previous value, bounds, sortedness flags, run count. *)
Record core := Core { c_prev : value; c_min : value; c_max : value; c_sorted : bool; c_strict : bool; c_runs : nat }.
Definition vltb (d : dtype) (a b : value) : bool := match vcmp d a b with Some Lt => true | _ => false end.
Lemma vltb_spec d a b : vltb d a b = true <-> vlt d a b.
Proof. unfold vltb, vlt. destruct (vcmp d a b) as [[]|]; split; congruence. Qed.
Definition core_next (d : dtype) (c : core) (x : value) : core :=
  Core x
    (if vltb d x (c_min c) then x else c_min c)
    (if vltb d x (c_min c) then c_max c else if vltb d (c_max c) x then x else c_max c)
    (c_sorted c && negb (vltb d x (c_prev c)))
    (c_strict c && vltb d (c_prev c) x)
    (c_runs c + if vsame (c_prev c) x then 0 else 1).
Record core_ok (d : dtype) (vs : list value) (c : core) : Prop := CoreOk {
  k_prev : exists pre, vs = pre ++ [c_prev c];
  k_min : In (c_min c) vs /\ forall y, In y vs -> vle d (c_min c) y;
  k_max : In (c_max c) vs /\ forall y, In y vs -> vle d y (c_max c);
  k_sorted : c_sorted c = true <-> sorted_by (vle d) vs;
  k_strict : c_strict c = true <-> sorted_by (vlt d) vs;
  k_runs : c_runs c = run_count vs }.

Lemma core_ok_one d x : elem d x -> core_ok d [x] (Core x x x true true 1).
Proof.
  intros E. constructor; cbn.
  - exists []. reflexivity.
  - split; [auto|]. intros y [<-|[]]. apply vle_refl, E.
  - split; [auto|]. intros y [<-|[]]. apply vle_refl, E.
  - intuition.
  - intuition.
  - reflexivity.
Qed.

Lemma core_ok_snoc d vs c x :
  Forall (elem d) vs -> elem d x -> core_ok d vs c -> core_ok d (vs ++ [x]) (core_next d c x).
Proof.
  intros Hv Ex [(pre & Hp) [Imin Lmin] [Imax Gmax] Hs Ht Hr].
  rewrite Forall_forall in Hv.
  assert (elem d (c_min c)) as Emin by auto. assert (elem d (c_max c)) as Emax by auto.
  assert (In (c_prev c) vs) as Ip by (rewrite Hp; apply in_or_app; cbn; auto).
  assert (elem d (c_prev c)) as Ep by auto.
  constructor; cbn [core_next c_prev c_min c_max c_sorted c_strict c_runs].
  - exists vs. reflexivity.
  - destruct (vltb d x (c_min c)) eqn:Q.
    + apply vltb_spec in Q. split; [apply in_or_app; cbn; auto|].
      intros y Hy. apply in_app_or in Hy. destruct Hy as [Hy|[<-|[]]]; [|apply vle_refl, Ex].
      apply (vle_trans d x (c_min c) y); auto. left. exact Q.
    + split; [apply in_or_app; auto|].
      intros y Hy. apply in_app_or in Hy. destruct Hy as [Hy|[<-|[]]]; [auto|].
      destruct (vle_or_lt d (c_min c) x) as [L|L]; auto. apply vltb_spec in L. congruence.
  - destruct (vltb d x (c_min c)) eqn:Q.
    + apply vltb_spec in Q. split; [apply in_or_app; auto|].
      intros y Hy. apply in_app_or in Hy. destruct Hy as [Hy|[<-|[]]]; [auto|].
      apply (vle_trans d x (c_min c) (c_max c)); auto. left. exact Q.
    + destruct (vltb d (c_max c) x) eqn:Q2.
      * apply vltb_spec in Q2. split; [apply in_or_app; cbn; auto|].
        intros y Hy. apply in_app_or in Hy. destruct Hy as [Hy|[<-|[]]]; [|apply vle_refl, Ex].
        apply (vle_trans d y (c_max c) x); auto. left. exact Q2.
      * split; [apply in_or_app; auto|].
        intros y Hy. apply in_app_or in Hy. destruct Hy as [Hy|[<-|[]]]; [auto|].
        destruct (vle_or_lt d x (c_max c)) as [L|L]; auto. apply vltb_spec in L. congruence.
  - rewrite andb_true_iff, negb_true_iff, Hs, sorted_by_app. split.
    + intros [S Q]. split; [exact S|]. split; [cbn; intuition|].
      intros y z Hy [<-|[]].
      assert (vle d y (c_prev c)) as L.
      { subst vs. apply sorted_by_app in S. destruct S as (_ & _ & S). apply in_app_or in Hy.
        destruct Hy as [Hy|[<-|[]]]; [apply S; cbn; auto|apply vle_refl, Ep]. }
      apply (vle_trans d y (c_prev c) x); auto.
      destruct (vle_or_lt d (c_prev c) x) as [L2|L2]; auto. apply vltb_spec in L2. congruence.
    + intros (S & _ & H). split; [exact S|].
      destruct (vltb d x (c_prev c)) eqn:Q; [|reflexivity]. apply vltb_spec in Q.
      exfalso. apply (vlt_not_vle d x (c_prev c)); auto. apply H; cbn; auto.
  - rewrite andb_true_iff, Ht, sorted_by_app, vltb_spec. split.
    + intros [S Q]. split; [exact S|]. split; [cbn; intuition|].
      intros y z Hy [<-|[]].
      subst vs. apply sorted_by_app in S. destruct S as (_ & _ & S). apply in_app_or in Hy.
      destruct Hy as [Hy|[<-|[]]]; [|exact Q].
      apply (vlt_trans d y (c_prev c) x); auto; [apply Hv, in_or_app; auto|]. apply S; cbn; auto.
    + intros (S & _ & H). split; [exact S|]. apply H; cbn; auto.
  - rewrite Hr, Hp, <- app_assoc. cbn [app]. rewrite run_count_snoc. reflexivity.
Qed.

(** * Histograms *)
Lemma bump_length k n l : length (bump k n l) = length l.
Proof. revert k; induction l as [|x l IH]; intros k; [reflexivity|]. destruct k; cbn; auto. Qed.
Lemma nth_bump k n l j : k < length l -> nth j (bump k n l) 0 = nth j l 0 + if j =? k then n else 0.
Proof.
  revert k j; induction l as [|x l IH]; intros k j Hk; [cbn in Hk; lia|].
  destruct k as [|k], j as [|j]; cbn [bump nth Nat.eqb]; try lia.
  rewrite IH by (cbn in Hk; lia). reflexivity.
Qed.
Lemma bit_width_bound p z : in_range p z -> bit_width p z <= nbits p.
Proof.
  unfold bit_width, nbits. intros R. destruct (is_float p); [lia|]. destruct (Z.ltb_spec z 0); [lia|].
  destruct (Z.eqb_spec z 0); [lia|].
  assert (z < 2 ^ bits p)%Z.
  { unfold in_range, pmax in R. pose proof (pow2_split (bits p)). pose proof (bits_pos p).
    assert (0 < 2 ^ (bits p - 1))%Z by (apply Z.pow_pos_nonneg; lia). destruct (is_signed p); lia. }
  assert (Z.log2 z < bits p)%Z by (apply Z.log2_lt_pow2; lia). lia.
Qed.
Lemma ctz_pos_pow q : (2 ^ Z.of_nat (ctz_pos q) | Z.pos q)%Z.
Proof.
  induction q as [q IH|q IH|]; cbn [ctz_pos].
  - exists (Z.pos q~1). cbn. lia.
  - rewrite Nat2Z.inj_succ, Z.pow_succ_r by lia. destruct IH as [k Hk]. exists k. rewrite Pos2Z.inj_xO, Hk. lia.
  - exists 1%Z. reflexivity.
Qed.
Lemma ctz_le q k : (0 <= k)%Z -> (Z.pos q < 2 ^ k)%Z -> (Z.of_nat (ctz_pos q) < k)%Z.
Proof.
  intros Hk H. pose proof (ctz_pos_pow q) as D. apply Z.divide_pos_le in D; [|lia].
  assert (2 ^ Z.of_nat (ctz_pos q) < 2 ^ k)%Z as L by lia.
  apply Z.pow_lt_mono_r_iff in L; lia.
Qed.
Lemma tz_bound p z : in_range p z -> trailing_zeros_z p z <= nbits p.
Proof.
  unfold trailing_zeros_z, nbits. intros R. destruct (is_float p); [lia|].
  unfold in_range, pmin, pmax in R. pose proof (pow2_split (bits p)) as Hs. pose proof (bits_pos p).
  assert (0 < 2 ^ (bits p - 1))%Z by (apply Z.pow_pos_nonneg; lia).
  destruct z as [|q|q]; [lia| |].
  - assert (Z.of_nat (ctz_pos q) < bits p)%Z by (apply ctz_le; [lia|]; destruct (is_signed p); lia). lia.
  - assert (Z.of_nat (ctz_pos q) < bits p)%Z by (apply ctz_le; [lia|]; destruct (is_signed p); lia). lia.
Qed.

(** * Primitive *)
Definition voZ (x : option Z) : value := match x with Some z => VInt z | None => VNull end.
Definition pcore (c : pacc) : core :=
  Core (VInt (p_prev c)) (VInt (p_min c)) (VInt (p_max c)) (p_sorted c) (p_sorted c && p_strict c) (p_runs c).

Record pacc_ok (p : ptype) (l : list value) (c : pacc) : Prop := PaccOk {
  q_core : core_ok (DPrim p true) (nn l) (pcore c);
  q_nulls : p_nulls c = count is_null l;
  q_len : p_len c = length l;
  q_nan : p_nan c = count (fun x => match x with VInt z => is_nan p z | _ => false end) l;
  q_bwl : length (p_bw c) = nbits p + 1;
  q_bw : forall k, 1 <= k <= nbits p ->
     nth k (p_bw c) 0 = count (fun x => negb (is_null x) && (bit_width p (vint x) =? k)) l;
  q_tzl : length (p_tz c) = nbits p + 1;
  q_tz : forall k, k < nbits p ->
     nth k (p_tz c) 0 = count (fun x => negb (is_null x) && (trailing_zeros_z p (vint x) =? k)) l }.

Lemma elem_int p z : in_range p z -> elem (DPrim p true) (VInt z).
Proof. intros. split; [exact H|]. split; [discriminate|reflexivity]. Qed.

Lemma count_one {A} (f : A -> bool) x : count f [x] = if f x then 1 else 0.
Proof. unfold count. cbn. destruct (f x); reflexivity. Qed.
Lemma nth_repeat0 k n : nth k (repeat 0 n) 0 = 0.
Proof. revert k; induction n as [|n IH]; intros [|k]; cbn; auto. Qed.

Lemma pacc_new_ok p z : in_range p z -> pacc_ok p [VInt z] (pacc_new p z).
Proof.
  intros R. pose proof (bit_width_bound p z R). pose proof (tz_bound p z R).
  constructor; cbn [pacc_new p_nulls p_len p_nan p_bw p_tz].
  - apply (core_ok_one (DPrim p true) (VInt z)), elem_int, R.
  - reflexivity.
  - reflexivity.
  - rewrite count_one. reflexivity.
  - rewrite bump_length, repeat_length. reflexivity.
  - intros k Hk. rewrite nth_bump by (rewrite repeat_length; lia). rewrite nth_repeat0, count_one.
    cbn [is_null negb andb vint]. rewrite Nat.eqb_sym. reflexivity.
  - rewrite bump_length, repeat_length. reflexivity.
  - intros k Hk. rewrite nth_bump by (rewrite repeat_length; lia). rewrite nth_repeat0, count_one.
    cbn [is_null negb andb vint]. rewrite Nat.eqb_sym. reflexivity.
Qed.

(** Null count added at the front or at the back. *)
Lemma pacc_nulls_ok p l1 l2 n c :
  pacc_ok p (l1 ++ l2) c -> pacc_ok p (l1 ++ repeat VNull n ++ l2) (pacc_nulls p n c).
Proof.
  intros [Hc Hn Hl Ha Hbl Hb Htl Ht].
  assert (forall f : value -> bool, f VNull = false -> count f (l1 ++ repeat VNull n ++ l2) = count f (l1 ++ l2)) as K.
  { intros f Hf. rewrite !count_app. assert (count f (repeat VNull n) = 0) as ->; [|lia].
    unfold count. clear -Hf. induction n; cbn; [reflexivity|]. rewrite Hf. assumption. }
  assert (nn (l1 ++ repeat VNull n ++ l2) = nn (l1 ++ l2)) as N.
  { rewrite !nn_app. f_equal. assert (nn (repeat VNull n) = []) as ->; [|reflexivity].
    unfold nn. clear. induction n; cbn; auto. }
  constructor; cbn [pacc_nulls p_nulls p_len p_nan p_bw p_tz].
  - rewrite N. exact Hc.
  - rewrite Hn, !count_app. assert (count is_null (repeat VNull n) = n) as ->; [|lia].
    unfold count. clear. induction n; cbn; auto.
  - rewrite Hl, !app_length, repeat_length. lia.
  - rewrite K by reflexivity. exact Ha.
  - rewrite bump_length. exact Hbl.
  - intros k Hk. rewrite nth_bump by lia. rewrite K by reflexivity. rewrite Hb by lia.
    destruct (Nat.eqb_spec k 0); lia.
  - rewrite bump_length. exact Htl.
  - intros k Hk. rewrite nth_bump by lia. rewrite K by reflexivity. rewrite Ht by lia.
    destruct (Nat.eqb_spec k (nbits p)); lia.
Qed.

Lemma plt_vltb p x y : vltb (DPrim p true) (VInt x) (VInt y) = plt p x y.
Proof.
  unfold vltb, vcmp, plt. rewrite Z.ltb_compare. destruct (_ ?= _)%Z; reflexivity.
Qed.
Lemma pcore_next p c x :
  in_range p x -> in_range p (p_prev c) ->
  pcore (pacc_next p c x) = core_next (DPrim p true) (pcore c) (VInt x).
Proof.
  intros Rx Rp. unfold pcore, pacc_next, core_next.
  cbn [p_prev p_min p_max p_sorted p_strict p_runs c_prev c_min c_max c_sorted c_strict c_runs].
  rewrite !plt_vltb. cbn [vsame]. rewrite (Z.eqb_sym (p_prev c) x).
  f_equal.
  - destruct (plt p x (p_min c)); reflexivity.
  - destruct (plt p x (p_min c)); [reflexivity|]. destruct (plt p (p_max c) x); reflexivity.
  - destruct (Z.eqb_spec x (p_prev c)) as [->|N].
    + unfold plt. rewrite Z.ltb_irrefl. destruct (p_sorted c); reflexivity.
    + destruct (plt p x (p_prev c)); cbn; rewrite ?andb_false_r, ?andb_true_r; reflexivity.
  - destruct (Z.eqb_spec x (p_prev c)) as [->|N].
    + unfold plt. rewrite Z.ltb_irrefl. rewrite !andb_false_r. reflexivity.
    + unfold plt. destruct (Z.ltb_spec (zkey p x) (zkey p (p_prev c))), (Z.ltb_spec (zkey p (p_prev c)) (zkey p x));
        rewrite ?andb_false_r, ?andb_true_r; try reflexivity; try lia.
      exfalso. apply N. eapply zkey_inj; eauto. lia.
  - destruct (x =? p_prev c)%Z; lia.
Qed.

Definition zs_ok (p : ptype) (l : list value) : Prop := Forall (fun x => match x with VInt z => in_range p z | VNull => True | _ => False end) l.
Lemma zs_elem p l : zs_ok p l -> Forall (elem (DPrim p true)) (nn l).
Proof.
  intros H. unfold zs_ok in H. rewrite Forall_forall in *. intros x Hx. apply In_nn in Hx. destruct Hx as [Hx Hn].
  specialize (H x Hx). destruct x; try contradiction; try congruence. apply elem_int, H.
Qed.

Lemma pacc_next_ok p l c z :
  zs_ok p l -> in_range p z -> pacc_ok p l c -> pacc_ok p (l ++ [VInt z]) (pacc_next p c z).
Proof.
  intros Zl R [Hc Hn Hl Ha Hbl Hb Htl Ht].
  pose proof (bit_width_bound p z R). pose proof (tz_bound p z R).
  pose proof (zs_elem p l Zl) as El.
  assert (in_range p (p_prev c)) as Rp.
  { destruct Hc as [(pre & Hp) _ _ _ _ _]. cbn in Hp. rewrite Hp in El.
    apply Forall_app in El. destruct El as [_ El]. inversion El as [|? ? H1 _]; subst. destruct H1 as (H1 & _). exact H1. }
  constructor.
  - rewrite pcore_next by assumption. rewrite nn_app. apply core_ok_snoc; [exact El|apply elem_int, R|exact Hc].
  - cbn [pacc_next p_nulls]. rewrite count_app. cbn. lia.
  - cbn [pacc_next p_len]. rewrite app_length. cbn. lia.
  - cbn [pacc_next p_nan]. rewrite count_app, count_one. lia.
  - cbn [pacc_next p_bw]. rewrite bump_length. exact Hbl.
  - cbn [pacc_next p_bw]. intros k Hk. rewrite nth_bump by lia. rewrite count_app, count_one, Hb by lia.
    cbn [is_null negb andb vint]. rewrite Nat.eqb_sym. reflexivity.
  - cbn [pacc_next p_tz]. rewrite bump_length. exact Htl.
  - cbn [pacc_next p_tz]. intros k Hk. rewrite nth_bump by lia. rewrite count_app, count_one, Ht by lia.
    cbn [is_null negb andb vint]. rewrite Nat.eqb_sym. reflexivity.
Qed.

Lemma pacc_fold_ok p r l c :
  zs_ok p l -> zs_ok p (map voZ r) -> pacc_ok p l c ->
  pacc_ok p (l ++ map voZ r) (fold_left (pacc_nullable_next p) r c).
Proof.
  revert l c; induction r as [|x r IH]; intros l c Zl Zr H; [rewrite app_nil_r; exact H|].
  cbn [fold_left map]. inversion Zr as [|? ? Hx Hr]; subst.
  replace (l ++ voZ x :: map voZ r) with ((l ++ [voZ x]) ++ map voZ r) by (rewrite <- app_assoc; reflexivity).
  apply IH; [apply Forall_app; split; [exact Zl|constructor; [exact Hx|constructor]]|exact Hr|].
  destruct x as [z|]; cbn [pacc_nullable_next voZ].
  - apply pacc_next_ok; assumption.
  - apply (pacc_nulls_ok p l [] 1). rewrite app_nil_r. exact H.
Qed.

Lemma count_zero {A} (f : A -> bool) l : count f l = 0 -> forall x, In x l -> f x = false.
Proof.
  unfold count. intros H x Hx. destruct (f x) eqn:E; [|reflexivity].
  assert (In x (filter f l)) by (apply filter_In; auto). destruct (filter f l); [contradiction|discriminate].
Qed.

Lemma core_min_max_eq d vs c : Forall (elem d) vs -> core_ok d vs c -> c_min c = c_max c -> Forall (eq (c_min c)) vs.
Proof.
  intros E [_ [I1 L1] [I2 G2] _ _ _] H. rewrite Forall_forall in *. intros x Hx.
  pose proof (L1 x Hx) as A. pose proof (G2 x Hx) as B. rewrite <- H in B.
  rewrite vle_cases in A, B by auto. destruct A as [A|A]; [|auto]. destruct B as [B|B]; [|auto].
  exfalso. apply (vlt_not_vle d (c_min c) x); auto. left; exact B.
Qed.

Lemma core_sound d l c :
  Forall (elem d) (nn l) -> core_ok d (nn l) c ->
  is_least d l (c_min c) /\ is_greatest d l (c_max c).
Proof.
  intros E H. destruct H as [(pre & Hp) Hmin Hmax _ _ _]. unfold is_least, is_greatest.
  assert (nn l <> []) as NE by (rewrite Hp; destruct pre; discriminate).
  destruct (nn l); [congruence|]. split; assumption.
Qed.

Lemma vcmp_nullability d d' x y : erase d = erase d' -> vcmp d x y = vcmp d' x y.
Proof. intros H. destruct d, d'; cbn in H; try discriminate; try (injection H; intros; subst); reflexivity. Qed.

Lemma nice_in p l z : Forall (nice (DPrim p true)) l -> In (VInt z) l -> no_neg_zero p z.
Proof. intros H Hi. rewrite Forall_forall in H. apply (H _ Hi). Qed.

Lemma pacc_sound p l c :
  zs_ok p l -> Forall (nice (DPrim p true)) l -> pacc_ok p l c -> sound (DPrim p true) l (pacc_finish p c).
Proof.
  intros Zl Ni [Hc Hn Hl Ha Hbl Hb Htl Ht].
  pose proof (zs_elem p l Zl) as El. destruct (core_sound _ _ _ El Hc) as [Smin Smax].
  constructor; cbn [pacc_finish s_bw s_tz s_const s_sorted s_strict s_max s_min s_runs s_true s_nulls oall ptype_of].
  - exact Smin.
  - exact Smax.
  - intros H. apply orb_true_iff in H. destruct H as [H|H].
    + apply andb_true_iff in H. destruct H as [H Hna]. apply andb_true_iff in H. destruct H as [He Hnu].
      assert (In (VInt (p_min c)) (nn l) /\ In (VInt (p_max c)) (nn l)) as [I1 I2] by (split; apply Hc).
      pose proof El as El'. rewrite Forall_forall in El'.
      pose proof (El' _ I1) as (R1 & _). pose proof (El' _ I2) as (R2 & _). cbn in R1, R2.
      assert (VInt (p_min c) = VInt (p_max c)) as E.
      { f_equal. apply (peq_eq p); auto; eapply nice_in; try exact Ni; [apply In_nn in I1|apply In_nn in I2]; tauto. }
      exists (VInt (p_min c)). pose proof (core_min_max_eq _ _ _ El Hc E) as F. cbn in F.
      rewrite Forall_forall in F |- *. intros x Hx. apply F. apply In_nn. split; [exact Hx|].
      apply Nat.eqb_eq in Hnu. rewrite Hn in Hnu. pose proof (count_zero _ _ Hnu x Hx). destruct x; cbn in *; congruence.
    + exists VNull. apply Nat.eqb_eq in H. rewrite Hn, Hl in H. pose proof (nn_length l).
      assert (nn l = []) as E0 by (apply length_zero_iff_nil; lia).
      rewrite Forall_forall. intros x Hx. destruct x; [reflexivity|..];
      exfalso; eapply in_nil with (A := value); rewrite <- E0; apply In_nn; split; try exact Hx; discriminate.
  - intros H. apply (k_sorted _ _ _ Hc). exact H.
  - intros H H2. apply (k_sorted _ _ _ Hc) in H2. cbn in H2. congruence.
  - intros H. apply (k_strict _ _ _ Hc). exact H.
  - rewrite <- (k_runs _ _ _ Hc). cbn. lia.
  - exact I.
  - exact Hn.
  - split; [exact Hbl|]. exact Hb.
  - split; [exact Htl|]. intros k Hk. rewrite Ht by lia. lia.
Qed.

(** * Nullability of the data type is irrelevant to soundness. *)
Lemma sorted_by_ext r1 r2 l : (forall x y, r1 x y <-> r2 x y) -> sorted_by r1 l <-> sorted_by r2 l.
Proof.
  intros H. induction l as [|a l IH]; cbn; [tauto|]. rewrite IH.
  split; intros [A B]; (split; [|exact B]); intros y Hy; apply H, A, Hy.
Qed.
Lemma sound_erase d d' l s : erase d = erase d' -> sound d l s -> sound d' l s.
Proof.
  intros He [H1 H2 H3 H4 H5 H6 H7 H8 H9 H10 H11].
  assert (forall x y, vle d x y <-> vle d' x y) as Hle by (intros; unfold vle; rewrite (vcmp_nullability d d') by exact He; tauto).
  assert (forall x y, vlt d x y <-> vlt d' x y) as Hlt by (intros; unfold vlt; rewrite (vcmp_nullability d d') by exact He; tauto).
  assert (ptype_of d = ptype_of d') as Hp by (destruct d, d'; cbn in *; congruence).
  rewrite Hp in *.
  constructor; try assumption.
  - destruct (s_min s); cbn in *; [|exact I]. unfold is_least in *. destruct (nn l); [assumption|]. destruct H1 as [A B].
    split; [exact A|]. intros; apply Hle, B; assumption.
  - destruct (s_max s); cbn in *; [|exact I]. unfold is_greatest in *. destruct (nn l); [assumption|]. destruct H2 as [A B].
    split; [exact A|]. intros; apply Hle, B; assumption.
  - destruct (s_sorted s); cbn in *; [|exact I]. intros E. apply (sorted_by_ext _ _ _ Hle). auto.
  - destruct (s_sorted s); cbn in *; [|exact I]. intros E X. apply (sorted_by_ext _ _ _ Hle) in X. apply (H5 E X).
  - destruct (s_strict s); cbn in *; [|exact I]. intros E. apply (sorted_by_ext _ _ _ Hlt). auto.
Qed.

(** * All-null sets *)
Lemma nulls_sound n d : sound d (repeat VNull n) (nulls_stats n d).
Proof.
  assert (nn (repeat VNull n) = []) as N by (unfold nn; induction n; cbn; auto).
  assert (forall f : value -> bool, f VNull = false -> count f (repeat VNull n) = 0) as K.
  { intros f Hf. unfold count. clear -Hf. induction n; cbn; [reflexivity|]. rewrite Hf. assumption. }
  constructor; cbn [nulls_stats s_bw s_tz s_const s_sorted s_strict s_max s_min s_runs s_true s_nulls oall];
    unfold is_least, is_greatest; rewrite ?N; cbn; auto.
  - intros _. exists VNull. apply Forall_forall. intros x Hx. apply repeat_spec in Hx. auto.
  - discriminate.
  - destruct d; cbn; auto. rewrite K; reflexivity.
  - unfold count. clear. induction n; cbn; auto.
  - destruct d; cbn [oall ptype_of]; auto. split; [apply repeat_length|]. intros k Hk. rewrite K by reflexivity. apply nth_repeat0.
  - destruct d; cbn [oall ptype_of]; auto. split; [apply repeat_length|]. intros k Hk. rewrite K by reflexivity. lia.
Qed.
Lemma no_stats_sound d l : sound d l no_stats.
Proof. constructor; exact I. Qed.

(** * Lists with nulls *)
Lemma first_true_spec m :
  match first_true m with
  | Some k => k < length m /\ nth k m false = true /\ firstn k m = repeat false k
  | None => m = repeat false (length m)
  end.
Proof.
  induction m as [|b m IH]; cbn [first_true]; [reflexivity|]. destruct b.
  - cbn. split; [lia|]. split; reflexivity.
  - destruct (first_true m) as [k|].
    + destruct IH as (A & B & C). cbn [length nth firstn repeat]. split; [lia|]. split; [exact B|]. rewrite C. reflexivity.
    + cbn [length repeat]. rewrite <- IH. reflexivity.
Qed.
Lemma skipn_firstn_nth {A} (l : list A) k d : k < length l -> l = firstn k l ++ nth k l d :: skipn (k + 1) l.
Proof.
  revert k; induction l as [|x l IH]; intros k Hk; [cbn in Hk; lia|].
  destruct k as [|k]; [reflexivity|]. cbn [firstn nth app Nat.add skipn]. f_equal. apply IH. cbn in Hk. lia.
Qed.
Lemma opts_length {A} (l : list A) m : length m = length l -> length (opts l m) = length l.
Proof. intros. unfold opts. rewrite map_length, combine_length. lia. Qed.
Lemma nth_opts {A} (l : list A) m k d : length m = length l -> k < length l ->
  nth k (opts l m) None = if nth k m false then Some (nth k l d) else None.
Proof.
  intros Hl Hk. unfold opts. rewrite (map_nth_lt _ _ (d, false)) by (rewrite combine_length; lia).
  rewrite combine_nth by lia. reflexivity.
Qed.
Lemma opts_split {A} (l : list A) m k d :
  length m = length l -> k < length m -> nth k m false = true -> firstn k m = repeat false k ->
  opts l m = repeat None k ++ Some (nth k l d) :: skipn (k + 1) (opts l m).
Proof.
  intros Hl Hk Hn Hf. rewrite (skipn_firstn_nth (opts l m) k None) at 1 by (rewrite opts_length; lia).
  rewrite (nth_opts l m k d), Hn by lia. f_equal.
  unfold opts. rewrite firstn_map, combine_firstn, Hf.
  assert (k <= length l) as Hle by lia. clear -Hle.
  revert l Hle; induction k as [|k IH]; intros l Hle; [reflexivity|].
  destruct l as [|x l]; [cbn in Hle; lia|]. cbn [firstn repeat combine map]. f_equal. apply IH. cbn in Hle. lia.
Qed.
Lemma opts_none {A} (l : list A) n : n = length l -> opts l (repeat false n) = repeat None n.
Proof. intros ->. unfold opts. induction l as [|x l IH]; [reflexivity|]. cbn. f_equal. exact IH. Qed.
Lemma opts_all {A} (l : list A) : opts l (repeat true (length l)) = map Some l.
Proof. unfold opts. induction l as [|x l IH]; [reflexivity|]. cbn. f_equal. exact IH. Qed.
Lemma map_repeat' {A B} (f : A -> B) x n : map f (repeat x n) = repeat (f x) n.
Proof. induction n; cbn; congruence. Qed.

(** The elements of a primitive array: its optional values. *)
Lemma logical_prim p l v : vwf v (length l) -> logical (APrim p l v) = map voZ (opts l (vbits v (length l))).
Proof.
  intros Hw. cbn [logical]. apply (nth_ext_len _ _ VNull).
  - rewrite tab_length, map_length, opts_length; [reflexivity|]. rewrite vbits_length. reflexivity.
  - rewrite tab_length. intros i Hi. rewrite nth_tab by lia.
    rewrite (map_nth_lt voZ _ None) by (rewrite opts_length; rewrite ?vbits_length; lia).
    rewrite (nth_opts l _ i 0%Z) by (rewrite ?vbits_length; lia).
    rewrite nth_vbits by lia. destruct (vvalid v i); reflexivity.
Qed.
Lemma zs_opts p l m : Forall (in_range p) l -> zs_ok p (map voZ (opts l m)).
Proof.
  intros H. unfold zs_ok, opts. rewrite map_map. apply Forall_forall. intros x Hx. apply in_map_iff in Hx.
  destruct Hx as ([z b] & <- & Hin). apply in_combine_l in Hin. rewrite Forall_forall in H. specialize (H z Hin).
  destruct b; cbn; auto.
Qed.

(** Main facts on primitive statistics. *)
Lemma prim_acc_exists p l m :
  Forall (in_range p) l -> length m = length l -> l <> [] -> first_true m <> None ->
  exists c, pacc_ok p (map voZ (opts l m)) c /\ prim_stats_nullable p l m = pacc_finish p c.
Proof.
  intros R Hm Hne Hf. pose proof (first_true_spec m) as F. destruct (first_true m) as [k|] eqn:E; [|congruence].
  destruct F as (A & B & C).
  unfold prim_stats_nullable. destruct l as [|z0 l0]; [congruence|]. set (l := z0 :: l0) in *. rewrite E.
  exists (fold_left (pacc_nullable_next p) (skipn (k + 1) (opts l m)) (pacc_nulls p k (pacc_new p (nth k l 0%Z)))).
  split; [|reflexivity].
  rewrite (opts_split l m k 0%Z Hm A B C) at 1. rewrite map_app, map_repeat'. cbn [map voZ].
  replace (repeat VNull k ++ VInt (nth k l 0%Z) :: map voZ (skipn (k + 1) (opts l m)))
    with ((repeat VNull k ++ [VInt (nth k l 0%Z)]) ++ map voZ (skipn (k + 1) (opts l m))) by (rewrite <- app_assoc; reflexivity).
  assert (in_range p (nth k l 0%Z)) as Rk by (apply Forall_nth_lt; [exact R|lia]).
  apply pacc_fold_ok.
  - apply Forall_app. split; [|constructor; [exact Rk|constructor]]. apply Forall_forall. intros x Hx. apply repeat_spec in Hx. subst. exact I.
  - rewrite <- skipn_map. apply Forall_skipn, zs_opts, R.
  - apply (pacc_nulls_ok p [] [VInt (nth k l 0%Z)]). apply pacc_new_ok, Rk.
Qed.
Lemma prim_acc_valid p l :
  Forall (in_range p) l -> l <> [] ->
  exists c, pacc_ok p (map VInt l) c /\ prim_stats_valid p l = pacc_finish p c.
Proof.
  intros R Hne. destruct l as [|z l]; [congruence|]. inversion R; subst. cbn [prim_stats_valid].
  eexists. split; [|reflexivity].
  replace (fold_left (pacc_next p) l (pacc_new p z)) with (fold_left (pacc_nullable_next p) (map Some l) (pacc_new p z)).
  - change (map VInt (z :: l)) with ([VInt z] ++ map VInt l).
    replace (map VInt l) with (map voZ (map Some l)) by (rewrite map_map; reflexivity).
    apply pacc_fold_ok; [constructor; [assumption|constructor]| |apply pacc_new_ok; assumption].
    rewrite map_map. unfold zs_ok. rewrite Forall_map. eapply Forall_impl; [|eassumption]. auto.
  - generalize (pacc_new p z). clear. induction l as [|x l IH]; intros c; [reflexivity|]. cbn. apply IH.
Qed.

(** What compute_statistics yields on any primitive array. *)
Lemma prim_stats_cases p l v :
  Forall (in_range p) l -> vwf v (length l) ->
  (prim_stats p l v = no_stats /\ l = []) \/
  ((exists n, prim_stats p l v = nulls_stats (length l) (DPrim p n)) /\ logical (APrim p l v) = repeat VNull (length l)) \/
  (exists c, pacc_ok p (logical (APrim p l v)) c /\ prim_stats p l v = pacc_finish p c).
Proof.
  intros R Hw. pose proof (validity_to_logical v (length l) Hw) as [HL HB].
  rewrite (logical_prim p l v Hw), <- HB. unfold prim_stats.
  destruct (to_logical v (length l)) as [n|n|m]; cbn in HL, HB |- *.
  - subst n. destruct l as [|z l]; [left; split; reflexivity|]. right; right.
    rewrite opts_all, map_map. apply (prim_acc_valid p (z :: l)); [exact R|discriminate].
  - subst n. right; left. split; [eexists; reflexivity|]. rewrite opts_none, map_repeat' by reflexivity. reflexivity.
  - destruct l as [|z l]; [left; split; reflexivity|]. remember (z :: l) as l' eqn:El.
    assert (l' <> []) as NE by (subst; discriminate). clear El.
    destruct (first_true m) as [k|] eqn:F.
    + right; right. apply prim_acc_exists; auto; congruence.
    + right; left. pose proof (first_true_spec m) as F2. rewrite F in F2. rewrite F2, HL.
      split; [|rewrite opts_none, map_repeat' by reflexivity; reflexivity].
      exists true. unfold prim_stats_nullable. destruct l'; [congruence|].
      replace (first_true (repeat false (length (z0 :: l')))) with (@None nat); [reflexivity|].
      clear. symmetry. generalize (length (z0 :: l')). induction n; cbn; [reflexivity|]. rewrite IHn. reflexivity.
Qed.

Lemma prim_stats_sound p l v :
  Forall (in_range p) l -> vwf v (length l) -> Forall (nice (DPrim p true)) (logical (APrim p l v)) ->
  sound (DPrim p true) (logical (APrim p l v)) (prim_stats p l v).
Proof.
  intros R Hw Ni. destruct (prim_stats_cases p l v R Hw) as [[E _]|[[[n E] L]|(c & Hc & E)]]; rewrite E.
  - apply no_stats_sound.
  - rewrite L. apply (sound_erase (DPrim p n)); [reflexivity|]. apply nulls_sound.
  - apply pacc_sound; [|exact Ni|exact Hc].
    rewrite (logical_prim p l v Hw). apply zs_opts, R.
Qed.
