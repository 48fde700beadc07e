(** Proofs about statistics. *)
From Verif Require Import Base Spec Arr ArrRead ArrWf ArrReadProofs ArrSlice ValidityModel PropValidity StatsModel.

(** * Orders *)
Lemma bcmp_refl a : bcmp a a = Eq.
Proof. induction a as [|x a IH]; cbn; [reflexivity|]. rewrite Z.compare_refl. exact IH. Qed.
Lemma bcmp_eq a b : bcmp a b = Eq <-> a = b.
Proof.
  split; [|intros ->; apply bcmp_refl]. revert b; induction a as [|x a IH]; intros [|y b]; cbn; try discriminate; [reflexivity|].
  destruct (Z.compare_spec x y); try discriminate. intros H0. subst. f_equal. auto.
Qed.
Lemma bcmp_opp a b : bcmp b a = CompOpp (bcmp a b).
Proof.
  revert b; induction a as [|x a IH]; intros [|y b]; cbn; try reflexivity.
  rewrite Z.compare_antisym. destruct (Z.compare x y); cbn; auto.
Qed.
Lemma bcmp_trans a b c : bcmp a b = Lt -> bcmp b c = Lt -> bcmp a c = Lt.
Proof.
  revert b c; induction a as [|x a IH]; intros [|y b] [|z c]; cbn; try discriminate; try reflexivity.
  destruct (Z.compare_spec x y); destruct (Z.compare_spec y z); try discriminate; intros H1 H2; subst;
    rewrite ?Z.compare_refl; try (eapply IH; eassumption).
  - rewrite (proj2 (Z.compare_lt_iff y z)) by lia. reflexivity.
  - rewrite (proj2 (Z.compare_lt_iff x z)) by lia. reflexivity.
  - rewrite (proj2 (Z.compare_lt_iff x z)) by lia. reflexivity.
Qed.
Lemma bytes_eqb_eq a b : bytes_eqb a b = true <-> a = b.
Proof. unfold bytes_eqb. rewrite <- bcmp_eq. destruct (bcmp a b); split; congruence. Qed.

Lemma is_float_unsigned p : is_float p = true -> is_signed p = false.
Proof. destruct p; cbn; congruence. Qed.
Lemma zkey_inj p a b : in_range p a -> in_range p b -> zkey p a = zkey p b -> a = b.
Proof.
  unfold zkey, in_range, pmin, pmax. destruct (is_float p) eqn:F; [|auto].
  rewrite (is_float_unsigned p F).
  pose proof (pow2_split (bits p)) as Hs. pose proof (bits_pos p).
  destruct (Z.ltb_spec a (2 ^ (bits p - 1))), (Z.ltb_spec b (2 ^ (bits p - 1))); lia.
Qed.

(** Data types that carry statistics with values. *)
Definition ordered (d : dtype) : bool :=
  match d with DBool _ | DPrim _ _ | DUtf8 _ | DBinary _ => true | _ => false end.
(** A non-null element of the data type. *)
Definition elem (d : dtype) (x : value) : Prop := vtyped d x /\ x <> VNull /\ ordered d = true.

Ltac elems := unfold elem in *; repeat match goal with H : _ /\ _ |- _ => destruct H end.
Ltac elem_cases x y :=
  destruct x; destruct y; try congruence; cbn [vtyped] in *;
  match goal with d : dtype |- _ => destruct d end; cbn in *; try contradiction; try discriminate.

Lemma vcmp_total d x y : elem d x -> elem d y -> exists c, vcmp d x y = Some c.
Proof. intros Hx Hy. elems. elem_cases x y; eauto. Qed.
Lemma vcmp_refl d x : elem d x -> vcmp d x x = Some Eq.
Proof.
  intros H. elems. destruct x; try congruence; cbn [vtyped] in *; destruct d; cbn in *; try contradiction; try discriminate.
  - destruct b; reflexivity.
  - rewrite Z.compare_refl. reflexivity.
  - rewrite bcmp_refl. reflexivity.
  - rewrite bcmp_refl. reflexivity.
Qed.
Lemma vcmp_eq d x y : elem d x -> elem d y -> vcmp d x y = Some Eq -> x = y.
Proof.
  intros Hx Hy E. elems. elem_cases x y.
  - destruct b, b0; try discriminate; reflexivity.
  - injection E as E. apply Z.compare_eq_iff in E. f_equal. eapply zkey_inj; eauto.
  - injection E as E. f_equal. apply bcmp_eq, E.
  - injection E as E. f_equal. apply bcmp_eq, E.
Qed.
Lemma vcmp_opp d x y c : elem d x -> elem d y -> vcmp d x y = Some c -> vcmp d y x = Some (CompOpp c).
Proof.
  intros Hx Hy E. elems. elem_cases x y; injection E as <-.
  - destruct b, b0; reflexivity.
  - rewrite Z.compare_antisym. reflexivity.
  - rewrite bcmp_opp. reflexivity.
  - rewrite bcmp_opp. reflexivity.
Qed.
Lemma vlt_trans d x y z : elem d x -> elem d y -> elem d z -> vlt d x y -> vlt d y z -> vlt d x z.
Proof.
  unfold vlt. intros Hx Hy Hz. elems. elem_cases x y; destruct z; try congruence; cbn in *; try contradiction.
  - destruct b, b0, b1; intros; congruence.
  - intros E1 E2. injection E1 as E1. injection E2 as E2. f_equal.
    apply (proj1 (Z.compare_lt_iff _ _)) in E1. apply (proj1 (Z.compare_lt_iff _ _)) in E2. apply Z.compare_lt_iff. lia.
  - intros E1 E2. injection E1 as E1. injection E2 as E2. f_equal. eapply bcmp_trans; eauto.
  - intros E1 E2. injection E1 as E1. injection E2 as E2. f_equal. eapply bcmp_trans; eauto.
Qed.
Lemma vle_cases d x y : elem d x -> elem d y -> (vle d x y <-> vlt d x y \/ x = y).
Proof.
  intros Hx Hy. unfold vle, vlt. split; intros [H|H]; auto.
  - right. eapply vcmp_eq; eauto.
  - right. subst. apply vcmp_refl, Hx.
Qed.
Lemma vle_refl d x : elem d x -> vle d x x.
Proof. right. apply vcmp_refl; assumption. Qed.
Lemma vle_trans d x y z : elem d x -> elem d y -> elem d z -> vle d x y -> vle d y z -> vle d x z.
Proof.
  intros Hx Hy Hz H1 H2. rewrite vle_cases in * by assumption. destruct H1 as [H1|H1], H2 as [H2|H2]; subst; auto.
  left. eapply vlt_trans; [| | |exact H1|exact H2]; assumption.
Qed.
Lemma vlt_vle_trans d x y z : elem d x -> elem d y -> elem d z -> vlt d x y -> vle d y z -> vlt d x z.
Proof.
  intros Hx Hy Hz H1 H2. rewrite vle_cases in * by assumption. destruct H2 as [H2|H2]; subst; auto.
  eapply vlt_trans; [| | |exact H1|exact H2]; assumption.
Qed.
Lemma vle_vlt_trans d x y z : elem d x -> elem d y -> elem d z -> vle d x y -> vlt d y z -> vlt d x z.
Proof.
  intros Hx Hy Hz H1 H2. rewrite vle_cases in * by assumption. destruct H1 as [H1|H1]; subst; auto.
  eapply vlt_trans; [| | |exact H1|exact H2]; assumption.
Qed.
Lemma vle_or_lt d x y : elem d x -> elem d y -> vle d x y \/ vlt d y x.
Proof.
  intros Hx Hy. destruct (vcmp_total d x y Hx Hy) as [c Hc]. destruct c.
  - left; right; assumption.
  - left; left; assumption.
  - right. unfold vlt. rewrite (vcmp_opp _ _ _ _ Hx Hy Hc). reflexivity.
Qed.
Lemma vlt_not_vle d x y : elem d x -> elem d y -> vlt d x y -> ~ vle d y x.
Proof.
  unfold vlt, vle. intros Hx Hy H1 H2. rewrite (vcmp_opp _ _ _ _ Hx Hy H1) in H2. cbn in H2.
  destruct H2; discriminate.
Qed.

(** * nn, counts *)
Lemma nn_app l1 l2 : nn (l1 ++ l2) = nn l1 ++ nn l2.
Proof. apply filter_app. Qed.
Lemma In_nn x l : In x (nn l) <-> In x l /\ x <> VNull.
Proof. unfold nn. rewrite filter_In. destruct x; cbn; intuition congruence. Qed.
Lemma count_app {A} (f : A -> bool) l1 l2 : count f (l1 ++ l2) = count f l1 + count f l2.
Proof. unfold count. rewrite filter_app, app_length. reflexivity. Qed.
Lemma nn_length l : length (nn l) + count is_null l = length l.
Proof. unfold nn, count. induction l as [|x l IH]; [reflexivity|]. cbn. destruct x; cbn; lia. Qed.
Lemma elem_nn d l : ordered d = true -> Forall (vtyped d) l -> Forall (elem d) (nn l).
Proof.
  intros Ho H. rewrite Forall_forall in *. intros x Hx. apply In_nn in Hx. destruct Hx. split; auto.
Qed.

(** * sorted_by and run_count on concatenations *)
Lemma sorted_by_app r l1 l2 :
  sorted_by r (l1 ++ l2) <-> sorted_by r l1 /\ sorted_by r l2 /\ (forall x y, In x l1 -> In y l2 -> r x y).
Proof.
  induction l1 as [|a l1 IH]; cbn; [intuition|]. rewrite IH. split.
  - intros (H1 & H2 & H3 & H4). repeat split; auto.
    + intros y Hy. apply H1. apply in_or_app; auto.
    + intros x y [->|Hx] Hy; [apply H1; apply in_or_app; auto|auto].
  - intros ((H1 & H2) & H3 & H4). repeat split; auto.
    intros y Hy. apply in_app_or in Hy. destruct Hy; auto.
Qed.

Definition vsame (x y : value) : bool :=
  match x, y with
  | VBool a, VBool b => Bool.eqb a b
  | VInt a, VInt b => Z.eqb a b
  | VBytes a, VBytes b => bytes_eqb a b
  | VNull, VNull => true
  | _, _ => false end.
Lemma run_count_cons2 x y t : run_count (x :: y :: t) = (if vsame x y then 0 else 1) + run_count (y :: t).
Proof. reflexivity. Qed.
Lemma run_count_app l1 x y l2 :
  run_count (l1 ++ x :: y :: l2) + (if vsame x y then 1 else 0) = run_count (l1 ++ [x]) + run_count (y :: l2).
Proof.
  induction l1 as [|a l1 IH].
  - cbn [app]. rewrite run_count_cons2. cbn [run_count]. destruct (vsame x y); lia.
  - destruct l1 as [|b l1].
    + cbn [app] in *. rewrite run_count_cons2, (run_count_cons2 a x []). lia.
    + cbn [app] in *. rewrite run_count_cons2, (run_count_cons2 a b _). lia.
Qed.
Lemma run_count_snoc l x y : run_count (l ++ [x; y]) = run_count (l ++ [x]) + (if vsame x y then 0 else 1).
Proof. pose proof (run_count_app l x y []) as H. cbn [run_count] in H. destruct (vsame x y); lia. Qed.
Lemma run_count_app_le l1 l2 : run_count (l1 ++ l2) <= run_count l1 + run_count l2.
Proof.
  destruct l2 as [|y l2]; [rewrite app_nil_r; lia|].
  destruct l1 as [|z l1] using rev_ind; [cbn [app]; lia|]. clear IHl1.
  pose proof (run_count_app l1 z y l2) as H. rewrite <- app_assoc. cbn [app]. destruct (vsame z y); lia.
Qed.
Lemma vsame_eq d x y : elem d x -> elem d y -> (vsame x y = true <-> x = y).
Proof.
  intros Hx Hy. elems. elem_cases x y; rewrite ?eqb_true_iff, ?Z.eqb_eq, ?bytes_eqb_eq; split; congruence.
Qed.

(** * Merge *)
Definition max_null (s : stats) : bool := match s_max s with Some (_, VNull) => true | _ => false end.

(** When merging is sound: the code mishandles a chunk without any non-null value next to one with some
    ([Max] becomes null), and [IsConstant] without [Min]. *)
Definition no_neg_zero (p : ptype) (z : Z) : Prop := is_float p = true -> z <> (2 ^ (bits p - 1))%Z.
Definition nice (d : dtype) (x : value) : Prop :=
  match d, x with DPrim p _, VInt z => no_neg_zero p z | _, _ => True end.

Lemma is_least_app d l1 l2 m1 m2 :
  ordered d = true -> Forall (vtyped d) l1 -> Forall (vtyped d) l2 ->
  is_least d l1 m1 -> is_least d l2 m2 ->
  is_least d (l1 ++ l2) (if (match vcmp d m2 m1 with Some Lt => true | _ => false end) then m2 else m1).
Proof.
  intros Ho T1 T2 H1 H2. pose proof (elem_nn d l1 Ho T1) as E1. pose proof (elem_nn d l2 Ho T2) as E2.
  unfold is_least in *. rewrite nn_app.
  rewrite Forall_forall in E1, E2.
  destruct (nn l1) as [|a r1] eqn:N1.
  - subst m1. cbn [app]. destruct (nn l2) as [|b r2]; [subst m2; cbn; reflexivity|].
    destruct H2 as [Hin Hle]. assert (elem d m2) as Em by auto.
    replace (vcmp d m2 VNull) with (Some Lt) by (destruct Em as (_ & ? & _); destruct m2; cbn; congruence).
    split; assumption.
  - rewrite <- N1 in *. assert (nn l1 ++ nn l2 <> []) as NE by (rewrite N1; discriminate).
    destruct H1 as [Hin1 Hle1].
    assert (elem d m1) as Em1 by auto.
    assert (forall x, (In x (nn l1 ++ nn l2) /\ forall y, In y (nn l1 ++ nn l2) -> vle d x y) ->
       match nn l1 ++ nn l2 with [] => x = VNull | _ :: _ => In x (nn l1 ++ nn l2) /\ forall y, In y (nn l1 ++ nn l2) -> vle d x y end) as Go.
    { intros x Hx. destruct (nn l1 ++ nn l2); [congruence|exact Hx]. }
    apply Go. clear Go NE N1 a r1.
    destruct (nn l2) as [|b r2] eqn:N2.
    + subst m2. replace (vcmp d VNull m1) with (Some Gt) by (destruct Em1 as (_ & ? & _); destruct m1; cbn; congruence).
      rewrite app_nil_r. split; assumption.
    + rewrite <- N2 in *. destruct H2 as [Hin2 Hle2]. assert (elem d m2) as Em2 by auto.
      destruct (vcmp_total d m2 m1 Em2 Em1) as [c Hc]. rewrite Hc.
      destruct c.
      * apply vcmp_eq in Hc; [|assumption|assumption]. subst m2.
        split; [apply in_or_app; auto|]. intros y Hy. apply in_app_or in Hy. destruct Hy; auto.
      * split; [apply in_or_app; auto|]. intros y Hy. apply in_app_or in Hy. destruct Hy as [Hy|Hy]; auto.
        apply (vle_trans d m2 m1 y); auto. left; assumption.
      * split; [apply in_or_app; auto|]. intros y Hy. apply in_app_or in Hy. destruct Hy as [Hy|Hy]; auto.
        apply (vle_trans d m1 m2 y); auto. left. apply (vcmp_opp d m2 m1 Gt); assumption.
Qed.

Lemma is_greatest_app d l1 l2 m1 m2 :
  ordered d = true -> Forall (vtyped d) l1 -> Forall (vtyped d) l2 ->
  is_null m1 = is_null m2 ->
  is_greatest d l1 m1 -> is_greatest d l2 m2 ->
  is_greatest d (l1 ++ l2) (if (match vcmp d m1 m2 with Some Lt => true | _ => false end) then m2 else m1).
Proof.
  intros Ho T1 T2 Hn H1 H2. pose proof (elem_nn d l1 Ho T1) as E1. pose proof (elem_nn d l2 Ho T2) as E2.
  unfold is_greatest in *. rewrite nn_app.
  rewrite Forall_forall in E1, E2.
  destruct (nn l1) as [|a r1] eqn:N1.
  - subst m1. cbn [app]. destruct (nn l2) as [|b r2]; [subst m2; cbn; reflexivity|].
    destruct H2 as [Hin Hle]. assert (elem d m2) as (_ & Em & _) by auto. destruct m2; cbn in Hn; congruence.
  - rewrite <- N1 in *. destruct H1 as [Hin1 Hle1]. assert (elem d m1) as Em1 by auto.
    destruct (nn l2) as [|b r2] eqn:N2.
    + subst m2. destruct Em1 as (_ & Em & _). destruct m1; cbn in Hn; congruence.
    + rewrite <- N2 in *. destruct H2 as [Hin2 Hle2]. assert (elem d m2) as Em2 by auto.
      assert (forall x, (In x (nn l1 ++ nn l2) /\ forall y, In y (nn l1 ++ nn l2) -> vle d y x) ->
       match nn l1 ++ nn l2 with [] => x = VNull | _ :: _ => In x (nn l1 ++ nn l2) /\ forall y, In y (nn l1 ++ nn l2) -> vle d y x end) as Go.
      { intros x Hx. rewrite N1 in *. exact Hx. }
      apply Go. clear Go N1 N2 a r1 b r2.
      destruct (vcmp_total d m1 m2 Em1 Em2) as [c Hc]. rewrite Hc.
      destruct c.
      * apply vcmp_eq in Hc; [|assumption|assumption]. subst m2.
        split; [apply in_or_app; auto|]. intros y Hy. apply in_app_or in Hy. destruct Hy; auto.
      * split; [apply in_or_app; auto|]. intros y Hy. apply in_app_or in Hy. destruct Hy as [Hy|Hy]; auto.
        apply (vle_trans d y m1 m2); auto. left; assumption.
      * split; [apply in_or_app; auto|]. intros y Hy. apply in_app_or in Hy. destruct Hy as [Hy|Hy]; auto.
        apply (vle_trans d y m2 m1); auto. left. apply (vcmp_opp d m1 m2 Gt); assumption.
Qed.

Lemma peq_eq p a b : in_range p a -> in_range p b -> no_neg_zero p a -> no_neg_zero p b -> peq p a b = true -> a = b.
Proof.
  unfold peq, no_neg_zero. destruct (is_float p) eqn:F; [|lia].
  intros Ra Rb Na Nb H. specialize (Na eq_refl). specialize (Nb eq_refl).
  unfold in_range, pmin, pmax in *. rewrite (is_float_unsigned p F) in *.
  pose proof (pow2_split (bits p)) as Hs. pose proof (bits_pos p).
  set (h := (2 ^ (bits p - 1))%Z) in *.
  apply andb_true_iff in H. destruct H as [_ H]. apply orb_true_iff in H. destruct H as [H|H]; [lia|].
  apply andb_true_iff in H. destruct H as [H1 H2].
  assert (forall z, (0 <= z <= 2 * h - 1)%Z -> z <> h -> (z mod h =? 0)%Z = true -> z = 0%Z) as Hz.
  { intros z Rz Nz Hm. apply Z.eqb_eq in Hm. assert (0 < h)%Z by (subst h; apply Z.pow_pos_nonneg; lia).
    apply Z.mod_divide in Hm; [|lia]. destruct Hm as [q Hq].
    assert (q = 0 \/ q = 1)%Z as [->| ->] by nia; lia. }
  transitivity 0%Z; [|symmetry]; apply Hz; auto; clear H1 H2 Hz; specialize (Hs ltac:(lia)); lia.
Qed.

Lemma veq_eq d a b : vtyped d a -> vtyped d b -> nice d a -> nice d b -> veq d a b = true -> a = b.
Proof.
  intros Ta Tb Na Nb H.
  destruct a, b; cbn in *; try discriminate; try reflexivity.
  - f_equal. apply eqb_true_iff, H.
  - destruct d; try discriminate. f_equal. eapply peq_eq; eauto.
  - f_equal. apply bytes_eqb_eq, H.
Qed.

Lemma const_min d l x m : Forall (eq x) l -> is_least d l m -> l <> [] -> m = x.
Proof.
  intros Hc Hm Hl. unfold is_least in Hm. destruct (nn l) as [|a r] eqn:N.
  - destruct l as [|y l]; [congruence|]. inversion Hc; subst. cbn in N.
    destruct y; cbn in N; congruence.
  - destruct Hm as [Hin _]. rewrite <- N in Hin. apply In_nn in Hin. destruct Hin as [Hin _].
    rewrite Forall_forall in Hc. symmetry. apply Hc, Hin.
Qed.

Lemma is_least_In d l m : is_least d l m -> m = VNull \/ In m l.
Proof.
  unfold is_least. destruct (nn l) eqn:N; [auto|]. rewrite <- N. intros [H _]. apply In_nn in H. tauto.
Qed.

Definition merge_pre (l1 l2 : list value) (s1 s2 : stats) : Prop :=
  (s_max s1 = None \/ (s_min s2 = None /\ s_max s2 = None) \/ (nn l1 = [] <-> nn l2 = [])) /\
  (s_const s1 = Some true -> s_const s2 = Some true -> s_min s1 <> None).

Lemma nth_sum_lists (h1 h2 : list nat) k : length h1 = length h2 ->
  nth k (map (fun '(x, y) => x + y) (combine h1 h2)) 0 = nth k h1 0 + nth k h2 0.
Proof.
  revert h2 k; induction h1 as [|a h1 IH]; intros [|b h2] k H; cbn in H; try discriminate.
  - destruct k; reflexivity.
  - destruct k; [reflexivity|]. cbn [combine map nth]. apply IH. lia.
Qed.
Lemma sum_lists_length (h1 h2 : list nat) : length h1 = length h2 ->
  length (map (fun '(x, y) => x + y) (combine h1 h2)) = length h1.
Proof. intros. rewrite map_length, combine_length. lia. Qed.

(** Merging is sound, for all lists, sets and data types, when [merge_pre] holds. *)
Lemma merge_sound d l1 l2 s1 s2 :
  ordered d = true -> Forall (vtyped d) l1 -> Forall (vtyped d) l2 -> Forall (nice d) l1 -> Forall (nice d) l2 ->
  sound d l1 s1 -> sound d l2 s2 -> merge_pre l1 l2 s1 s2 ->
  sound d (l1 ++ l2) (merge d s1 s2).
Proof.
  intros Ho T1 T2 N1 N2 S1 S2 [Pm Pc].
  pose proof (elem_nn d l1 Ho T1) as E1. pose proof (elem_nn d l2 Ho T2) as E2. rewrite Forall_forall in E1, E2.
  constructor; cbn [merge s_bw s_tz s_const s_sorted s_strict s_max s_min s_runs s_true s_nulls].
  - (* min *)
    pose proof (so_min _ _ _ S1) as A1. pose proof (so_min _ _ _ S2) as A2.
    unfold merge_ordered, lt_scalar. destruct (s_min s1) as [m1|], (s_min s2) as [m2|]; cbn in *; try exact I.
    pose proof (is_least_app d l1 l2 _ _ Ho T1 T2 A1 A2) as H.
    destruct (vcmp d (snd m2) (snd m1)) as [[]|]; exact H.
  - (* max *)
    pose proof (so_max _ _ _ S1) as A1. pose proof (so_max _ _ _ S2) as A2.
    unfold merge_ordered, lt_scalar. destruct (s_max s1) as [m1|], (s_max s2) as [m2|]; cbn in *; try exact I.
    assert (is_null (snd m1) = is_null (snd m2)) as Pm'.
    { destruct Pm as [Pm|[[_ Pm]|Pm]]; try discriminate. unfold is_greatest in A1, A2.
      destruct (nn l1) as [|x1 r1] eqn:X1, (nn l2) as [|x2 r2] eqn:X2.
      - rewrite A1, A2. reflexivity.
      - destruct Pm as [Pm _]. discriminate (Pm eq_refl).
      - destruct Pm as [_ Pm]. discriminate (Pm eq_refl).
      - rewrite <- X1 in A1. rewrite <- X2 in A2. destruct A1 as [I1 _], A2 as [I2 _].
        apply In_nn in I1, I2. destruct (snd m1), (snd m2); cbn; intuition congruence. }
    pose proof (is_greatest_app d l1 l2 _ _ Ho T1 T2 Pm' A1 A2) as H.
    destruct (vcmp d (snd m1) (snd m2)) as [[]|]; exact H.
  - (* constant *)
    pose proof (so_const _ _ _ S1) as A1. pose proof (so_const _ _ _ S2) as A2.
    unfold merge_const. destruct (s_const s1) as [c1|]; cbn in *; [|exact I].
    destruct (s_const s2) as [c2|]; cbn in *; [|congruence].
    destruct c1; cbn [andb]; [|congruence]. destruct c2; cbn [andb]; [|congruence].
    destruct (opt_scalar_eqb d (s_min s1) (s_min s2)) eqn:Q; [|congruence]. intros _.
    destruct (A1 eq_refl) as [x Hx], (A2 eq_refl) as [y Hy].
    destruct l1 as [|a l1]; [exists y; exact Hy|]. destruct l2 as [|b l2]; [exists x; rewrite app_nil_r; exact Hx|].
    pose proof (so_min _ _ _ S1) as M1. pose proof (so_min _ _ _ S2) as M2.
    destruct (s_min s1) as [m1|]; [|exfalso; apply Pc; reflexivity].
    destruct (s_min s2) as [m2|]; [|discriminate]. cbn in M1, M2.
    pose proof (const_min _ _ _ _ Hx M1 ltac:(discriminate)). pose proof (const_min _ _ _ _ Hy M2 ltac:(discriminate)).
    exists x. apply Forall_app. split; [exact Hx|].
    cbn in Q. unfold scalar_eqb in Q. apply andb_true_iff in Q. destruct Q as [_ Q].
    assert (a = x) by (inversion Hx; congruence). assert (b = y) by (inversion Hy; congruence).
    assert (x = y) as ->; [|assumption].
    assert (snd m1 = snd m2); [|congruence].
    assert (snd m1 = a) as Ea by congruence. assert (snd m2 = b) as Eb by congruence. rewrite Ea, Eb in *.
    apply (veq_eq d); [| | | |exact Q].
    + inversion T1; assumption.
    + inversion T2; assumption.
    + inversion N1; assumption.
    + inversion N2; assumption.
  - (* sorted *)
    pose proof (so_sorted _ _ _ S1) as A1. pose proof (so_sorted _ _ _ S2) as A2.
    pose proof (so_max _ _ _ S1) as M1. pose proof (so_min _ _ _ S2) as M2.
    unfold merge_sortedness, le_scalar. destruct (s_sorted s1) as [c1|]; cbn in *; [|exact I].
    destruct (s_sorted s2) as [c2|]; cbn in *; [|exact I].
    destruct (s_max s1) as [m1|]; cbn in *; [|exact I]. destruct (s_min s2) as [m2|]; cbn in *; [|exact I].
    destruct c1; cbn [andb]; [|cbn; congruence]. destruct c2; cbn [andb]; [|cbn; congruence].
    rewrite nn_app.
    unfold is_greatest in M1. unfold is_least in M2.
    destruct (nn l1) as [|a r1] eqn:X1.
    { cbn [app]. destruct (vcmp d (snd m1) (snd m2)) as [[]|]; cbn [oall]; intros HH; first [discriminate HH|auto]. }
    destruct (nn l2) as [|b r2] eqn:X2.
    { rewrite app_nil_r. destruct (vcmp d (snd m1) (snd m2)) as [[]|]; cbn [oall]; intros HH; first [discriminate HH|auto]. }
    rewrite <- X1, <- X2 in *. destruct M1 as [I1 G1], M2 as [I2 G2].
    assert (vle d (snd m1) (snd m2) -> sorted_by (vle d) (nn l1 ++ nn l2)) as K.
    { intros L. apply sorted_by_app. split; [auto|]. split; [auto|]. intros x y Hx Hy.
      apply (vle_trans d x (snd m1) y); auto. apply (vle_trans d (snd m1) (snd m2) y); auto. }
    unfold vle in K at 1. destruct (vcmp d (snd m1) (snd m2)) as [[]|]; cbn [oall]; intros HH; first [discriminate HH | apply K; auto].
  - (* unsorted *)
    pose proof (so_unsorted _ _ _ S1) as A1. pose proof (so_unsorted _ _ _ S2) as A2.
    pose proof (so_max _ _ _ S1) as M1. pose proof (so_min _ _ _ S2) as M2.
    unfold merge_sortedness, le_scalar. destruct (s_sorted s1) as [c1|]; cbn in *; [|exact I].
    destruct (s_sorted s2) as [c2|]; cbn in *; [|exact I].
    destruct (s_max s1) as [m1|]; cbn in *; [|exact I]. destruct (s_min s2) as [m2|]; cbn in *; [|exact I].
    rewrite nn_app.
    destruct c1; cbn [andb].
    2:{ cbn. intros _ H. apply sorted_by_app in H. apply (A1 eq_refl), H. }
    destruct c2; cbn [andb].
    2:{ cbn. intros _ H. apply sorted_by_app in H. apply (A2 eq_refl), H. }
    match goal with |- oall _ (if ?c then _ else _) => destruct c eqn:Q end; cbn; [congruence|].
    intros _ H. apply sorted_by_app in H. destruct H as (_ & _ & H).
    unfold is_greatest in M1. unfold is_least in M2.
    destruct (nn l2) as [|b r2] eqn:X2.
    { rewrite M2 in Q. destruct (snd m1); cbn in Q; discriminate. }
    destruct (nn l1) as [|a r1] eqn:X1.
    { destruct Pm as [Pm|[[Pm _]|Pm]]; try discriminate. destruct Pm as [Pm _]. discriminate (Pm eq_refl). }
    rewrite <- X1, <- X2 in *. destruct M1 as [I1 G1], M2 as [I2 G2].
    pose proof (H _ _ I1 I2) as L. unfold vle in L. destruct L as [L|L]; rewrite L in Q; discriminate.
  - (* strict *)
    pose proof (so_strict _ _ _ S1) as A1. pose proof (so_strict _ _ _ S2) as A2.
    pose proof (so_max _ _ _ S1) as M1. pose proof (so_min _ _ _ S2) as M2.
    unfold merge_sortedness, lt_scalar. destruct (s_strict s1) as [c1|]; cbn in *; [|exact I].
    destruct (s_strict s2) as [c2|]; cbn in *; [|exact I].
    destruct (s_max s1) as [m1|]; cbn in *; [|exact I]. destruct (s_min s2) as [m2|]; cbn in *; [|exact I].
    destruct c1; cbn [andb]; [|cbn; congruence]. destruct c2; cbn [andb]; [|cbn; congruence].
    rewrite nn_app.
    unfold is_greatest in M1. unfold is_least in M2.
    destruct (nn l1) as [|a r1] eqn:X1.
    { cbn [app]. destruct (vcmp d (snd m1) (snd m2)) as [[]|]; cbn [oall]; intros HH; first [discriminate HH|auto]. }
    destruct (nn l2) as [|b r2] eqn:X2.
    { rewrite app_nil_r. destruct (vcmp d (snd m1) (snd m2)) as [[]|]; cbn [oall]; intros HH; first [discriminate HH|auto]. }
    rewrite <- X1, <- X2 in *. destruct M1 as [I1 G1], M2 as [I2 G2].
    assert (vlt d (snd m1) (snd m2) -> sorted_by (vlt d) (nn l1 ++ nn l2)) as K.
    { intros L. apply sorted_by_app. split; [auto|]. split; [auto|]. intros x y Hx Hy.
      apply (vle_vlt_trans d x (snd m1) y); auto. apply (vlt_vle_trans d (snd m1) (snd m2) y); auto. }
    unfold vlt in K at 1. destruct (vcmp d (snd m1) (snd m2)) as [[]|]; cbn [oall]; intros HH; first [discriminate HH | apply K; auto].
  - (* runs *)
    pose proof (so_runs _ _ _ S1) as A1. pose proof (so_runs _ _ _ S2) as A2.
    unfold merge_sum. destruct (s_runs s1), (s_runs s2); cbn in *; try exact I.
    rewrite nn_app. pose proof (run_count_app_le (nn l1) (nn l2)). lia.
  - pose proof (so_true _ _ _ S1) as A1. pose proof (so_true _ _ _ S2) as A2.
    unfold merge_sum. destruct (s_true s1), (s_true s2); cbn in *; try exact I.
    rewrite count_app. lia.
  - pose proof (so_nulls _ _ _ S1) as A1. pose proof (so_nulls _ _ _ S2) as A2.
    unfold merge_sum. destruct (s_nulls s1), (s_nulls s2); cbn in *; try exact I.
    rewrite count_app. lia.
  - pose proof (so_bw _ _ _ S1) as A1. pose proof (so_bw _ _ _ S2) as A2.
    unfold merge_freq. destruct (s_bw s1) as [h1|], (s_bw s2) as [h2|]; cbn in *; try exact I.
    destruct A1 as [L1 C1], A2 as [L2 C2]. split; [rewrite sum_lists_length; lia|].
    intros k Hk. rewrite nth_sum_lists by lia. rewrite C1, C2, count_app by lia. reflexivity.
  - pose proof (so_tz _ _ _ S1) as A1. pose proof (so_tz _ _ _ S2) as A2.
    unfold merge_freq. destruct (s_tz s1) as [h1|], (s_tz s2) as [h2|]; cbn in *; try exact I.
    destruct A1 as [L1 C1], A2 as [L2 C2]. split; [rewrite sum_lists_length; lia|].
    intros k Hk. rewrite nth_sum_lists by lia. rewrite count_app. pose proof (C1 k Hk). pose proof (C2 k Hk). lia.
Qed.
