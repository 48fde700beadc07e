(** Booleans, strings and whole arrays. *)
From Verif Require Import Base Spec Arr ArrRead ArrWf ArrReadProofs ArrSlice ValidityModel PropValidity StatsModel StatsProofs StatsProofs2.

(** * Booleans *)
Definition voB (x : option bool) : value := match x with Some b => VBool b | None => VNull end.
Definition is_true_v (x : value) : bool := match x with VBool true => true | _ => false end.
Definition DB := DBool true.

Record bacc_ok (l : list value) (c : bacc) : Prop := BaccOk {
  d_core : exists k, core_ok DB (nn l) k /\ c_prev k = VBool (b_prev c) /\ c_sorted k = b_sorted c /\ c_runs k = b_runs c;
  d_nulls : b_nulls c = count is_null l;
  d_true : b_true c = count is_true_v l;
  d_len : b_len c = length l }.
Definition bs_ok (l : list value) : Prop := Forall (fun x => match x with VBool _ | VNull => True | _ => False end) l.

Lemma elem_bool b : elem DB (VBool b).
Proof. split; [exact I|]. split; [discriminate|reflexivity]. Qed.
Lemma bs_elem l : bs_ok l -> Forall (elem DB) (nn l).
Proof.
  intros H. unfold bs_ok in H. rewrite Forall_forall in *. intros x Hx. apply In_nn in Hx. destruct Hx as [Hx Hn].
  specialize (H x Hx). destruct x; try contradiction; try congruence. apply elem_bool.
Qed.
Lemma bacc_new_ok b : bacc_ok [VBool b] (bacc_new b).
Proof.
  constructor; cbn.
  - exists (Core (VBool b) (VBool b) (VBool b) true true 1). split; [apply (core_ok_one DB), elem_bool|]. auto.
  - reflexivity.
  - destruct b; reflexivity.
  - reflexivity.
Qed.
Lemma bacc_nulls_ok l1 l2 n c : bacc_ok (l1 ++ l2) c -> bacc_ok (l1 ++ repeat VNull n ++ l2) (bacc_nulls n c).
Proof.
  intros [Hc Hn Ht Hl].
  assert (nn (l1 ++ repeat VNull n ++ l2) = nn (l1 ++ l2)) as N.
  { rewrite !nn_app. f_equal. assert (nn (repeat VNull n) = []) as ->; [|reflexivity].
    unfold nn. clear. induction n; cbn; auto. }
  constructor; cbn [bacc_nulls b_prev b_sorted b_runs b_nulls b_true b_len].
  - rewrite N. exact Hc.
  - rewrite Hn, !count_app. assert (count is_null (repeat VNull n) = n) as ->; [|lia].
    unfold count. clear. induction n; cbn; auto.
  - rewrite Ht, !count_app. assert (count is_true_v (repeat VNull n) = 0) as ->; [|lia].
    unfold count. clear. induction n; cbn; auto.
  - rewrite Hl, !app_length, repeat_length. lia.
Qed.
Lemma bacc_next_ok l c b : bs_ok l -> bacc_ok l c -> bacc_ok (l ++ [VBool b]) (bacc_next c b).
Proof.
  intros Bl [(k & Hk & P1 & P2 & P3) Hn Ht Hl].
  constructor; cbn [bacc_next b_prev b_sorted b_runs b_nulls b_true b_len].
  - exists (core_next DB k (VBool b)). rewrite nn_app. split; [|].
    + apply core_ok_snoc; [apply bs_elem, Bl|apply elem_bool|exact Hk].
    + cbn [core_next c_prev c_sorted c_runs]. rewrite P1, P2, P3. split; [|split].
      * destruct b, (b_prev c); reflexivity.
      * unfold vltb. cbn. destruct b, (b_prev c), (b_sorted c); reflexivity.
      * cbn [vsame]. destruct b, (b_prev c); cbn; lia.
  - rewrite count_app. cbn. lia.
  - rewrite count_app, count_one, Ht. destruct b; reflexivity.
  - rewrite app_length. cbn. lia.
Qed.
Lemma bacc_fold_ok r l c :
  bs_ok l -> bacc_ok l c -> bacc_ok (l ++ map voB r) (fold_left bacc_nullable_next r c).
Proof.
  revert l c; induction r as [|x r IH]; intros l c Zl H; [rewrite app_nil_r; exact H|].
  cbn [fold_left map].
  replace (l ++ voB x :: map voB r) with ((l ++ [voB x]) ++ map voB r) by (rewrite <- app_assoc; reflexivity).
  apply IH; [apply Forall_app; split; [exact Zl|constructor; [destruct x; exact I|constructor]]|].
  destruct x as [z|]; cbn [bacc_nullable_next voB].
  - apply bacc_next_ok; assumption.
  - apply (bacc_nulls_ok l [] 1). rewrite app_nil_r. exact H.
Qed.

(** Excluded by finding: with nulls and only true values the reported minimum is false. *)
Definition bool_cond (l : list value) : Prop := In VNull l -> nn l = [] \/ In (VBool false) l.

Lemma count_true_le l : count is_true_v l + count is_null l <= length l.
Proof. unfold count. induction l as [|x l IH]; cbn; [lia|]. destruct x as [|[]| | |]; cbn; lia. Qed.
Lemma count_pos {A} (f : A -> bool) l : 0 < count f l -> exists x, In x l /\ f x = true.
Proof.
  unfold count. intros H. destruct (filter f l) as [|x r] eqn:E; [cbn in H; lia|].
  exists x. apply filter_In. rewrite E. left; reflexivity.
Qed.
Lemma count_all_true l : bs_ok l -> count is_true_v l = length l -> Forall (eq (VBool true)) l.
Proof.
  unfold count. induction l as [|x l IH]; cbn; intros B H; [constructor|]. inversion B; subst.
  pose proof (filter_length_le is_true_v l).
  destruct x as [|[]| | |]; cbn in H; try lia. constructor; [reflexivity|]. apply IH; [assumption|lia].
Qed.
Lemma bs_in l x : bs_ok l -> In x l -> x = VNull \/ exists b, x = VBool b.
Proof.
  unfold bs_ok. rewrite Forall_forall. intros H Hx. specialize (H x Hx). destruct x; try contradiction; eauto.
Qed.

Lemma bacc_sound l c : bs_ok l -> bool_cond l -> bacc_ok l c -> sound DB l (bacc_finish c).
Proof.
  intros Bl Cl [(k & Hk & P1 & P2 & P3) Hn Ht Hl].
  pose proof (bs_elem l Bl) as El.
  assert (nn l <> []) as NE by (destruct (k_prev _ _ _ Hk) as [pre ->]; destruct pre; discriminate).
  assert (forall x, In x (nn l) -> exists b, x = VBool b) as NB.
  { intros x Hx. apply In_nn in Hx. destruct Hx as [Hx Hx2]. destruct (bs_in l x Bl Hx); [congruence|assumption]. }
  assert (forall x, (In x (nn l) /\ forall y, In y (nn l) -> vle DB x y) -> is_least DB l x) as GoL.
  { intros x Hx. unfold is_least. destruct (nn l); [congruence|exact Hx]. }
  assert (forall x, (In x (nn l) /\ forall y, In y (nn l) -> vle DB y x) -> is_greatest DB l x) as GoG.
  { intros x Hx. unfold is_greatest. destruct (nn l); [congruence|exact Hx]. }
  assert (count is_true_v l = length l -> Forall (eq (VBool true)) l) as AT by (apply count_all_true, Bl).
  constructor; cbn [bacc_finish s_bw s_tz s_const s_sorted s_strict s_max s_min s_runs s_true s_nulls oall snd];
    rewrite ?Hn, ?Ht, ?Hl.
  - apply GoL. destruct (Nat.eqb_spec (count is_true_v l) (length l)) as [E|E].
    + specialize (AT E). rewrite Forall_forall in AT. split.
      * destruct (nn l) as [|a r] eqn:X; [congruence|]. left. assert (In a (nn l)) as Ha by (rewrite X; left; reflexivity).
        apply In_nn in Ha. symmetry. apply AT. apply Ha.
      * intros y Hy. apply In_nn in Hy. rewrite <- (AT y) by apply Hy. right. reflexivity.
    + assert (In (VBool false) l) as Hf.
      { destruct (in_dec (fun x y : bool => bool_dec x y) true (map is_null l)) as [Hin|Hno].
        - apply in_map_iff in Hin. destruct Hin as (x & Hx & Hin). destruct x; try discriminate.
          destruct (Cl Hin); [congruence|assumption].
        - (* no nulls: some element is not true *)
          clear -Bl E Hno. induction l as [|x l IH]; [exfalso; apply E; reflexivity|].
          inversion Bl; subst. destruct x as [|[]| | |]; try contradiction.
          + exfalso. apply Hno. left. reflexivity.
          + right. apply IH; [assumption| |].
            * intros E'. apply E. unfold count in *. cbn. lia.
            * intros Hc. apply Hno. right. exact Hc.
          + left. reflexivity. }
      split; [apply In_nn; split; [exact Hf|discriminate]|].
      intros y Hy. destruct (NB y Hy) as [[] ->]; [left|right]; reflexivity.
  - apply GoG. destruct (Nat.ltb_spec 0 (count is_true_v l)) as [E|E].
    + destruct (count_pos _ _ E) as (x & Hx & Hx2). destruct x as [|[]| | |]; try discriminate.
      split; [apply In_nn; split; [exact Hx|discriminate]|].
      intros y Hy. destruct (NB y Hy) as [[] ->]; [right|left]; reflexivity.
    + assert (forall y, In y (nn l) -> y = VBool false) as AF.
      { intros y Hy. destruct (NB y Hy) as [[] ->]; [|reflexivity]. apply In_nn in Hy.
        assert (count is_true_v l = 0) as Z0 by lia. pose proof (count_zero _ _ Z0 (VBool true) (proj1 Hy)). discriminate. }
      split.
      * destruct (nn l) as [|a r]; [congruence|]. left. apply AF. left. reflexivity.
      * intros y Hy. rewrite (AF y Hy). right. reflexivity.
  - intros H. apply orb_true_iff in H. destruct H as [H|H].
    + apply andb_true_iff in H. destruct H as [H0 H]. apply Nat.eqb_eq in H0. apply orb_true_iff in H. destruct H as [H|H].
      * exists (VBool true). apply AT. apply Nat.eqb_eq, H.
      * exists (VBool false). apply Nat.eqb_eq in H. apply Forall_forall. intros x Hx.
        pose proof (count_zero _ _ H0 x Hx) as A. pose proof (count_zero _ _ H x Hx) as B.
        destruct (bs_in l x Bl Hx) as [->|[[] ->]]; try discriminate; reflexivity.
    + apply Nat.eqb_eq in H. pose proof (nn_length l). destruct (nn l); [congruence|]. cbn in *. lia.
  - intros H. apply (k_sorted _ _ _ Hk). congruence.
  - intros H X. apply (k_sorted _ _ _ Hk) in X. congruence.
  - intros H. apply andb_true_iff in H. destruct H as [Hs H]. rewrite <- P2 in Hs. apply (k_sorted _ _ _ Hk) in Hs.
    pose proof (nn_length l) as NL. apply orb_true_iff in H. destruct H as [H|H].
    + apply Nat.ltb_lt in H. destruct (nn l) as [|a [|b r]]; [exact I|cbn; intuition|cbn in NL; lia].
    + apply andb_true_iff in H. destruct H as [H2 H1]. apply Nat.eqb_eq in H1, H2.
      assert (count is_true_v (nn l) = 1) as CT.
      { rewrite <- H1. unfold count, nn. clear. induction l as [|x l IH]; [reflexivity|]. cbn.
        destruct x as [|[]| | |]; cbn; auto. }
      destruct (nn l) as [|a [|b [|? ?]]]; [exact I|cbn; intuition| |cbn in NL; lia].
      destruct (NB a (or_introl eq_refl)) as [a' ->]. destruct (NB b (or_intror (or_introl eq_refl))) as [b' ->].
      cbn in Hs. destruct Hs as [Hs _]. specialize (Hs (VBool b') (or_introl eq_refl)).
      cbn. split; [|intuition]. intros y [<-|[]].
      unfold count in CT. destruct a', b'; cbn in *; try discriminate; try reflexivity.
      destruct Hs; discriminate.
  - rewrite <- P3, (k_runs _ _ _ Hk). lia.
  - reflexivity.
  - exact I.
  - exact I.
  - exact I.
Qed.

Lemma bool_stats_sound (l : list bool) v (L : list value) :
  vwf v (length l) -> L = map voB (opts l (vbits v (length l))) -> bool_cond L ->
  sound DB L (bool_stats l v).
Proof.
  intros Hw HL Cl. pose proof (validity_to_logical v (length l) Hw) as [HN HB].
  assert (bs_ok L) as BL.
  { subst L. apply Forall_forall. intros x Hx. apply in_map_iff in Hx. destruct Hx as ([b|] & <- & _); exact I. }
  rewrite <- HB in HL. unfold bool_stats. destruct l as [|b0 l0]; [apply no_stats_sound|].
  remember (b0 :: l0) as l eqn:El.
  destruct (to_logical v (length l)) as [n|n|m]; cbn [llen lbuf] in HN, HL.
  - subst n. rewrite opts_all, map_map in HL.
    apply bacc_sound; [exact BL|exact Cl|].
    replace (fold_left bacc_next l0 (bacc_new b0)) with (fold_left bacc_nullable_next (map Some l0) (bacc_new b0)).
    + rewrite HL, El. change (map (fun x => voB (Some x)) (b0 :: l0)) with ([VBool b0] ++ map (fun x => voB (Some x)) l0).
      rewrite <- (map_map Some voB). apply bacc_fold_ok; [|apply bacc_new_ok].
      constructor; [exact I|constructor].
    + generalize (bacc_new b0). clear. induction l0 as [|x l IH]; intros c; [reflexivity|]. cbn. apply IH.
  - subst n. rewrite opts_none, map_repeat' in HL by reflexivity. rewrite HL.
    apply (sound_erase (DBool (vnullable v))); [reflexivity|]. apply nulls_sound.
  - pose proof (first_true_spec m) as F. destruct (first_true m) as [k|].
    + destruct F as (A & B & C). apply bacc_sound; [exact BL|exact Cl|].
      rewrite HL, (opts_split l m k false HN A B C) at 1. rewrite map_app, map_repeat'. cbn [map voB].
      replace (repeat VNull k ++ VBool (nth k l false) :: map voB (skipn (k + 1) (opts l m)))
        with ((repeat VNull k ++ [VBool (nth k l false)]) ++ map voB (skipn (k + 1) (opts l m))) by (rewrite <- app_assoc; reflexivity).
      apply bacc_fold_ok.
      * apply Forall_app. split; [|constructor; [exact I|constructor]]. apply Forall_forall. intros x Hx.
        apply repeat_spec in Hx. subst. exact I.
      * apply (bacc_nulls_ok [] [VBool (nth k l false)]). apply bacc_new_ok.
    + rewrite F, HN in HL. rewrite opts_none, map_repeat' in HL by reflexivity. rewrite HL.
      apply nulls_sound.
Qed.

(** * Byte strings *)
Definition voS (x : option (list Z)) : value := match x with Some b => VBytes b | None => VNull end.
Definition DS := DBinary true.
Definition score (c : sacc) : core :=
  Core (VBytes (a_last c)) (VBytes (a_min c)) (VBytes (a_max c)) (a_sorted c) (a_strict c) (a_runs c).
Record sacc_ok (l : list value) (c : sacc) : Prop := SaccOk {
  e_core : core_ok DS (nn l) (score c);
  e_nulls : a_nulls c = count is_null l;
  e_len : a_len c = length l }.
Definition ss_okl (l : list value) : Prop := Forall (fun x => match x with VBytes _ | VNull => True | _ => False end) l.
Lemma elem_bytes b : elem DS (VBytes b).
Proof. split; [exact I|]. split; [discriminate|reflexivity]. Qed.
Lemma ss_elem l : ss_okl l -> Forall (elem DS) (nn l).
Proof.
  intros H. unfold ss_okl in H. rewrite Forall_forall in *. intros x Hx. apply In_nn in Hx. destruct Hx as [Hx Hn].
  specialize (H x Hx). destruct x; try contradiction; try congruence. apply elem_bytes.
Qed.
Lemma sacc_nulls_ok l1 l2 n c : sacc_ok (l1 ++ l2) c -> sacc_ok (l1 ++ repeat VNull n ++ l2) (sacc_nulls n c).
Proof.
  intros [Hc Hn Hl].
  assert (nn (l1 ++ repeat VNull n ++ l2) = nn (l1 ++ l2)) as N.
  { rewrite !nn_app. f_equal. assert (nn (repeat VNull n) = []) as ->; [|reflexivity].
    unfold nn. clear. induction n; cbn; auto. }
  constructor; cbn [sacc_nulls a_nulls a_len].
  - rewrite N. exact Hc.
  - rewrite Hn, !count_app. assert (count is_null (repeat VNull n) = n) as ->; [|lia].
    unfold count. clear. induction n; cbn; auto.
  - rewrite Hl, !app_length, repeat_length. lia.
Qed.
Lemma score_next c x : score (sacc_next c x) = core_next DS (score c) (VBytes x).
Proof.
  unfold sacc_next, score, core_next, vltb, blt. cbn [vcmp c_prev c_min c_max c_sorted c_strict c_runs vsame].
  rewrite (bcmp_opp x (a_last c)). unfold bytes_eqb. rewrite (bcmp_opp x (a_last c)).
  destruct (bcmp x (a_last c)) eqn:E;
    cbn [CompOpp a_last a_min a_max a_sorted a_strict a_runs negb]; rewrite ?andb_false_r, ?andb_true_r.
  - apply bcmp_eq in E. subst x. f_equal; try lia;
      destruct (bcmp (a_last c) (a_min c)); try reflexivity; destruct (bcmp (a_max c) (a_last c)); reflexivity.
  - f_equal; destruct (bcmp x (a_min c)); try reflexivity; destruct (bcmp (a_max c) x); reflexivity.
  - f_equal; destruct (bcmp x (a_min c)); try reflexivity; destruct (bcmp (a_max c) x); reflexivity.
Qed.
Lemma sacc_nulls_next c x : a_nulls (sacc_next c x) = a_nulls c /\ a_len (sacc_next c x) = a_len c + 1.
Proof. unfold sacc_next. destruct (bcmp x (a_last c)); split; reflexivity. Qed.
Lemma sacc_next_ok l c b : ss_okl l -> sacc_ok l c -> sacc_ok (l ++ [VBytes b]) (sacc_next c b).
Proof.
  intros Bl [Hc Hn Hl]. destruct (sacc_nulls_next c b) as [E1 E2]. constructor.
  - rewrite score_next, nn_app. apply core_ok_snoc; [apply ss_elem, Bl|apply elem_bytes|exact Hc].
  - rewrite E1, count_app. cbn. lia.
  - rewrite E2, app_length. cbn. lia.
Qed.
Lemma sacc_fold_ok r l c :
  ss_okl l -> sacc_ok l c -> sacc_ok (l ++ map voS r) (fold_left sacc_nullable_next r c).
Proof.
  revert l c; induction r as [|x r IH]; intros l c Zl H; [rewrite app_nil_r; exact H|].
  cbn [fold_left map].
  replace (l ++ voS x :: map voS r) with ((l ++ [voS x]) ++ map voS r) by (rewrite <- app_assoc; reflexivity).
  apply IH; [apply Forall_app; split; [exact Zl|constructor; [destruct x; exact I|constructor]]|].
  destruct x as [z|]; cbn [sacc_nullable_next voS].
  - apply sacc_next_ok; assumption.
  - apply (sacc_nulls_ok l [] 1). rewrite app_nil_r. exact H.
Qed.
Lemma sacc_sound l n c : ss_okl l -> sacc_ok l c -> sound DS l (sacc_finish n c).
Proof.
  intros Bl [Hc Hn Hl]. pose proof (ss_elem l Bl) as El. destruct (core_sound _ _ _ El Hc) as [Smin Smax].
  constructor; cbn [sacc_finish s_bw s_tz s_const s_sorted s_strict s_max s_min s_runs s_true s_nulls oall].
  - exact Smin.
  - exact Smax.
  - intros H. apply orb_true_iff in H. destruct H as [H|H].
    + apply andb_true_iff in H. destruct H as [He Hnu]. apply bytes_eqb_eq in He.
      exists (VBytes (a_min c)). pose proof (core_min_max_eq _ _ _ El Hc) as F. cbn in F.
      specialize (F ltac:(congruence)).
      rewrite Forall_forall in F |- *. intros x Hx. apply F. apply In_nn. split; [exact Hx|].
      apply Nat.eqb_eq in Hnu. rewrite Hn in Hnu. pose proof (count_zero _ _ Hnu x Hx). destruct x; cbn in *; congruence.
    + apply Nat.eqb_eq in H. rewrite Hn, Hl in H. pose proof (nn_length l).
      destruct (k_prev _ _ _ Hc) as [pre E]. rewrite E, app_length in *. cbn in *. lia.
  - intros H. apply (k_sorted _ _ _ Hc). exact H.
  - intros H H2. apply (k_sorted _ _ _ Hc) in H2. cbn in H2. congruence.
  - intros H. apply (k_strict _ _ _ Hc). exact H.
  - rewrite <- (k_runs _ _ _ Hc). cbn. lia.
  - exact I.
  - exact Hn.
  - exact I.
  - exact I.
Qed.
Lemma str_go_sound d l nul :
  (exists n, d = DUtf8 n \/ d = DBinary n) ->
  sound d (repeat VNull nul ++ map voS l) (str_stats_go nul d l).
Proof.
  intros Hd. revert nul; induction l as [|x l IH]; intros nul; cbn [str_stats_go map].
  - rewrite app_nil_r. apply nulls_sound.
  - destruct x as [s|].
    + assert (sound DS (repeat VNull nul ++ VBytes s :: map voS l)
        (sacc_finish (nullable d) (fold_left sacc_nullable_next l (sacc_nulls nul (sacc_new s))))) as S.
      { replace (repeat VNull nul ++ VBytes s :: map voS l) with ((repeat VNull nul ++ [VBytes s]) ++ map voS l)
          by (rewrite <- app_assoc; reflexivity).
        assert (ss_okl (repeat VNull nul ++ [VBytes s])) as B1.
        { apply Forall_app. split; [|constructor; [exact I|constructor]]. apply Forall_forall. intros x Hx.
          apply repeat_spec in Hx. subst. exact I. }
        apply sacc_sound.
        - apply Forall_app. split; [exact B1|]. apply Forall_forall. intros x Hx. apply in_map_iff in Hx.
          destruct Hx as ([b|] & <- & _); exact I.
        - apply sacc_fold_ok; [exact B1|]. apply (sacc_nulls_ok [] [VBytes s]). constructor; cbn.
          + apply (core_ok_one DS), elem_bytes.
          + reflexivity.
          + reflexivity. }
      destruct Hd as [n [->| ->]].
      * cbn [nullable] in *. destruct S as [S1 S2 S3 S4 S5 S6 S7 S8 S9 S10 S11].
        (* Utf8 and Binary order bytes alike *)
        constructor; assumption.
      * apply (sound_erase DS); [reflexivity|exact S].
    + replace (repeat VNull nul ++ voS None :: map voS l) with (repeat VNull (nul + 1) ++ map voS l).
      * apply IH.
      * rewrite repeat_app, <- app_assoc. reflexivity.
Qed.
Lemma str_stats_sound d l :
  (exists n, d = DUtf8 n \/ d = DBinary n) -> sound d (map voS l) (str_stats d l).
Proof.
  intros Hd. unfold str_stats. destruct l as [|x l]; [apply no_stats_sound|].
  apply (str_go_sound d (x :: l) 0 Hd).
Qed.
