(** C16: dictionary encoding. *)
From Verif Require Import Base Spec SearchModel SearchProofs Arr ArrRead ArrWf ArrReadProofs ArrSlice ArrSliceProofs
  ValidityModel PropValidity StatsModel PropIntEnc DictEnc.

Lemma NoDup_app_one {A} (l : list A) x : NoDup l -> ~ In x l -> NoDup (l ++ [x]).
Proof.
  induction l as [|y l IH]; intros N H; [repeat constructor; auto|]. inversion N; subst. cbn. constructor.
  - rewrite in_app_iff. cbn. intros [G|[G|[]]]; [auto|]. subst. apply H. left. reflexivity.
  - apply IH; [assumption|]. intros G. apply H. right. exact G.
Qed.

Section Loop.
  Context {K : Type}.
  Variable eqb : K -> K -> bool.
  Hypothesis eqb_spec : forall x y, eqb x y = true <-> x = y.

  Lemma dict_loop_spec base : forall l lk values codes values',
    dict_loop eqb lk values l = (codes, values') ->
    (forall z c, dict_lookup eqb lk z = Some c <-> base <= c /\ nth_error values c = Some z) ->
    base <= length values ->
    NoDup (skipn base values) ->
    (exists ext, values' = values ++ ext) /\ NoDup (skipn base values') /\ length codes = length l /\
    length values' <= length values + length l /\
    incl (skipn base values') (skipn base values ++ concat (map (fun o => match o with Some z => [z] | None => [] end) l)) /\
    (forall i o, nth_error l i = Some o ->
       match o with
       | None => nth i codes 0 = 0
       | Some z => base <= nth i codes 0 /\ nth_error values' (nth i codes 0) = Some z
       end).
  Proof.
    induction l as [|o l IH]; intros lk values codes values' E Inv Hb ND.
    - injection E as <- <-. split; [exists []; rewrite app_nil_r; reflexivity|]. split; [exact ND|]. split; [reflexivity|].
      split; [lia|]. split; [rewrite app_nil_r; intros x Hx; exact Hx|]. intros [|i] o Ho; discriminate.
    - destruct o as [z|]; cbn [dict_loop] in E.
      + destruct (dict_lookup eqb lk z) as [c|] eqn:Lk.
        * destruct (dict_loop eqb lk values l) as [cs vs] eqn:R. injection E as <- <-.
          destruct (IH _ _ _ _ R Inv Hb ND) as ((ext & Ex) & ND' & Lc & Lv & Inc & P).
          split; [exists ext; exact Ex|]. split; [exact ND'|]. split; [cbn; lia|]. split; [cbn; lia|].
          split; [intros x Hx; apply Inc, in_app_or in Hx; apply in_or_app; destruct Hx; [left; auto|right; cbn; auto]|].
          intros [|i] o Ho; [|exact (P i o Ho)]. injection Ho as <-. cbn [nth].
          apply Inv in Lk. destruct Lk as [L1 L2]. split; [exact L1|].
          rewrite Ex. rewrite nth_error_app1; [exact L2|]. apply nth_error_Some. congruence.
        * destruct (dict_loop eqb ((z, length values) :: lk) (values ++ [z]) l) as [cs vs] eqn:R. injection E as <- <-.
          assert (skipn base (values ++ [z]) = skipn base values ++ [z]) as Sk.
          { rewrite skipn_app. replace (base - length values) with 0 by lia. reflexivity. }
          assert (forall k, nth_error values k = Some z -> k < base) as Fresh.
          { intros k Hk. destruct (le_lt_dec base k) as [G|G]; [|exact G]. exfalso.
            assert (dict_lookup eqb lk z = Some k) by (apply Inv; auto). congruence. }
          destruct (IH _ _ _ _ R) as ((ext & Ex) & ND' & Lc & Lv & Inc & P).
          { intros z' c. cbn [dict_lookup]. destruct (eqb z z') eqn:Ez.
            - apply eqb_spec in Ez. subst z'. split.
              + intros [= <-]. split; [lia|]. rewrite nth_error_app2, Nat.sub_diag by lia. reflexivity.
              + intros [H1 H2]. destruct (lt_eq_lt_dec c (length values)) as [[G|G]|G].
                * rewrite nth_error_app1 in H2 by lia. apply Fresh in H2. lia.
                * subst c. reflexivity.
                * exfalso. assert (nth_error (values ++ [z]) c <> None) as G2 by congruence. apply nth_error_Some in G2. rewrite app_length in G2. cbn in G2. lia.
            - rewrite Inv. assert (z <> z') as Nz by (intros ->; rewrite (proj2 (eqb_spec z' z') eq_refl) in Ez; discriminate).
              split; intros [H1 H2]; split; try exact H1.
              + rewrite nth_error_app1; [exact H2|]. apply nth_error_Some. congruence.
              + destruct (lt_eq_lt_dec c (length values)) as [[G|G]|G].
                * rewrite nth_error_app1 in H2 by lia. exact H2.
                * subst c. rewrite nth_error_app2, Nat.sub_diag in H2 by lia. cbn in H2. congruence.
                * exfalso. assert (nth_error (values ++ [z]) c <> None) as G2 by congruence. apply nth_error_Some in G2. rewrite app_length in G2. cbn in G2. lia. }
          { rewrite app_length. lia. }
          { rewrite Sk. apply NoDup_app_one; [exact ND|]. intros Hin. apply In_nth_error in Hin. destruct Hin as [k Hk].
            rewrite nth_error_skipn in Hk. apply Fresh in Hk. lia. }
          split; [exists (z :: ext); rewrite Ex, <- app_assoc; reflexivity|]. split; [exact ND'|]. split; [cbn; lia|].
          split; [rewrite app_length in Lv; cbn in *; lia|].
          split.
          { intros x Hx. apply Inc, in_app_or in Hx. rewrite Sk in Hx. apply in_or_app. cbn [map concat].
            destruct Hx as [Hx|Hx]; [apply in_app_or in Hx; destruct Hx as [Hx|[<-|[]]]; [left; exact Hx|right; left; reflexivity]|].
            right. right. exact Hx. }
          intros [|i] o Ho; [|exact (P i o Ho)]. injection Ho as <-. cbn [nth]. split; [lia|].
          rewrite Ex. rewrite nth_error_app1 by (rewrite app_length; cbn; lia). rewrite nth_error_app2, Nat.sub_diag by lia. reflexivity.
      + destruct (dict_loop eqb lk values l) as [cs vs] eqn:R. injection E as <- <-.
        destruct (IH _ _ _ _ R Inv Hb ND) as ((ext & Ex) & ND' & Lc & Lv & Inc & P).
        split; [exists ext; exact Ex|]. split; [exact ND'|]. split; [cbn; lia|]. split; [cbn; lia|]. split; [exact Inc|].
        intros [|i] o Ho; [|exact (P i o Ho)]. injection Ho as <-. reflexivity.
  Qed.
End Loop.

Lemma logical_nonnull p l : logical (APrim p l VNonNull) = map VInt l.
Proof. exact (logical_allvalid p l). Qed.
Lemma ints_VInt l : ints (map VInt l) = l.
Proof. unfold ints. rewrite map_map. apply map_id. Qed.

Lemma dict_values_validity_spec nl n i : (nl = true -> 1 <= n) -> i < n ->
  vvalid (dict_values_validity nl n) i = negb (nl && (i =? 0)).
Proof.
  intros Hn Hi. unfold dict_values_validity. destruct nl; [|reflexivity].
  assert (length (false :: repeat true (n - 1)) = n) as L by (cbn; rewrite repeat_length; lia).
  rewrite <- (nth_vbits _ n i false Hi). rewrite <- L at 2. rewrite vfrom_bits.
  destruct i as [|i]; [reflexivity|]. cbn [nth]. rewrite nth_repeat_lt by lia. reflexivity.
Qed.
Lemma dict_values_validity_wf nl n : (nl = true -> 1 <= n) -> vwf (dict_values_validity nl n) n.
Proof.
  intros Hn. unfold dict_values_validity. destruct nl; [|exact I].
  assert (length (false :: repeat true (n - 1)) = n) as L by (cbn; rewrite repeat_length; lia). rewrite <- L at 2. apply vfrom_wf.
Qed.
Lemma dict_values_validity_nullable nl n : vnullable (dict_values_validity nl n) = nl.
Proof. unfold dict_values_validity. destruct nl; [apply validity_from_bits|reflexivity]. Qed.

(** From the loop's result to the dictionary array. *)
Section Result.
  Context {K : Type} (inj : K -> value) (dk : K).
  Hypothesis inj_nn : forall k, inj k <> VNull.
  Hypothesis inj_inj : forall a b, inj a = inj b -> a = b.
  Variables (nl : bool) (ol : list (option K)) (codes : list nat) (values : list K) (vals : array).
  Let base := if nl then 1 else 0.
  Hypothesis Hnone : nl = false -> ~ In None ol.
  Hypothesis Hlen : length codes = length ol.
  Hypothesis Hbase : base <= length values.
  Hypothesis Hnd : NoDup (skipn base values).
  Hypothesis Hc : forall i o, nth_error ol i = Some o ->
       match o with
       | None => nth i codes 0 = 0
       | Some z => base <= nth i codes 0 /\ nth_error values (nth i codes 0) = Some z
       end.
  Hypothesis Hvals : logical vals = tab (length values) (fun i => if nl && (i =? 0) then VNull else inj (nth i values dk)).
  Let cds := APrim U64 (map Z.of_nat codes) VNonNull.

  Lemma code_lt i : i < length ol -> nth i codes 0 < length values.
  Proof.
    intros Hi. destruct (nth_error ol i) as [o|] eqn:E; [|apply nth_error_None in E; lia].
    pose proof (Hc i o E) as H. destruct o as [z|].
    - apply nth_error_Some. destruct H as [_ H]. congruence.
    - rewrite H. unfold base in *. destruct nl; [lia|]. exfalso. apply (Hnone eq_refl). eapply nth_error_In; exact E.
  Qed.
  Lemma dict_value i : i < length ol ->
    nth (nth i codes 0) (logical vals) VNull = match nth i ol None with Some k => inj k | None => VNull end.
  Proof.
    intros Hi. pose proof (code_lt i Hi) as Cl. rewrite Hvals, nth_tab by exact Cl.
    destruct (nth_error ol i) as [o|] eqn:E; [|apply nth_error_None in E; lia].
    rewrite (nth_error_nth _ _ None E). pose proof (Hc i o E) as H. destruct o as [z|].
    - destruct H as [H1 H2]. rewrite (nth_error_nth _ _ dk H2). unfold base in H1.
      destruct nl; cbn [andb]; [|reflexivity]. destruct (Nat.eqb_spec (nth i codes 0) 0); [lia|reflexivity].
    - rewrite H. destruct nl; [reflexivity|]. exfalso. apply (Hnone eq_refl). eapply nth_error_In; exact E.
  Qed.
  Lemma dict_result :
    logical (ADict cds vals) = map (fun o => match o with Some k => inj k | None => VNull end) ol.
  Proof.
    change (logical (ADict cds vals)) with (map (fun c => nth (Z.to_nat (vint c)) (logical vals) VNull) (logical cds)).
    unfold cds. rewrite logical_nonnull, !map_map.
    apply nth_ext_len with (d := VNull); [rewrite !map_length; exact Hlen|]. rewrite map_length. intros i Hi.
    rewrite (map_nth_lt (fun x => nth (Z.to_nat (vint (VInt (Z.of_nat x)))) (logical vals) VNull) codes 0) by exact Hi. cbn [vint]. rewrite Nat2Z.id.
    rewrite dict_value by lia. rewrite (map_nth_lt (fun o : option K => match o with Some k => inj k | None => VNull end) ol None) by lia. reflexivity.
  Qed.
  Lemma dict_entries_distinct : NoDup (logical vals).
  Proof.
    rewrite Hvals. apply (NoDup_nth _ VNull). rewrite tab_length. intros i j Hi Hj. rewrite !nth_tab by assumption.
    destruct (nl && (i =? 0)) eqn:Ei; destruct (nl && (j =? 0)) eqn:Ej; intros H.
    - lia.
    - symmetry in H. contradiction (inj_nn _ H).
    - contradiction (inj_nn _ H).
    - apply inj_inj in H.
      assert (base <= i /\ base <= j) as [B1 B2] by (unfold base; destruct nl; lia).
      assert (i - base = j - base); [|lia].
      apply (proj1 (NoDup_nth (skipn base values) dk) Hnd); rewrite ?skipn_length; try lia.
      rewrite !nth_skipn. replace (base + (i - base)) with i by lia. replace (base + (j - base)) with j by lia. exact H.
  Qed.
  Lemma dict_wf f : wf f vals -> nullable (adtype vals) = nl -> flat (adtype vals) = true -> (fF f = true -> fC f = true) ->
    (fk f = true -> is_str (adtype vals) = true -> nullable (adtype vals) = false) ->
    (Z.of_nat (length values) <= pmax U64)%Z -> alen vals = length values -> wf f (ADict cds vals).
  Proof.
    intros W Hnl Fl HF Hk Hm La.
    assert (Forall (fun c => c < length values) codes) as Fc.
    { apply Forall_forall. intros c Hin. apply (In_nth _ _ 0) in Hin. destruct Hin as (i & Hi & <-). apply code_lt. lia. }
    cbn [wf]. unfold cds.
    split; [cbn [wf]; split; [|exact I]|].
    { apply Forall_map. eapply Forall_impl; [|exact Fc]. intros c Hcc. cbv beta in Hcc. unfold in_range. change (pmin U64) with 0%Z.
      generalize dependent (pmax U64). intros m Hm. lia. }
    split; [exact W|]. split; [exists U64; split; reflexivity|].
    change (tab (length (map Z.of_nat codes)) _) with (logical (APrim U64 (map Z.of_nat codes) VNonNull)).
    rewrite logical_nonnull_ints.
    split. { apply Forall_map. rewrite La. eapply Forall_impl; [|exact Fc]. intros c Hcc. cbv beta in Hcc. lia. }
    split; [exact Fl|]. split; [|split; [exact HF|exact Hk]].
    intros _ En i Hi. rewrite Hnl in En.
    fold cds. rewrite dict_result. unfold cds. rewrite logical_nonnull. cbn [alen] in Hi. rewrite map_length in Hi.
    rewrite (map_nth_lt VInt (map Z.of_nat codes) 0%Z) by (rewrite map_length; exact Hi).
    rewrite (map_nth_lt Z.of_nat codes 0) by exact Hi. cbn [vint].
    rewrite (map_nth_lt (fun o : option K => match o with Some k => inj k | None => VNull end) ol None) by lia.
    destruct (nth_error ol i) as [o|] eqn:E; [|apply nth_error_None in E; lia].
    rewrite (nth_error_nth _ _ None E). pose proof (Hc i o E) as H. destruct o as [z|].
    - destruct H as [H1 H2]. split; [|intros G; contradiction (inj_nn _ G)]. intros H0. assert (nth i codes 0 = 0) as H3 by lia.
      unfold base in H1. rewrite En in H1. lia.
    - split; [reflexivity|]. intros _. rewrite H. reflexivity.
  Qed.
End Result.

(** * Primitive arrays *)
Lemma prim_options_logical p l v :
  map (fun o => match o with Some k => VInt k | None => VNull end) (prim_options l v) = logical (APrim p l v).
Proof.
  unfold prim_options, tab. cbn [logical]. unfold tab. rewrite map_map. apply map_ext. intros i. destruct (vvalid v i); reflexivity.
Qed.

Theorem dict_primitive_roundtrip :
  forall p l v, wf f0 (APrim p l v) -> (Z.of_nat (length l) < pmax U64)%Z ->
  let '(codes, vals) := dict_encode_primitive p l v in
  logical (ADict codes vals) = logical (APrim p l v) /\ adtype (ADict codes vals) = adtype (APrim p l v) /\
  NoDup (logical vals) /\ wf f0 (ADict codes vals) /\ wf f_dec (ADict codes vals).
Proof.
  intros p l v [Wl Wv] Hm. unfold dict_encode_primitive.
  set (nl := vnullable v). set (ol := prim_options l v).
  destruct (dict_loop Z.eqb [] (if nl then [0%Z] else []) ol) as [codes values] eqn:E.
  destruct (dict_loop_spec Z.eqb Z.eqb_eq (if nl then 1 else 0) _ _ _ _ _ E) as ((ext & Ex) & ND & Lc & Lv & Inc & P).
  { intros z c. cbn [dict_lookup]. split; [discriminate|]. intros [H1 H2]. destruct nl; destruct c as [|[|c]]; try discriminate; lia. }
  { destruct nl; cbn; lia. }
  { destruct nl; constructor. }
  assert (length ol = length l) as Lo by (apply tab_length).
  assert ((if nl then 1 else 0) <= length values) as Hb by (rewrite Ex, app_length; destruct nl; cbn; lia).
  assert (nl = true -> 1 <= length values) as Hb' by (intros G; rewrite G in Hb; exact Hb).
  assert (length values <= length l + 1) as Hvl by (rewrite Lo in Lv; destruct nl; cbn in Lv; lia).
  assert (logical (APrim p values (dict_values_validity nl (length values))) =
    tab (length values) (fun i => if nl && (i =? 0) then VNull else VInt (nth i values 0%Z))) as Hvals.
  { cbn [logical]. apply tab_ext. intros i Hi. rewrite dict_values_validity_spec by assumption. destruct (nl && (i =? 0)); reflexivity. }
  assert (nl = false -> ~ In None ol) as Hno.
  { intros En Hin. unfold ol, prim_options in Hin. apply In_tab in Hin. destruct Hin as (i & Hi & G).
    destruct (vvalid v i) eqn:Ev; [discriminate|]. apply vvalid_nullable in Ev. unfold nl in En. congruence. }
  assert (Forall (in_range p) values) as Fv.
  { apply Forall_forall. intros z Hz. rewrite <- (firstn_skipn (if nl then 1 else 0) values) in Hz. apply in_app_or in Hz. destruct Hz as [Hz|Hz].
    - rewrite Ex in Hz. destruct nl; cbn in Hz; [destruct Hz as [<-|Hz]; [apply in_range_zero|contradiction]|contradiction].
    - apply Inc in Hz. replace (skipn (if nl then 1 else 0) (if nl then [0%Z] else [])) with (@nil Z) in Hz by (destruct nl; reflexivity).
      cbn [app] in Hz. apply in_concat in Hz. destruct Hz as (o & Ho & Hz). apply in_map_iff in Ho. destruct Ho as (x & <- & Hx).
      destruct x as [x|]; [|contradiction]. destruct Hz as [<-|[]].
      apply In_tab in Hx. destruct Hx as (i & Hi & G). destruct (vvalid v i); [|discriminate]. injection G as ->.
      apply (proj1 (Forall_forall _ _) Wl). apply nth_In. exact Hi. }
  assert (forall f, wf f (APrim p values (dict_values_validity nl (length values)))) as Wvals.
  { intros f. cbn [wf]. split; [exact Fv|]. apply dict_values_validity_wf. exact Hb'. }
  assert (adtype (APrim p values (dict_values_validity nl (length values))) = DPrim p nl) as Dv.
  { cbn [adtype]. rewrite dict_values_validity_nullable. reflexivity. }
  assert (Z.of_nat (length values) <= pmax U64)%Z as Hmv by (generalize dependent (pmax U64); intros m Hm; lia).
  split; [rewrite <- (prim_options_logical p); apply (dict_result VInt 0%Z ltac:(discriminate) ltac:(intros a b G; injection G as ->; reflexivity) nl ol codes values); assumption|].
  split; [cbn [adtype]; rewrite dict_values_validity_nullable; reflexivity|].
  split; [apply (dict_entries_distinct VInt 0%Z ltac:(discriminate) ltac:(intros a b G; injection G as ->; reflexivity) nl ol codes values); assumption|].
  split; apply (dict_wf VInt 0%Z ltac:(discriminate) ltac:(intros a b G; injection G as ->; reflexivity) nl ol codes values); rewrite ?Dv; auto; try discriminate; reflexivity.
Qed.
Print Assumptions dict_primitive_roundtrip.

(** * Byte strings *)
Lemma bytes_eqb_eq a b : bytes_eqb a b = true <-> a = b.
Proof.
  revert b; induction a as [|x a IH]; intros [|y b]; cbn; try (split; congruence).
  rewrite andb_true_iff, IH, Z.eqb_eq. split; [intros [-> ->]; reflexivity|intros [= -> ->]; auto].
Qed.

Definition voffs (values : list (list Z)) : list Z := map Z.of_nat (offsets_from 0 (map (@length Z) values)).
Lemma voffs_length values : length (voffs values) = S (length values).
Proof. unfold voffs. rewrite map_length, offsets_from_length, map_length. reflexivity. Qed.
Lemma nth_voffs values k : k <= length values -> nth k (voffs values) 0%Z = Z.of_nat (list_sum (firstn k (map (@length Z) values))).
Proof.
  intros H. unfold voffs. rewrite (map_nth_lt Z.of_nat _ 0) by (rewrite offsets_from_length, map_length; lia).
  rewrite nth_offsets_from by (rewrite map_length; exact H). reflexivity.
Qed.
Lemma lookup_bytes_voffs values c : c < length values -> lookup_bytes (voffs values) (concat values) c = nth c values [].
Proof.
  intros H. unfold lookup_bytes. rewrite !nth_voffs by lia. rewrite !Nat2Z.id.
  replace (c + 1) with (S c) by lia. rewrite list_sum_firstn_S by (rewrite map_length; exact H).
  rewrite (map_nth_lt (@length Z) values []) by exact H.
  pose proof (lslice_concat_one values c 0 (length (nth c values [])) H ltac:(lia) ltac:(lia)) as E.
  rewrite Nat.add_0_r in E. rewrite E. apply lslice_full.
Qed.
Lemma offsets_from_app acc l x : offsets_from acc (l ++ [x]) = offsets_from acc l ++ [acc + list_sum l + x].
Proof.
  revert acc; induction l as [|y l IH]; intros acc; [cbn; f_equal; f_equal; lia|].
  cbn [app offsets_from]. rewrite IH. change (list_sum (y :: l)) with (y + list_sum l).
  cbn [app]. f_equal. f_equal. f_equal. lia.
Qed.
Lemma voffs_app values s : voffs (values ++ [s]) = voffs values ++ [Z.of_nat (length (concat values ++ s))].
Proof.
  unfold voffs. rewrite map_app. cbn [map]. rewrite offsets_from_app, map_app. cbn [map]. f_equal. f_equal.
  rewrite app_length, concat_length_sum. lia.
Qed.

(** Total length of the non-null strings. *)
Definition total_bytes (l : list (option (list Z))) : nat :=
  list_sum (map (fun o => match o with Some s => length s | None => 0 end) l).

Lemma find_lookup values : forall lk s, Forall (fun c => c < length values) lk ->
  find (fun idx => bytes_eqb (lookup_bytes (voffs values) (concat values) idx) s) lk =
  dict_lookup bytes_eqb (map (fun c => (nth c values [], c)) lk) s.
Proof.
  induction lk as [|c lk IH]; intros s F; [reflexivity|]. cbn [find map dict_lookup].
  rewrite lookup_bytes_voffs by exact (Forall_inv F). destruct (bytes_eqb (nth c values []) s); [reflexivity|]. apply IH. exact (Forall_inv_tail F).
Qed.

Lemma vb_sim : forall l lk values,
  (Z.of_nat (length (concat values) + total_bytes l) <= pmax U32)%Z -> Forall (fun c => c < length values) lk ->
  dict_vb_loop lk (voffs values) (concat values) l =
  (let '(cs, vs) := dict_loop bytes_eqb (map (fun c => (nth c values [], c)) lk) values l in (cs, (voffs vs, concat vs))).
Proof.
  induction l as [|o l IH]; intros lk values Hm F; [reflexivity|].
  assert (total_bytes (o :: l) = match o with Some s => length s | None => 0 end + total_bytes l) as Et by reflexivity.
  rewrite Et in Hm. destruct o as [s|]; cbn [dict_vb_loop dict_loop].
  - rewrite find_lookup by exact F. destruct (dict_lookup _ _ s) as [c|].
    + rewrite IH; [destruct (dict_loop _ _ _ l); reflexivity| |exact F]. clear - Hm. generalize dependent (pmax U32). intros; lia.
    + rewrite wrap_id.
      2:{ unfold in_range. change (pmin U32) with 0%Z. rewrite app_length. clear - Hm. generalize dependent (pmax U32). intros; lia. }
      rewrite <- voffs_app. rewrite voffs_length. cbn [Nat.sub]. rewrite Nat.sub_0_r.
      replace (concat values ++ s) with (concat (values ++ [s])) by (rewrite concat_app; cbn; rewrite app_nil_r; reflexivity).
      rewrite IH.
      * cbn [map]. rewrite app_nth2, Nat.sub_diag by lia. cbn [nth].
        replace (map (fun c => (nth c (values ++ [s]) [], c)) lk) with (map (fun c => (nth c values [], c)) lk).
        2:{ apply map_ext_in. intros c Hc. rewrite app_nth1; [reflexivity|]. exact (proj1 (Forall_forall _ _) F c Hc). }
        destruct (dict_loop _ _ _ l); reflexivity.
      * rewrite concat_app, app_length. cbn [concat]. rewrite app_nil_r. clear - Hm. generalize dependent (pmax U32). intros; lia.
      * rewrite app_length. constructor; [cbn; lia|]. eapply Forall_impl; [|exact F]. intros c Hc. cbv beta in Hc. cbn; lia.
  - rewrite IH; [destruct (dict_loop _ _ _ l); reflexivity| |exact F]. clear - Hm. generalize dependent (pmax U32). intros; lia.
Qed.

Lemma total_bytes_incl (vs : list (list Z)) l : NoDup vs ->
  incl vs (concat (map (fun o => match o with Some z => [z] | None => [] end) l)) -> list_sum (map (@length Z) vs) <= total_bytes l.
Proof.
  assert (total_bytes l = list_sum (map (@length Z) (concat (map (fun o => match o with Some z => [z] | None => [] end) l)))) as ->.
  { induction l as [|o l IH]; [reflexivity|]. cbn [map concat]. rewrite map_app, list_sum_app, <- IH.
    change (total_bytes (o :: l)) with (match o with Some s => length s | None => 0 end + total_bytes l). f_equal.
    destruct o; [cbn; lia|reflexivity]. }
  generalize (concat (map (fun o : option (list Z) => match o with Some z => [z] | None => [] end) l)). intros L.
  revert L; induction vs as [|x vs IH]; intros L N Inc; [cbn; lia|].
  inversion N as [|? ? Nx Nv]; subst. destruct (in_split x L) as (l1 & l2 & ->); [apply Inc; left; reflexivity|].
  assert (list_sum (map (@length Z) vs) <= list_sum (map (@length Z) (l1 ++ l2))) as H.
  { apply IH; [exact Nv|]. intros y Hy. assert (In y (l1 ++ x :: l2)) as G by (apply Inc; right; exact Hy).
    apply in_app_or in G. apply in_or_app. destruct G as [G|[G|G]]; [left; exact G|subst; contradiction|right; exact G]. }
  rewrite map_app, list_sum_app in *. cbn [map]. change (list_sum (?a :: ?b)) with (a + list_sum b). cbn [list_sum fold_right] in *.
  change (fold_right Init.Nat.add 0) with list_sum in *. lia.
Qed.

Definition opt_value (o : option (list Z)) : value := match o with Some s => VBytes s | None => VNull end.

Theorem dict_varbin_roundtrip :
  forall u nl l,
  (nl = false -> ~ In None l) -> (u = true -> forall s, In (Some s) l -> utf8_valid s = true) ->
  (Z.of_nat (total_bytes l) <= pmax U32)%Z -> (Z.of_nat (length l) < pmax U64)%Z ->
  let '(codes, vals) := dict_encode_varbin u nl l in
  logical (ADict codes vals) = map opt_value l /\
  adtype (ADict codes vals) = (if u then DUtf8 nl else DBinary nl) /\
  NoDup (logical vals) /\ wf f0 (ADict codes vals) /\
  (u = true -> (Z.of_nat (total_bytes l) <= pmax I32)%Z -> wf f_dec (ADict codes vals)).
Proof.
  intros u nl l Hno Hu Hm Hl. unfold dict_encode_varbin.
  replace (if nl then [0%Z; 0%Z] else [0%Z]) with (voffs (if nl then [[]] else [])) by (destruct nl; reflexivity).
  pose proof (vb_sim l [] (if nl then [[]] else [])) as Sim.
  replace (concat (if nl then [[]] else [])) with (@nil Z) in Sim by (destruct nl; reflexivity).
  rewrite Sim by (auto; constructor). cbn [map].
  destruct (dict_loop bytes_eqb [] (if nl then [[]] else []) l) as [codes values] eqn:E.
  destruct (dict_loop_spec bytes_eqb bytes_eqb_eq (if nl then 1 else 0) _ _ _ _ _ E) as ((ext & Ex) & ND & Lc & Lv & Inc & P).
  { intros z c. cbn [dict_lookup]. split; [discriminate|]. intros [H1 H2]. destruct nl; destruct c as [|[|c]]; try discriminate; lia. }
  { destruct nl; cbn; lia. }
  { destruct nl; constructor. }
  replace (skipn (if nl then 1 else 0) (if nl then [[]] else [])) with (@nil (list Z)) in Inc by (destruct nl; reflexivity). cbn [app] in Inc.
  assert ((if nl then 1 else 0) <= length values) as Hb by (rewrite Ex, app_length; destruct nl; cbn; lia).
  assert (nl = true -> 1 <= length values) as Hb' by (intros G; rewrite G in Hb; exact Hb).
  assert (length values <= length l + 1) as Hvl by (destruct nl; cbn in Lv; lia).
  rewrite voffs_length. cbn [Nat.sub]. rewrite Nat.sub_0_r.
  assert (length (concat values) <= total_bytes l) as Htb.
  { pose proof (total_bytes_incl _ _ ND Inc) as H. rewrite concat_length_sum. rewrite Ex in *. destruct nl; cbn [skipn app map] in *; [|exact H].
    change (list_sum (?a :: ?b)) with (a + list_sum b). exact H. }
  set (vals := AVarBin u (APrim U32 (voffs values) VNonNull) (concat values) (dict_values_validity nl (length values))).
  assert (logical vals = tab (length values) (fun i => if nl && (i =? 0) then VNull else VBytes (nth i values []))) as Hvals.
  { unfold vals.
    change (tab (length (nats (ints (logical (APrim U32 (voffs values) VNonNull)))) - 1) (fun i => if vvalid (dict_values_validity nl (length values)) i
       then VBytes (lslice (concat values) (nth i (nats (ints (logical (APrim U32 (voffs values) VNonNull)))) 0)
          (nth (i + 1) (nats (ints (logical (APrim U32 (voffs values) VNonNull)))) 0)) else VNull) =
      tab (length values) (fun i => if nl && (i =? 0) then VNull else VBytes (nth i values []))).
    rewrite logical_nonnull_ints. rewrite nats_length, voffs_length. cbn [Nat.sub]. rewrite Nat.sub_0_r.
    apply tab_ext. intros i Hi. rewrite dict_values_validity_spec by assumption. destruct (nl && (i =? 0)); [reflexivity|]. cbn [negb].
    rewrite <- (lookup_bytes_voffs values i Hi). unfold lookup_bytes, nats.
    rewrite !(map_nth_lt Z.to_nat (voffs values) 0%Z) by (rewrite voffs_length; lia). reflexivity. }
  assert (adtype vals = if u then DUtf8 nl else DBinary nl) as Dv.
  { unfold vals. cbn [adtype]. rewrite dict_values_validity_nullable. reflexivity. }
  assert (alen vals = length values) as La.
  { unfold vals. cbn [alen]. rewrite voffs_length. lia. }
  assert (forall f, fT f = false -> fN f = false -> (fc f = true -> u = true) -> (fC f = true -> (Z.of_nat (total_bytes l) <= pmax I32)%Z) ->
    (fF f = true -> fC f = true) -> wf f vals) as Wvals.
  { intros f HT HN Hc HC HF. unfold vals. cbn [wf]. fold vals.
    change (tab (length (voffs values)) _) with (logical (APrim U32 (voffs values) VNonNull)). rewrite logical_nonnull_ints.
    assert (Forall (fun z => (0 <= z <= Z.of_nat (length (concat values)))%Z) (voffs values)) as Fo.
    { apply Forall_forall. intros z Hz. apply (In_nth _ _ 0%Z) in Hz. destruct Hz as (k & Hk & <-). rewrite voffs_length in Hk.
      rewrite nth_voffs by lia. rewrite concat_length_sum, <- (list_sum_firstn_all (map (@length Z) values)), map_length.
      pose proof (list_sum_firstn_mono (map (@length Z) values) k (length values) ltac:(lia)). lia. }
    split.
    { split; [|exact I]. eapply Forall_impl; [|exact Fo]. intros z Hz. cbv beta in Hz. unfold in_range. change (pmin U32) with 0%Z.
      clear - Hz Htb Hm. generalize dependent (pmax U32). intros; lia. }
    split; [exists U32; split; reflexivity|]. cbn [alen]. rewrite voffs_length.
    split; [lia|]. split; [apply offsets_sorted|]. split; [exact Fo|].
    split; [cbn [Nat.sub]; rewrite Nat.sub_0_r; apply dict_values_validity_wf; exact Hb'|].
    split.
    { intros Eu s Hs. rewrite Hvals in Hs. apply In_tab in Hs. destruct Hs as (i & Hi & G).
      destruct (nl && (i =? 0)) eqn:En; [discriminate|]. injection G as ->.
      assert (In (nth i values []) (skipn (if nl then 1 else 0) values)) as Hin.
      { replace i with ((if nl then 1 else 0) + (i - (if nl then 1 else 0))) by (destruct nl; lia). rewrite <- nth_skipn.
        apply nth_In. rewrite skipn_length. destruct nl; lia. }
      apply Inc in Hin. apply in_concat in Hin. destruct Hin as (o & Ho & Hz). apply in_map_iff in Ho. destruct Ho as (x & <- & Hx).
      destruct x as [x|]; [|contradiction]. destruct Hz as [Hz|[]]. rewrite <- Hz. exact (Hu Eu x Hx). }
    split; [exact Hc|]. split; [|split; [exact HF|split; assumption]].
    intros HC'. specialize (HC HC'). clear - HC Htb. generalize dependent (pmax I32). intros; lia. }
  assert (Z.of_nat (length values) <= pmax U64)%Z as Hmv by (clear - Hl Hvl; generalize dependent (pmax U64); intros m Hm; lia).
  assert (flat (adtype vals) = true) as Fl by (rewrite Dv; destruct u; reflexivity).
  assert (nullable (adtype vals) = nl) as Nl by (rewrite Dv; destruct u; reflexivity).
  split; [apply (dict_result VBytes [] ltac:(discriminate) ltac:(intros a b G; injection G as ->; reflexivity) nl l codes values); assumption|].
  split; [exact Dv|].
  split; [apply (dict_entries_distinct VBytes [] ltac:(discriminate) ltac:(intros a b G; injection G as ->; reflexivity) nl l codes values); assumption|].
  split.
  - apply (dict_wf VBytes [] ltac:(discriminate) ltac:(intros a b G; injection G as ->; reflexivity) nl l codes values); try assumption; try discriminate.
    apply Wvals; auto; discriminate.
  - intros Eu Hi. apply (dict_wf VBytes [] ltac:(discriminate) ltac:(intros a b G; injection G as ->; reflexivity) nl l codes values); try assumption; try discriminate.
    apply Wvals; auto; discriminate.
Qed.
Print Assumptions dict_varbin_roundtrip.

(** * Reported validity *)
(** For a dictionary array in the class of the encoders' results the reported validity is that of the rows. *)
Theorem dict_validity_is_logical :
  forall f codes vals, wf f (ADict codes vals) -> fv f = true ->
  lbuf (dict_logical_validity codes vals) = map (fun x => negb (is_null x)) (logical (ADict codes vals)).
Proof.
  intros f codes vals W Hfv. pose proof W as W0. destruct W as (Wc & Wv & (p & Dc & Hp) & Fc & Fl & Hv & _).
  unfold dict_logical_validity.
  assert (length (logical (ADict codes vals)) = alen codes) as L by (rewrite logical_length; reflexivity).
  destruct (nullable (adtype vals)) eqn:En; cbn [lbuf].
  - specialize (Hv Hfv eq_refl). apply nth_ext_len with (d := true); [rewrite !map_length, ints_length, logical_length, L; reflexivity|].
    rewrite map_length, ints_length, logical_length. intros i Hi.
    rewrite (map_nth_lt (fun c => negb (c =? 0)%Z) _ 0%Z) by (rewrite ints_length, logical_length; exact Hi).
    unfold ints at 1. rewrite (map_nth_lt vint _ VNull) by (rewrite logical_length; exact Hi).
    rewrite (map_nth_lt (fun x => negb (is_null x)) _ VNull) by (rewrite L; exact Hi).
    specialize (Hv i Hi). destruct (Z.eqb_spec (vint (nth i (logical codes) VNull)) 0) as [E|E].
    + rewrite (proj1 Hv E). reflexivity.
    + destruct (nth i (logical (ADict codes vals)) VNull) eqn:Ex; try reflexivity. contradiction E. apply Hv. reflexivity.
  - pose proof (vtyped_logical _ _ W0) as T. change (adtype (ADict codes vals)) with (adtype vals) in T.
    rewrite <- L. clear - T En. induction (logical (ADict codes vals)) as [|x r IH]; [reflexivity|]. cbn [length repeat map].
    rewrite <- IH by exact (Forall_inv_tail T). f_equal. pose proof (Forall_inv T) as H. destruct x; try reflexivity. cbn in H. congruence.
Qed.
Print Assumptions dict_validity_is_logical.

(** Other dictionary arrays (a nullable type without a null entry at code 0) are misreported. *)
Theorem dict_validity_refuted :
  exists codes vals, wf f0 (ADict codes vals) /\
    lbuf (dict_logical_validity codes vals) <> map (fun x => negb (is_null x)) (logical (ADict codes vals)).
Proof.
  exists (APrim U8 [0; 1]%Z VNonNull), (APrim I32 [5; 6]%Z VAllValid).
  split; [|vm_compute; discriminate].
  cbn. repeat split; try (repeat constructor; unfold in_range; cbn; lia); try discriminate; exists U8; split; reflexivity.
Qed.
Print Assumptions dict_validity_refuted.

Example ex_dict : dict_encode_primitive I16 [7; 0; 7; 9]%Z (VBits [true; false; true; true]) =
  (APrim U64 [1; 0; 1; 2]%Z VNonNull, APrim I16 [0; 7; 9]%Z (VBits [false; true; true])).
Proof. vm_compute. reflexivity. Qed.
Example ex_dict_vb : dict_encode_varbin true true [Some [97]; None; Some [98; 98]; Some [97]]%Z =
  (APrim U64 [1; 0; 2; 1]%Z VNonNull,
   AVarBin true (APrim U32 [0; 0; 1; 3]%Z VNonNull) [97; 98; 98]%Z (VBits [false; true; true])).
Proof. vm_compute. reflexivity. Qed.
Example ex_dict_hyps : wf f0 (APrim I16 [7; 0; 7; 9]%Z (VBits [true; false; true; true])) /\ (4 < pmax U64)%Z /\
  (forall s, In (Some s) [Some [97]; None; Some [98; 98]; Some [97]]%Z -> utf8_valid s = true).
Proof.
  split; [cbn; repeat split; repeat constructor; unfold in_range; cbn; lia|]. split; [reflexivity|].
  intros s H. cbn in H. repeat (destruct H as [H|H]; [try discriminate; injection H as <-; reflexivity|]). contradiction.
Qed.
