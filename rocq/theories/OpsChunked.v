(** take on chunked arrays, and what take and filter of chunked arrays have in common. *)
From Verif Require Import Base Spec SearchModel SearchProofs Arr ArrRead ArrWf ArrReadProofs ArrSearchProofs ArrSlice ArrSliceProofs ArrSliceMain
  ValidityModel PropValidity IntEnc PropIntEnc RunEnc PropRunEnc PropUnary PropDict ArrOps OpsBase OpsFlat OpsCanon OpsCanon2 OpsCanon3 OpsTake
  OpsVarBin OpsSparse OpsTake2.

(** Positions in the whole array of positions [snd g] in chunk [fst g]. *)
Definition gidx (lens : list nat) (g : nat * list nat) : list nat := map (Nat.add (list_sum (firstn (fst g) lens))) (snd g).
Definition gflat (lens : list nat) (G : list (nat * list nat)) : list nat := concat (map (gidx lens) G).

Lemma gidx_pick cs k sub : k < length cs -> Forall (fun i => i < alen (nth k cs (ANull 0))) sub ->
  pick (concat (map logical cs)) (gidx (map alen cs) (k, sub)) = pick (logical (nth k cs (ANull 0))) sub.
Proof.
  intros Hk HF. unfold gidx, pick. cbn [fst snd]. rewrite map_map. apply map_ext_in. intros o Ho. rewrite Forall_forall in HF. specialize (HF o Ho).
  replace (map alen cs) with (map (@length value) (map logical cs)) by (rewrite map_map; apply map_ext; apply logical_length).
  rewrite nth_concat; [|rewrite map_length; exact Hk|rewrite (map_nth_lt logical cs (ANull 0)) by exact Hk; rewrite logical_length; exact HF].
  rewrite (map_nth_lt logical cs (ANull 0)) by exact Hk. reflexivity.
Qed.

Lemma chunked_rewrap f g d cs xs : fle g f -> wf f (AChunked d cs) -> Forall (fun x => wf g x /\ adtype x = d) xs ->
  (Z.of_nat (list_sum (map alen xs)) <= pmax U64)%Z -> wf g (AChunked d xs).
Proof.
  intros L W H S. cbn [wf] in *. destruct W as (_ & _ & W3 & W4 & W5 & W6 & W7 & W8). rewrite wf_chunks_iff. split; [exact H|].
  destruct L as (L1 & L2 & L3 & L4 & L5 & Lk & L6). rewrite L1, L3, L4.
  split; [discriminate|].
  destruct L6 as [(H1 & H2 & H3 & H4 & H5)|(H1 & H2 & H3 & H4)].
  - rewrite H1, H2, H3, H4, H5. auto 10.
  - rewrite H1, H2, H3, H4. repeat (split; [discriminate || auto|]). discriminate.
Qed.

Lemma chunked_assemble (T : Prop) f g d cs G xs idx : fle g f -> wf f (AChunked d cs) -> (T -> fk f = true \/ is_prim d = true) ->
  Forall2 (fun kg x => fst kg < length cs /\ Forall (fun i => i < alen (nth (fst kg) cs (ANull 0))) (snd kg) /\
                       sel_post g f (nth (fst kg) cs (ANull 0)) (snd kg) x) G xs ->
  gflat (map alen cs) G = idx -> (Z.of_nat (length idx) <= pmax U64)%Z ->
  outc T (try_chunked xs d) (sel_post g f (AChunked d cs) idx).
Proof.
  intros L W HT F2 E Hl.
  assert (Forall (fun x => wf f x /\ adtype x = d) cs) as HC by (cbn [wf] in W; destruct W as [W _]; apply wf_chunks_iff in W; exact W).
  unfold try_chunked. destruct (forallb _ xs) eqn:B.
  2:{ intros HH. specialize (HT HH). apply Bool.not_true_iff_false in B. apply B. apply forallb_forall. intros x Hx. apply dtype_eqb_eq.
      clear - F2 HT Hx HC. induction F2 as [|kg y G xs (K & _ & P) _ IH]; [destruct Hx|]. destruct Hx as [->|Hx]; [|auto].
      pose proof (Forall_nth_lt _ _ (ANull 0) _ HC K) as [_ D]. cbv beta in D. destruct P as (_ & _ & _ & P & _). rewrite P; [exact D|]. rewrite D. exact HT. }
  assert (Forall (fun x => adtype x = d) xs) as AX.
  { apply Forall_forall. intros x Hx. rewrite forallb_forall in B. apply dtype_eqb_eq. auto. }
  assert (concat (map logical xs) = pick (concat (map logical cs)) idx) as LX.
  { subst idx. clear - F2. induction F2 as [|kg y G xs (K & R & P) _ IH]; [reflexivity|]. cbn [map concat gflat].
    change (concat (map (gidx (map alen cs)) G)) with (gflat (map alen cs) G). unfold pick. rewrite map_app. fold (pick (concat (map logical cs)) (gflat (map alen cs) G)).
    rewrite IH. f_equal. destruct P as (_ & -> & _). destruct kg as [k sub]. symmetry. apply gidx_pick; assumption. }
  cbn [outc]. split; [|split; [|split; [|split]]].
  - apply (chunked_rewrap f g d cs xs L W).
    + apply Forall_forall. intros x Hx. rewrite Forall_forall in AX. split; [|auto].
      clear - F2 Hx. induction F2 as [|kg y G xs (K & R & P) _ IH]; [destruct Hx|]. destruct Hx as [->|Hx]; [apply P|auto].
    + replace (list_sum (map alen xs)) with (length idx); [exact Hl|].
      replace (map alen xs) with (map (@length value) (map logical xs)) by (rewrite map_map; apply map_ext; apply logical_length).
      rewrite <- concat_length_sum, LX, pick_length. reflexivity.
  - exact LX.
  - reflexivity.
  - reflexivity.
  - cbn [depth]. apply le_n_S. apply list_max_le. apply Forall_map. apply Forall_forall. intros x Hx.
    clear - F2 Hx. induction F2 as [|kg y G xs (K & R & P) _ IH]; [destruct Hx|]. destruct Hx as [->|Hx]; [|auto].
    destruct P as (_ & _ & _ & _ & P). pose proof (proj1 (list_max_le (map depth cs) _) (le_n _)) as Q. rewrite Forall_forall in Q.
    specialize (Q _ (in_map depth cs _ (nth_In cs (ANull 0) K))). lia.
Qed.

Lemma filter_chunk_idx_eq lens i : i <= list_sum lens -> filter_chunk_idx lens i = find_chunk_idx lens i.
Proof.
  intros H. unfold filter_chunk_idx, find_chunk_idx. destruct (Nat.ltb_spec (list_sum lens) i); [lia|].
  rewrite search_sorted_list_correct by apply offsets_sorted. cbn [bind expect]. rewrite offsets_from_length, Nat.add_1_r. reflexivity.
Qed.

(** * Unsorted indices *)
Definition group_ok (lens : list nat) (g : nat * list nat) : Prop :=
  fst g < length lens /\ snd g <> [] /\ Forall (fun o => o < nth (fst g) lens 0) (snd g).

Lemma gflat_cons lens g G : gflat lens (g :: G) = gidx lens g ++ gflat lens G.
Proof. reflexivity. Qed.
Lemma gidx_app lens k s1 s2 : gidx lens (k, s1 ++ s2) = gidx lens (k, s1) ++ gidx lens (k, s2).
Proof. apply map_app. Qed.

Lemma unsorted_groups_spec lens idx : forall prev acc, lens <> [] -> Forall (fun i => i < list_sum lens) idx ->
  prev < length lens -> Forall (fun o => o < nth prev lens 0) acc ->
  (acc = [] -> match idx with [] => True | i :: _ => exists o, find_chunk_idx lens i = Ok (prev, o) end) ->
  exists G, unsorted_groups lens prev acc idx = Ok G /\ gflat lens G = gidx lens (prev, acc) ++ idx /\ Forall (group_ok lens) G.
Proof.
  induction idx as [|i r IH]; intros prev acc Hne HF Hp Ha H0; cbn [unsorted_groups].
  - destruct acc as [|o acc]; [exists []; repeat split; constructor|].
    exists [(prev, o :: acc)]. split; [reflexivity|]. split; [reflexivity|]. constructor; [|constructor]. repeat split; auto. discriminate.
  - inversion HF as [|? ? Hi HF']; subst.
    destruct (find_chunk_idx_spec lens i ltac:(lia) Hne) as (k & o & E & K & Sm & _ & Ho). specialize (Ho Hi). rewrite E. cbn [bind fst snd].
    assert (gidx lens (k, [o]) = [i]) as Gi by (unfold gidx; cbn [fst snd map]; rewrite Sm; reflexivity).
    destruct (Nat.eqb_spec k prev) as [->|N].
    + destruct (IH prev (acc ++ [o]) Hne HF' Hp) as (G & EG & FG & OG).
      { apply Forall_app. split; [exact Ha|]. constructor; [exact Ho|constructor]. }
      { intros X. destruct acc; discriminate. }
      exists G. split; [exact EG|]. split; [|exact OG]. rewrite FG, gidx_app, Gi, <- app_assoc. reflexivity.
    + destruct (IH k [o] Hne HF' K) as (G & EG & FG & OG); [constructor; [exact Ho|constructor]|discriminate|].
      rewrite EG. cbn [bind]. exists ((prev, acc) :: G). split; [reflexivity|]. split; [rewrite gflat_cons, FG, Gi; reflexivity|].
      constructor; [|exact OG]. split; [exact Hp|]. split; [|exact Ha]. cbn [snd]. intros ->. destruct (H0 eq_refl) as (o' & E'). congruence.
Qed.

Lemma index_groups_spec lens idx : forall cur acc, lens <> [] -> Forall (fun i => i < list_sum lens) idx ->
  cur < length lens -> Forall (fun o => o < nth cur lens 0) acc ->
  exists G, index_groups lens cur acc idx = Ok G /\ gflat lens G = gidx lens (cur, acc) ++ idx /\ Forall (group_ok lens) G.
Proof.
  induction idx as [|i r IH]; intros prev acc Hne HF Hp Ha; cbn [index_groups].
  - destruct acc as [|o acc]; [exists []; repeat split; constructor|].
    exists [(prev, o :: acc)]. split; [reflexivity|]. split; [reflexivity|]. constructor; [|constructor]. repeat split; auto. discriminate.
  - inversion HF as [|? ? Hi HF']; subst. rewrite filter_chunk_idx_eq by lia.
    destruct (find_chunk_idx_spec lens i ltac:(lia) Hne) as (k & o & E & K & Sm & _ & Ho). specialize (Ho Hi). rewrite E. cbn [bind fst snd].
    assert (gidx lens (k, [o]) = [i]) as Gi by (unfold gidx; cbn [fst snd map]; rewrite Sm; reflexivity).
    destruct (Nat.eqb_spec k prev) as [->|N].
    + destruct (IH prev (acc ++ [o]) Hne HF' Hp) as (G & EG & FG & OG).
      { apply Forall_app. split; [exact Ha|]. constructor; [exact Ho|constructor]. }
      exists G. split; [exact EG|]. split; [|exact OG]. rewrite FG, gidx_app, Gi, <- app_assoc. reflexivity.
    + destruct (IH k [o] Hne HF' K) as (G & EG & FG & OG); [constructor; [exact Ho|constructor]|].
      rewrite EG. cbn [bind]. destruct acc as [|o' acc'].
      * exists G. split; [reflexivity|]. split; [rewrite FG, Gi; reflexivity|exact OG].
      * exists ((prev, o' :: acc') :: G). split; [reflexivity|]. split; [rewrite gflat_cons, FG, Gi; reflexivity|].
        constructor; [|exact OG]. split; [exact Hp|]. split; [discriminate|exact Ha].
Qed.

(** * Strictly sorted indices *)
Fixpoint ogroups (k : nat) (l : list (option (ptype * list nat))) : list (nat * list nat) :=
  match l with
  | [] => []
  | None :: r => ogroups (S k) r
  | Some g :: r => (k, snd g) :: ogroups (S k) r
  end.
Lemma ogroups_app k l r : ogroups k (l ++ r) = ogroups k l ++ ogroups (k + length l) r.
Proof.
  revert k; induction l as [|[g|] l IH]; intros k; cbn [app ogroups length]; [rewrite Nat.add_0_r; reflexivity| |];
    rewrite IH; rewrite <- Nat.add_succ_comm; reflexivity.
Qed.
Lemma ogroups_none k n : ogroups k (repeat None n) = [].
Proof. revert k; induction n as [|n IH]; intros k; [reflexivity|]. apply IH. Qed.
Lemma gflat_app lens G H : gflat lens (G ++ H) = gflat lens G ++ gflat lens H.
Proof. unfold gflat. rewrite map_app, concat_app. reflexivity. Qed.
Lemma list_set_none {A} (pre : list (option A)) n k x : length pre <= k -> k < length pre + n ->
  list_set (pre ++ repeat None n) k x = (pre ++ repeat None (k - length pre) ++ [x]) ++ repeat None (n - (k - length pre) - 1).
Proof.
  intros H1 H2. apply nth_error_ext. intros i.
  assert (forall m j, nth_error (repeat (@None A) m) j = if j <? m then Some None else None) as R.
  { intros m j. destruct (Nat.ltb_spec j m); [apply nth_error_repeat; assumption|apply nth_error_None; rewrite repeat_length; assumption]. }
  assert (nth_error (list_set (pre ++ repeat None n) k x) i = if i =? k then Some x else nth_error (pre ++ repeat None n) i) as ->.
  { destruct (Nat.lt_ge_cases i (length pre + n)) as [Hi|Hi].
    - rewrite (nth_error_nth' _ None) by (rewrite list_set_length, app_length, repeat_length; lia).
      rewrite nth_list_set by (rewrite app_length, repeat_length; lia).
      destruct (Nat.eqb_spec i k); [reflexivity|]. symmetry. apply nth_error_nth'. rewrite app_length, repeat_length. lia.
    - rewrite !(proj2 (nth_error_None _ i)); rewrite ?list_set_length, ?app_length, ?repeat_length; try lia.
      destruct (Nat.eqb_spec i k); [lia|reflexivity]. }
  destruct (Nat.lt_ge_cases i (length pre)) as [Hi|Hi].
  - destruct (Nat.eqb_spec i k); [lia|]. rewrite <- !app_assoc, !nth_error_app1 by lia. reflexivity.
  - rewrite <- !app_assoc. rewrite !(nth_error_app2 pre) by lia. rewrite R.
    destruct (Nat.eqb_spec i k) as [->|N].
    + rewrite nth_error_app2 by (rewrite repeat_length; lia). rewrite repeat_length. replace (k - length pre - (k - length pre)) with 0 by lia. reflexivity.
    + destruct (Nat.lt_ge_cases i k).
      * rewrite nth_error_app1 by (rewrite repeat_length; lia). rewrite R. destruct (Nat.ltb_spec (i - length pre) n), (Nat.ltb_spec (i - length pre) (k - length pre)); try lia; reflexivity.
      * rewrite nth_error_app2 by (rewrite repeat_length; lia). rewrite repeat_length.
        replace (i - length pre - (k - length pre)) with (S (i - k - 1)) by lia. cbn [app nth_error]. rewrite R.
        destruct (Nat.ltb_spec (i - length pre) n), (Nat.ltb_spec (i - k - 1) (n - (k - length pre) - 1)); try lia; reflexivity.
Qed.

Definition oq (ip : ptype) (o : option (ptype * list nat)) : Prop := match o with Some g => ip = U64 -> fst g = U64 | None => True end.

Lemma strict_groups_spec (T : Prop) lens ip idx : lens <> [] -> ssortedZ (map Z.of_nat idx) -> Forall (fun i => i < list_sum lens) idx ->
  (T -> ip = U64 /\ (Z.of_nat (list_sum lens) <= pmax U64)%Z) ->
  forall fuel pos pre m, length idx - pos <= fuel -> pos <= length idx -> length pre + m = length lens ->
  (pos < length idx -> list_sum (firstn (length pre) lens) <= nth pos idx 0) ->
  gflat lens (ogroups 0 pre) = firstn pos idx -> Forall (group_ok lens) (ogroups 0 pre) -> Forall (oq ip) pre ->
  outc T (strict_groups fuel lens ip idx pos (pre ++ repeat None m))
    (fun gs => length gs = length lens /\ gflat lens (ogroups 0 gs) = idx /\ Forall (group_ok lens) (ogroups 0 gs) /\ Forall (oq ip) gs).
Proof.
  intros Hne SS HF HT. induction fuel as [|fuel IH]; intros pos pre m Hf Hp Hm Hn EG OG QG; cbn [strict_groups].
  - assert (pos = length idx) by lia. subst pos. apply outc_ok. rewrite app_length, repeat_length, ogroups_app, ogroups_none, app_nil_r, EG, firstn_all.
    split; [exact Hm|]. split; [reflexivity|]. split; [exact OG|]. apply Forall_app. split; [exact QG|]. apply Forall_forall. intros o Ho. apply repeat_spec in Ho. subst. exact I.
  - destruct (nth_error idx pos) as [i|] eqn:Ei.
    2:{ apply nth_error_None in Ei. assert (pos = length idx) by lia. subst pos. apply outc_ok. rewrite app_length, repeat_length, ogroups_app, ogroups_none, app_nil_r, EG, firstn_all.
        split; [exact Hm|]. split; [reflexivity|]. split; [exact OG|]. apply Forall_app. split; [exact QG|]. apply Forall_forall. intros o Ho. apply repeat_spec in Ho. subst. exact I. }
    assert (pos < length idx) as Hpos by (apply nth_error_Some; congruence).
    assert (nth pos idx 0 = i) as Ni by (apply nth_error_nth; exact Ei). specialize (Hn Hpos). rewrite Ni in Hn.
    pose proof (Forall_nth_lt _ _ 0 pos HF Hpos) as Hi. cbv beta in Hi. rewrite Ni in Hi.
    destruct (find_chunk_idx_spec lens i ltac:(lia) Hne) as (k & o & E & K & Sm & _ & Ho). specialize (Ho Hi). rewrite E. cbn [bind fst snd]. cbv zeta.
    rewrite (nth_error_nth' (offsets_from 0 lens) 0) by (rewrite offsets_from_length; lia).
    rewrite (nth_error_nth' (offsets_from 0 lens) 0) by (rewrite offsets_from_length; lia).
    rewrite !nth_offsets_from by lia. rewrite Nat.add_1_r, !Nat.add_0_l, (list_sum_firstn_S lens k K).
    set (cb := list_sum (firstn k lens)) in *. set (len := nth k lens 0) in *.
    assert (cb + len <= list_sum lens) as HT1.
    { unfold cb, len. rewrite <- list_sum_firstn_S by exact K. rewrite <- (list_sum_firstn_all lens). apply list_sum_firstn_mono. lia. }
    assert (length pre <= k) as HK.
    { destruct (Nat.le_gt_cases (length pre) k) as [|X]; [assumption|].
      pose proof (list_sum_firstn_mono lens (S k) (length pre) ltac:(lia)) as Q. rewrite (list_sum_firstn_S lens k K) in Q. fold cb len in Q. lia. }
    destruct (in_rangeb ip (Z.of_nat (cb + len))) eqn:IR; cbn [negb].
    2:{ intros HH. destruct (HT HH) as [-> Hx]. apply Bool.not_true_iff_false in IR. apply IR. apply in_rangeb_spec. unfold in_range.
        split; [change (pmin U64) with 0%Z; lia|]. lia. }
    rewrite search_sorted_list_correct by (apply ssorted_sorted; exact SS). cbn [bind].
    pose proof (spec_left_bounds (map Z.of_nat idx) (Z.of_nat (cb + len)) (ssorted_sorted _ SS)) as (B1 & B2 & B3). cbv zeta in B1, B2, B3.
    set (ce := to_index (spec_search (map (fun x => (x ?= Z.of_nat (cb + len))%Z) (map Z.of_nat idx)) Left)) in *. rewrite map_length in B1, B3.
    assert (forall j, j < length idx -> nth j (map Z.of_nat idx) 0%Z = Z.of_nat (nth j idx 0)) as NZ by (intros j Hj; apply (map_nth_lt Z.of_nat idx 0); exact Hj).
    assert (pos < ce) as Hce.
    { destruct (Nat.lt_ge_cases pos ce); [assumption|]. specialize (B3 pos ltac:(lia) Hpos). rewrite NZ, Ni in B3 by exact Hpos. lia. }
    rewrite slice_good by lia.
    assert (forall j, pos <= j -> j < ce -> cb <= nth j idx 0 /\ nth j idx 0 < cb + len) as RNG.
    { intros j H1 H2. specialize (B2 j H2). rewrite NZ in B2 by lia. split; [|lia].
      destruct (Nat.eq_dec j pos) as [->|]; [rewrite Ni; lia|]. pose proof (ssortedZ_nth _ pos j SS ltac:(lia) ltac:(rewrite map_length; lia)) as Q.
      rewrite !NZ in Q by lia. lia. }
    assert (Forall (fun x => cb <= x /\ x < cb + len) (lslice idx pos ce)) as FR.
    { apply Forall_forall. intros x Hx. apply (In_nth _ _ 0) in Hx. destruct Hx as (j & Hj & <-). rewrite lslice_length in Hj by lia.
      rewrite nth_lslice by lia. apply RNG; lia. }
    assert (mapM (fun x => if x <? cb then Panic else Ok (x - cb)) (lslice idx pos ce) = Ok (map (fun x => x - cb) (lslice idx pos ce))) as EM.
    { apply mapM_ok_map. intros x Hx. rewrite Forall_forall in FR. specialize (FR x Hx). destruct (Nat.ltb_spec x cb); [lia|reflexivity]. }
    rewrite EM. cbn [bind]. rewrite (list_set_none pre m k) by lia.
    set (sub := map (fun x => x - cb) (lslice idx pos ce)) in *.
    assert (gidx lens (k, sub) = lslice idx pos ce) as GS.
    { unfold gidx, sub. cbn [fst snd]. rewrite map_map. fold cb. rewrite <- (map_id (lslice idx pos ce)) at 2. apply map_ext_in. intros x Hx.
      rewrite Forall_forall in FR. specialize (FR x Hx). lia. }
    set (q := if (Z.of_nat cb <? pmax ip)%Z then ip else U64).
    assert (ogroups 0 (pre ++ repeat None (k - length pre) ++ [Some (q, sub)]) = ogroups 0 pre ++ [(k, sub)]) as EO.
    { rewrite !ogroups_app, ogroups_none, repeat_length. cbn [app ogroups snd]. f_equal. f_equal. f_equal. lia. }
    apply IH.
    + lia.
    + exact B1.
    + rewrite !app_length, repeat_length. cbn [length]. lia.
    + intros Hc. rewrite !app_length, repeat_length. cbn [length]. replace (length pre + (k - length pre + 1)) with (S k) by lia.
      rewrite (list_sum_firstn_S lens k K). fold cb len. specialize (B3 ce ltac:(lia) Hc). rewrite NZ in B3 by exact Hc. lia.
    + rewrite EO, gflat_app, EG. unfold gflat. cbn [map concat]. rewrite app_nil_r, GS. unfold lslice.
      replace ce with (pos + (ce - pos)) at 2 by lia. symmetry. apply firstn_plus.
    + rewrite EO. apply Forall_app. split; [exact OG|]. constructor; [|constructor]. split; [exact K|]. cbn [fst snd]. split.
      * intros X. assert (length sub = 0) as Y by (rewrite X; reflexivity). unfold sub in Y. rewrite map_length, lslice_length in Y by lia. lia.
      * unfold sub. apply Forall_map. eapply Forall_impl; [|exact FR]. intros x Hx. cbv beta in Hx. fold len. lia.
    + apply Forall_app. split; [exact QG|]. apply Forall_app. split; [apply Forall_forall; intros o' Ho'; apply repeat_spec in Ho'; subst; exact I|].
      constructor; [|constructor]. intros HH. unfold q. cbn [fst]. destruct (_ <? _)%Z; auto.
Qed.


Lemma ogroups_collect {C} (Q : nat * list nat -> C -> Prop) gs : forall s n xs,
  n = length gs ->
  Forall2 (fun (kg : nat * option (ptype * list nat)) (x : option C) =>
     match snd kg, x with None, None => True | Some g, Some y => Q (fst kg, snd g) y | _, _ => False end) (combine (seq s n) gs) xs ->
  Forall2 Q (ogroups s gs) (filter_map id xs).
Proof.
  induction gs as [|g gs IH]; intros s n xs -> H; cbn [length seq combine] in H.
  - inversion H; subst. constructor.
  - inversion H as [|? y ? ys Hy Hr]; subst. cbn [fst snd] in Hy. specialize (IH (S s) _ ys eq_refl Hr).
    destruct g as [g|], y as [y|]; cbn [ogroups filter_map]; unfold id at 1; try contradiction; [constructor; assumption|assumption].
Qed.

Lemma in_combine_seq {A} (l : list A) d s k x : In (k, x) (combine (seq s (length l)) l) -> s <= k /\ k < s + length l /\ nth (k - s) l d = x.
Proof.
  revert s; induction l as [|y l IH]; intros s H; [destruct H|]. cbn [length seq combine] in H. destruct H as [H|H].
  - injection H as -> ->. rewrite Nat.sub_diag. cbn [length nth]. split; [lia|]. split; [lia|reflexivity].
  - apply IH in H. destruct H as (H1 & H2 & H3). cbn [length]. split; [lia|]. split; [lia|].
    replace (k - s) with (S (k - S s)) by lia. exact H3.
Qed.
Lemma ogroups_In gs s k g : In (k, Some g) (combine (seq s (length gs)) gs) -> In (k, snd g) (ogroups s gs).
Proof.
  revert s; induction gs as [|y l IH]; intros s H; [destruct H|]. cbn [length seq combine] in H. destruct H as [H|H].
  - injection H as -> ->. left. reflexivity.
  - apply IH in H. destruct y; cbn [ogroups]; [right|]; exact H.
Qed.

Lemma ssorted_full idx n : ssortedZ (map Z.of_nat idx) -> Forall (fun i => i < n) idx -> length idx = n -> idx = seq 0 n.
Proof.
  intros SS HF HL. apply (nth_ext_len _ _ 0); [rewrite seq_length; exact HL|]. intros i Hi. rewrite seq_nth by lia. cbn [Nat.add].
  assert (forall j, j < length idx -> nth j (map Z.of_nat idx) 0%Z = Z.of_nat (nth j idx 0)) as NZ by (intros j Hj; apply (map_nth_lt Z.of_nat idx 0); exact Hj).
  pose proof (ssorted_ge (map Z.of_nat idx) i SS ltac:(apply Forall_map, Forall_forall; intros; lia) ltac:(rewrite map_length; exact Hi)) as G. rewrite NZ in G by exact Hi.
  assert (forall d, i + d < n -> nth i idx 0 + d <= nth (i + d) idx 0) as UP.
  { induction d as [|d IHd]; intros Hd; [rewrite !Nat.add_0_r; lia|]. specialize (IHd ltac:(lia)).
    pose proof (ssortedZ_nth _ (i + d) (i + S d) SS ltac:(lia) ltac:(rewrite map_length; lia)) as Q. rewrite !NZ in Q by lia. lia. }
  specialize (UP (n - 1 - i) ltac:(lia)). pose proof (Forall_nth_lt _ _ 0 (i + (n - 1 - i)) HF ltac:(lia)) as Q. cbv beta in Q. lia.
Qed.

Section Step.
  Variable rec : array -> ops_t.
  Variable M : nat.
  Hypothesis Hrec : forall b, depth b < M -> ops_good (rec b) b.
  Local Notation take_ok := (take_ok rec).

  Lemma chunk_take_ok (T : Prop) f d cs q g : depth (AChunked d cs) <= M -> wf f (AChunked d cs) -> fc f = true -> ft f = true ->
    group_ok (map alen cs) g -> (Z.of_nat (length (snd g)) <= pmax U64)%Z -> (T -> fN f = true /\ q = U64) ->
    outc T (take_chunk (map (fun c => (c, rec c)) cs) (fst g) q (snd g)) (fun x => fst g < length cs /\
       Forall (fun i => i < alen (nth (fst g) cs (ANull 0))) (snd g) /\ sel_post (pf f) f (nth (fst g) cs (ANull 0)) (snd g) x).
  Proof.
    intros D W C Ft (G1 & G2 & G3) Hl HT. rewrite map_length in G1. rewrite (map_nth_lt alen cs (ANull 0)) in G3 by exact G1.
    cbn [wf] in W. destruct W as [W _]. apply wf_chunks_iff in W. pose proof (Forall_nth_lt _ _ (ANull 0) _ W G1) as [Wk _].
    unfold take_chunk. rewrite (nth_error_nth' _ (ANull 0, rec (ANull 0))) by (rewrite map_length; exact G1).
    rewrite (map_nth_lt (fun c => (c, rec c)) cs (ANull 0)) by exact G1. cbn [fst snd].
    assert (depth (nth (fst g) cs (ANull 0)) < M) as Dk.
    { cbn [depth] in D. pose proof (proj1 (list_max_le (map depth cs) _) (le_n _)) as Q. rewrite Forall_forall in Q.
      specialize (Q _ (in_map depth cs _ (nth_In cs (ANull 0) G1))). lia. }
    eapply outc_weaken; [apply (g_take _ _ (Hrec _ Dk) f q (snd g)); assumption| |].
    - intros HH. destruct (HT HH) as [H1 ->]. right. auto.
    - intros x _ P. repeat split; try assumption; apply P.
  Qed.

  Lemma group_le lens G idx g : gflat lens G = idx -> In g G -> length (snd g) <= length idx.
  Proof.
    intros <- H. induction G as [|g' G IH]; [destruct H|]. rewrite gflat_cons, app_length. destruct H as [->|H].
    - unfold gidx. rewrite map_length. lia.
    - specialize (IH H). lia.
  Qed.

  Lemma take_chunked d cs : depth (AChunked d cs) <= M -> take_ok (AChunked d cs).
  Proof.
    intros D f ip idx W C Ft Hl HI. cbn [ops_step o_take]. unfold chunked_take. rewrite map_map. cbn [fst].
    change (map (fun x : array => alen x) cs) with (map alen cs). set (lens := map alen cs).
    pose proof W as W0. cbn [wf] in W. destruct W as (Wc & W2 & W3 & W4 & W5 & W6 & W7 & W8).
    change (alen (AChunked d cs)) with (list_sum lens) in HI.
    assert (Ttake f ip idx -> fN f = true /\ idx <> [] /\ ip = U64) as HT by (intros [X|X]; [congruence|exact X]).
    destruct idx as [|i0 ir] eqn:EI.
    { intros HH. apply HT in HH. destruct HH as (_ & HH & _). congruence. }
    rewrite <- EI in *.
    assert (lens <> []) as Hne.
    { intros X. rewrite X in HI. rewrite EI in HI. inversion HI as [|? ? Q _]. cbn in Q. lia. }
    assert (length lens = length cs) as LL by apply map_length.
    assert (Ttake f ip idx -> fk f = true \/ is_prim d = true) as HK by (intros HH; apply HT in HH; apply W4; apply HH).
    destruct (ssortedb (map Z.of_nat idx)) eqn:SB.
    - apply ssortedb_spec in SB. destruct (Nat.eqb_spec (list_sum lens) (length idx)) as [EL|NL].
      + apply outc_ok. pose proof (ssorted_full idx (list_sum lens) SB HI (eq_sym EL)) as ->. split; [apply (wf_fle _ _ f (fle_pf f)); exact W0|].
        split; [|repeat split; auto].
        assert (length (logical (AChunked d cs)) = list_sum lens) as LA by (rewrite logical_length; reflexivity).
        rewrite <- LA. symmetry. apply pick_seq.
      + pose proof (strict_groups_spec (Ttake f ip idx) lens ip idx Hne SB HI) as SG.
        specialize (SG ltac:(intros HH; apply HT in HH; split; [apply HH|apply W7; apply HH]) (length idx) 0 [] (length cs) ltac:(lia) ltac:(lia) ltac:(cbn [length]; lia)
          ltac:(intros; cbn; lia) eq_refl ltac:(constructor) ltac:(constructor)).
        rewrite map_length. eapply outc_bind; [exact SG|].
        intros gs _ (G1 & G2 & G3 & G4).
        eapply outc_bind.
        { apply mapM_outc with (P := fun (kg : nat * option (ptype * list nat)) (x : option array) => match snd kg, x with None, None => True | Some g, Some y =>
             (fun (g : nat * list nat) x => fst g < length cs /\ Forall (fun i => i < alen (nth (fst g) cs (ANull 0))) (snd g) /\
              sel_post (pf f) f (nth (fst g) cs (ANull 0)) (snd g) x) (fst kg, snd g) y | _, _ => False end).
          intros [k [g|]] Hk; cbn [fst snd]; [|apply outc_ok; exact I].
          pose proof (ogroups_In _ _ _ _ Hk) as IG. rewrite Forall_forall in G3. pose proof (G3 _ IG) as OK.
          destruct (in_combine_seq gs None 0 k _ Hk) as (_ & K2 & K3).
          pose proof (Forall_nth_lt _ _ None (k - 0) G4 ltac:(lia)) as Q. rewrite K3 in Q. cbn [oq] in Q.
          eapply outc_bind.
          { apply (chunk_take_ok (Ttake f ip idx) f d cs (fst g) (k, snd g)); auto.
            - pose proof (group_le lens _ _ _ G2 IG) as X. lia.
            - intros HH. apply HT in HH. destruct HH as (H1 & _ & H2). auto. }
          intros x _ Px. apply outc_ok. exact Px. }
        intros xs _ F2. cbv beta in F2.
        apply (ogroups_collect (fun (g : nat * list nat) x => fst g < length cs /\ Forall (fun i => i < alen (nth (fst g) cs (ANull 0))) (snd g) /\
              sel_post (pf f) f (nth (fst g) cs (ANull 0)) (snd g) x) gs 0 _ xs eq_refl) in F2.
        eapply chunked_assemble; [apply fle_pf|exact W0|exact HK|exact F2|exact G2|exact Hl].
    - assert (i0 < list_sum lens) as Hi0 by (rewrite EI in HI; inversion HI; assumption).
      destruct (find_chunk_idx_spec lens i0 ltac:(lia) Hne) as (k0 & o0 & E0 & K0 & _). rewrite E0. cbn [bind fst].
      destruct (unsorted_groups_spec lens idx k0 [] Hne HI K0 ltac:(constructor)) as (G & EG & FG & OG).
      { intros _. rewrite EI. exists o0. exact E0. }
      rewrite EG. cbn [bind]. cbn [gidx fst snd map app] in FG.
      eapply outc_bind.
      { apply mapM_outc with (P := fun (g : nat * list nat) x => fst g < length cs /\ Forall (fun i => i < alen (nth (fst g) cs (ANull 0))) (snd g) /\
              sel_post (pf f) f (nth (fst g) cs (ANull 0)) (snd g) x).
        intros g Hg. rewrite Forall_forall in OG. apply (chunk_take_ok (Ttake f ip idx) f d cs U64 g); auto.
        - pose proof (group_le lens _ _ _ FG Hg). lia.
        - intros HH. apply HT in HH. split; [apply HH|reflexivity]. }
      intros xs _ F2. eapply chunked_assemble; [apply fle_pf|exact W0|exact HK|exact F2|exact FG|exact Hl].
  Qed.
End Step.
