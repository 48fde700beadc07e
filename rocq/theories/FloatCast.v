(** Exactness of number conversions (lemmas for C45). *)
From Coq Require Import Floats.SpecFloat.
From Verif Require Import Base Spec CmpSpec Arr Scalars.
Local Open Scope Z_scope.

(** * Specification: the number a float denotes, as mantissa and exponent: (-1)^s * m * 2^e with the fields of IEEE 754
    binary16/32/64; [None] for the infinities and NaN. *)
Definition fvalue (p : ptype) (z : Z) : option (Z * Z) :=
  let a := magnitude p z in
  if inf_bits p <=? a then None
  else
    let m := a mod 2 ^ mantissa p in
    let e := a / 2 ^ mantissa p in
    let bias := 2 ^ (bits p - mantissa p - 2) - 1 in
    let u := if e =? 0 then m else m + 2 ^ mantissa p in
    Some (if is_neg p z then - u else u, Z.max e 1 - bias - mantissa p).
(** m * 2^e = m' * 2^e'. *)
Definition same_number (x y : Z * Z) : Prop :=
  let k := Z.min (snd x) (snd y) in fst x * 2 ^ (snd x - k) = fst y * 2 ^ (snd y - k).

(** * Digits *)
Lemma digits_bounds m : 2 ^ (Zpos (digits2_pos m) - 1) <= Zpos m < 2 ^ Zpos (digits2_pos m).
Proof.
  induction m as [m IH|m IH|]; [| |cbn; lia]; cbn [digits2_pos]; rewrite Pos2Z.inj_succ;
    rewrite Z.pow_succ_r by lia; replace (Z.succ (Zpos (digits2_pos m)) - 1) with (Z.succ (Zpos (digits2_pos m) - 1)) by lia;
    rewrite Z.pow_succ_r by lia; lia.
Qed.
Lemma digits_unique m d : 2 ^ (d - 1) <= Zpos m < 2 ^ d -> Zpos (digits2_pos m) = d.
Proof.
  intros H. pose proof (digits_bounds m) as B.
  assert (0 < d) by (destruct (Z.le_gt_cases d 0) as [N|]; [|lia]; exfalso; assert (2 ^ d <= 2 ^ 0) by (apply Z.pow_le_mono_r; lia); cbn in *; lia).
  destruct (Z.lt_trichotomy (Zpos (digits2_pos m)) d) as [L|[E|L]]; [|exact E|].
  - assert (2 ^ Zpos (digits2_pos m) <= 2 ^ (d - 1)) by (apply Z.pow_le_mono_r; lia). lia.
  - assert (2 ^ d <= 2 ^ (Zpos (digits2_pos m) - 1)) by (apply Z.pow_le_mono_r; lia). lia.
Qed.
Lemma digits_le m d : Zpos m < 2 ^ d -> Zpos (digits2_pos m) <= d.
Proof.
  intros H. pose proof (digits_bounds m) as B. destruct (Z.le_gt_cases (Zpos (digits2_pos m)) d) as [|L]; [assumption|].
  assert (2 ^ d <= 2 ^ (Zpos (digits2_pos m) - 1)) by (apply Z.pow_le_mono_r; lia). lia.
Qed.
Lemma shift_pos_val d m : Zpos (shift_pos d m) = Zpos m * 2 ^ Zpos d.
Proof. rewrite shift_pos_correct. change (Z.pow_pos 2 d) with (2 ^ Zpos d). lia. Qed.

(** * Exact rounding *)
Lemma shr_fexp_exact prec emax m e :
  0 < m -> fexp prec emax (Zdigits2 m + e) = e -> shr_fexp prec emax m e loc_Exact = ({| shr_m := m; shr_r := false; shr_s := false |}, e).
Proof. intros Hm H. unfold shr_fexp. rewrite H. replace (e - e) with 0 by lia. reflexivity. Qed.

Lemma round_exact prec emax s k e :
  let d := Zpos (digits2_pos k) in
  let e' := Z.max (d + e - prec) (3 - emax - prec) in
  3 <= 2 * emax -> d <= prec -> 3 - emax - prec <= e -> d + e <= emax ->
  exists k', binary_round prec emax s k e = S754_finite s k' e' /\ Zpos k' = Zpos k * 2 ^ (e - e') /\ e' <= e.
Proof.
  intros d e' Hx Hd He Hm.
  assert (Le : e' <= e) by (subst e'; lia).
  assert (F : fexp prec emax (d + e) = e') by reflexivity.
  unfold binary_round. fold d. rewrite F.
  assert (K : exists k', shl_align k e e' = (k', e') /\ Zpos k' = Zpos k * 2 ^ (e - e')).
  { unfold shl_align. destruct (e' - e) as [|q|q] eqn:E; [|lia|].
    - exists k. assert (e' = e) by lia. split; [congruence|]. replace (e - e') with 0 by lia. change (2 ^ 0) with 1; lia.
    - exists (shift_pos q k). split; [reflexivity|]. rewrite shift_pos_val. do 2 f_equal. lia. }
  destruct K as (k' & K1 & K2). rewrite K1. exists k'. split; [|split; assumption].
  assert (D : Zdigits2 (Zpos k') + e' = d + e).
  { cbn [Zdigits2]. rewrite (digits_unique k' (d + (e - e'))); [lia|]. rewrite K2. pose proof (digits_bounds k) as B. fold d in B.
    replace (d + (e - e') - 1) with ((d - 1) + (e - e')) by lia. rewrite !Z.pow_add_r by lia. assert (0 < 2 ^ (e - e')) by (apply Z.pow_pos_nonneg; lia). nia. }
  assert (G : fexp prec emax (Zdigits2 (Zpos k') + e') = e') by (rewrite D; exact F).
  unfold binary_round_aux. rewrite (shr_fexp_exact prec emax (Zpos k') e' eq_refl G). cbn [shr_m shr_r shr_s loc_of_shr_record round_nearest_even].
  rewrite (shr_fexp_exact prec emax (Zpos k') e' eq_refl G). cbn [shr_m].
  replace (e' <=? emax - prec) with true by (symmetry; apply Z.leb_le; subst e'; lia). reflexivity.
Qed.

Definition fl (p : ptype) : Prop := is_float p = true.

(** A canonical float is read back. *)
Lemma fvalue_to_bits p s k e :
  fl p -> Zpos k < 2 ^ fprec p -> femin p <= e <= femax p - fprec p -> (e = femin p \/ 2 ^ mantissa p <= Zpos k) ->
  fvalue p (to_bits p (S754_finite s k e)) = Some (if s then - Zpos k else Zpos k, e).
Proof.
  intros F K E C. unfold to_bits, fvalue.
  set (a := if Zpos k <? 2 ^ mantissa p then Zpos k else (e - femin p + 1) * 2 ^ mantissa p + (Zpos k - 2 ^ mantissa p)).
  assert (P : fprec p = mantissa p + 1) by reflexivity. rewrite P, Z.pow_add_r in K by (destruct p; cbn; lia). change (2 ^ 1) with 2 in K.
  assert (M : 0 < 2 ^ mantissa p) by (destruct p; cbn; lia).
  assert (A : 0 <= a < inf_bits p).
  { subst a. destruct (Z.ltb_spec (Zpos k) (2 ^ mantissa p)).
    - destruct p; try discriminate F; cbn in *; lia.
    - split; [nia|]. apply Z.lt_le_trans with ((e - femin p + 2) * 2 ^ mantissa p); [nia|].
      destruct p; try discriminate F; cbn in *; lia. }
  assert (S0 : is_neg p ((if s then sign_bit p else 0) + a) = s /\ magnitude p ((if s then sign_bit p else 0) + a) = a).
  { assert (I : inf_bits p <= sign_bit p) by (unfold inf_bits; lia). clearbody a. unfold magnitude, is_neg. set (sb := sign_bit p) in *. clearbody sb.
    destruct s; [destruct (Z.leb_spec sb (sb + a))|destruct (Z.leb_spec sb (0 + a))]; split; lia || reflexivity. }
  destruct S0 as [S1 S2]. rewrite S1, S2. replace (inf_bits p <=? a) with false by (symmetry; apply Z.leb_gt; lia).
  assert (Fm : (if a / 2 ^ mantissa p =? 0 then a mod 2 ^ mantissa p else a mod 2 ^ mantissa p + 2 ^ mantissa p) = Zpos k /\ Z.max (a / 2 ^ mantissa p) 1 = e - femin p + 1).
  { subst a. destruct (Z.ltb_spec (Zpos k) (2 ^ mantissa p)) as [L|L].
    - rewrite Z.div_small, Z.mod_small by lia. cbn [Z.eqb]. split; [reflexivity|]. destruct C as [->|C]; lia.
    - rewrite (Z.add_comm (_ * _)). rewrite Z.div_add, Z.mod_add by lia. rewrite Z.div_small, Z.mod_small by lia.
      destruct (Z.eqb_spec (0 + (e - femin p + 1)) 0); [lia|]. split; lia. }
  destruct Fm as [F1 F2]. rewrite F1, F2. f_equal. f_equal.
  destruct p; try discriminate F; cbn; lia.
Qed.

(** What the decoded form of a finite float is. *)
Lemma of_bits_spec p z :
  fl p -> in_range p z ->
  match fvalue p z with
  | None => of_bits p z = S754_nan \/ exists s, of_bits p z = S754_infinity s
  | Some (m, e) =>
      (m = 0 /\ of_bits p z = S754_zero (is_neg p z)) \/
      (exists k, of_bits p z = S754_finite (is_neg p z) k e /\ m = (if is_neg p z then - Zpos k else Zpos k) /\ Zpos k < 2 ^ fprec p /\
                 femin p <= e <= femax p - fprec p /\ (e = femin p \/ 2 ^ mantissa p <= Zpos k))
  end.
Proof.
  intros F R. unfold fvalue, of_bits.
  assert (M : 0 < 2 ^ mantissa p) by (destruct p; cbn; lia).
  assert (A : 0 <= magnitude p z < 2 ^ (bits p - 1)).
  { assert (R' : 0 <= z < 2 * sign_bit p) by (unfold in_range in R; destruct p; try discriminate F; cbn in R |- *; lia).
    change (2 ^ (bits p - 1)) with (sign_bit p). unfold magnitude, is_neg. set (sb := sign_bit p) in *. clearbody sb.
    destruct (Z.leb_spec sb z); lia. }
  set (a := magnitude p z) in *. clearbody a. set (m := a mod 2 ^ mantissa p). set (e := a / 2 ^ mantissa p).
  assert (Dm : a = 2 ^ mantissa p * e + m) by (subst m e; apply Z.div_mod; lia).
  assert (Bm : 0 <= m < 2 ^ mantissa p) by (subst m; apply Z.mod_pos_bound; lia). clearbody m e.
  assert (Ee : 0 <= e < 2 * femax p) by (assert (2 ^ (bits p - 1) = 2 ^ mantissa p * (2 * femax p)) by (destruct p; try discriminate F; reflexivity); nia).
  assert (Le : (inf_bits p <=? a) = (e =? 2 * femax p - 1)).
  { assert (inf_bits p = 2 ^ mantissa p * (2 * femax p - 1)) by (destruct p; try discriminate F; reflexivity).
    destruct (Z.leb_spec (inf_bits p) a), (Z.eqb_spec e (2 * femax p - 1)); try reflexivity; nia. }
  assert (E2 : Z.max e 1 - (2 ^ (bits p - mantissa p - 2) - 1) - mantissa p = Z.max e 1 + femin p - 1) by (assert (2 ^ (bits p - mantissa p - 2) - 1 + mantissa p = 1 - femin p) by (destruct p; try discriminate F; reflexivity); lia).
  assert (Fp : fprec p = mantissa p + 1) by reflexivity.
  assert (P2 : 2 ^ fprec p = 2 * 2 ^ mantissa p) by (rewrite Fp, Z.pow_add_r by (destruct p; cbn; lia); change (2 ^ 1) with 2; lia).
  assert (G : 2 * femax p - 2 + femin p - 1 = femax p - fprec p /\ 1 < femax p) by (unfold femin; rewrite Fp; destruct p; try discriminate F; cbn; lia).
  rewrite Le, E2. destruct (Z.eqb_spec e (2 * femax p - 1)) as [->|Ne].
  - destruct (Z.eqb_spec (2 * femax p - 1) 0); [lia|]. destruct (m =? 0); [right; eexists|left]; reflexivity.
  - destruct (Z.eqb_spec e 0) as [->|N0].
    + change (Z.max 0 1) with 1. replace (1 + femin p - 1) with (femin p) by lia. destruct m as [|k|k]; [left|right|lia].
      * split; [now destruct (is_neg p z)|reflexivity].
      * exists k. repeat split; lia.
    + destruct (m + 2 ^ mantissa p) as [|k|k] eqn:Ek; try lia. right. exists k. replace (Z.max e 1 + femin p - 1) with (e + femin p - 1) by lia.
      repeat split; try lia.
Qed.

(** Converting a number k * 2^e that fits. *)
Lemma normalize_exact q m e s :
  fl q -> m <> 0 -> Z.abs m < 2 ^ fprec q -> femin q <= e -> Zpos (digits2_pos (Z.to_pos (Z.abs m))) + e <= femax q ->
  exists x, fvalue q (to_bits q (binary_normalize (fprec q) (femax q) m e s)) = Some x /\ same_number x (m, e).
Proof.
  intros F Nz B He Hm.
  assert (K : forall k sg, Zpos k < 2 ^ fprec q -> Zpos (digits2_pos k) + e <= femax q ->
            exists x, fvalue q (to_bits q (binary_round (fprec q) (femax q) sg k e)) = Some x /\ same_number x ((if sg then - Zpos k else Zpos k), e)).
  { clear Hm B Nz m s. intros k sg B Hm.
    assert (P0 : 0 < fprec q) by (destruct q; cbn; lia).
    assert (Ex : 3 <= 2 * femax q) by (destruct q; cbn; lia).
    assert (Dk : Zpos (digits2_pos k) <= fprec q) by (apply digits_le; lia).
      destruct (round_exact (fprec q) (femax q) sg k e Ex Dk He Hm) as (k' & K1 & K2 & K3). rewrite K1.
      set (d := Zpos (digits2_pos k)) in *. set (e' := Z.max (d + e - fprec q) (3 - femax q - fprec q)) in *.
      pose proof (digits_bounds k) as Bk. fold d in Bk.
      assert (Pw : 0 < 2 ^ (e - e')) by (apply Z.pow_pos_nonneg; lia).
      rewrite fvalue_to_bits; [eexists; split; [reflexivity|]|exact F| | |].
      + unfold same_number; cbn [fst snd]. rewrite Z.min_l by lia. rewrite Z.sub_diag, K2. change (2 ^ 0) with 1. destruct sg; lia.
      + rewrite K2. apply Z.lt_le_trans with (2 ^ d * 2 ^ (e - e')); [nia|]. rewrite <- Z.pow_add_r by lia. apply Z.pow_le_mono_r; lia.
      + unfold femin in *. lia.
      + destruct (Z.eq_dec e' (femin q)) as [|Ne']; [now left|right]. rewrite K2.
        assert (e' = d + e - fprec q) by (unfold femin in *; lia).
        apply Z.le_trans with (2 ^ (d - 1) * 2 ^ (e - e')); [|nia]. rewrite <- Z.pow_add_r by lia. apply Z.pow_le_mono_r; [lia|]. unfold fprec in *; lia. }
  destruct m as [|k|k]; [congruence| |]; cbn [binary_normalize].
  - apply (K k false); [exact B|exact Hm].
  - apply (K k true); [exact B|exact Hm].
Qed.
