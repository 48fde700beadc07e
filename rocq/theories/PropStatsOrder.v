(** C29, the order behind the statistics: that of the numbers, booleans and strings themselves. *)
From Verif Require Import Base Spec CmpSpec Arr ArrWf ArrReadProofs StatsModel Compare CmpProofs.

Lemma mant_same p : is_float p = true -> mant_bits p = mantissa p.
Proof. destruct p; try discriminate; reflexivity. Qed.
Lemma zkey_total p z : is_float p = true -> zkey p z = total_key p z.
Proof.
  intros F. unfold zkey, total_key, is_neg, magnitude, is_neg, sign_bit. rewrite F. destruct (Z.leb_spec (2 ^ (bits p - 1)) z), (Z.ltb_spec z (2 ^ (bits p - 1))); lia.
Qed.
Lemma nan_same p z : is_float p = true -> in_range p z -> StatsModel.is_nan p z = CmpSpec.is_nan p z.
Proof.
  intros F R. unfold StatsModel.is_nan, CmpSpec.is_nan. rewrite F. cbn [andb]. f_equal.
  - unfold StatsModel.inf_bits, CmpSpec.inf_bits, sign_bit. rewrite mant_same by exact F. reflexivity.
  - unfold magnitude, is_neg, sign_bit. assert (0 <= z < 2 * 2 ^ (bits p - 1))%Z as B by (destruct p; try discriminate F; unfold in_range in R; cbn in R |- *; lia).
    destruct (Z.leb_spec (2 ^ (bits p - 1)) z).
    + symmetry. apply (Z.mod_unique_pos _ _ 1); lia.
    + apply Z.mod_small. lia.
Qed.
Lemma bcmp_lex a : forall b, bcmp a b = lex a b.
Proof. induction a as [|x a IH]; intros [|y b]; cbn; try reflexivity. Qed.

(** Two numbers are equal for the statistics if they are as numbers: NaN equals nothing, both zeros are equal. *)
Lemma peq_ieee p x y : is_float p = true -> in_range p x -> in_range p y -> peq p x y = rel CEq (ieee_cmp p x y).
Proof.
  intros F Rx Ry. unfold peq, ieee_cmp. rewrite F, !nan_same by assumption.
  destruct (CmpSpec.is_nan p x); [reflexivity|]. destruct (CmpSpec.is_nan p y); [reflexivity|]. cbn [negb andb orb rel].
  assert (forall z, in_range p z -> (0 <= z < 2 * sign_bit p)%Z) as B by (intros z R; destruct p; try discriminate F; unfold in_range, sign_bit in *; cbn in R |- *; lia).
  specialize (B x Rx) as Bx. specialize (B y Ry) as By. clear B Rx Ry.
  assert (forall z, (0 <= z < 2 * sign_bit p)%Z -> (z mod 2 ^ (bits p - 1) = magnitude p z)%Z) as Md.
  { intros z Bz. unfold magnitude, is_neg, sign_bit in *. destruct (Z.leb_spec (2 ^ (bits p - 1)) z); [symmetry; apply (Z.mod_unique_pos _ _ 1); lia|apply Z.mod_small; lia]. }
  rewrite !Md by assumption. clear Md. unfold float_key, magnitude, is_neg in *.
  set (s := sign_bit p) in *. clearbody s.
  destruct (Z.leb_spec s x), (Z.leb_spec s y);
    (match goal with |- _ = match ?c with _ => _ end => destruct c eqn:E; [apply Z.compare_eq in E|rewrite Z.compare_lt_iff in E|rewrite Z.compare_gt_iff in E] end);
    repeat match goal with |- context[(?a =? ?b)%Z] => destruct (Z.eqb_spec a b) end; cbn; try reflexivity; lia.
Qed.

(** Values are ordered and equal for the statistics as they are in fact: numbers by value, booleans false first, strings byte by byte; null
    comes after all of them. (The order of floats is only the numeric one without NaN and -0.0.) *)
Definition not_odd (d : dtype) (x : value) : Prop := match d, x with DPrim p _, VInt z => is_float p = true -> plain_float p z | _, _ => True end.
Theorem statistics_use_the_order_of_values :
  forall (d : dtype) (x y : value), vtyped d x -> vtyped d y -> x <> VNull -> y <> VNull -> flat d = true -> (forall i n, d <> DExt i n) ->
  (not_odd d x -> not_odd d y -> vcmp d x y = value_cmp d x y) /\
  veq d x y = rel CEq (value_cmp d x y) /\
  vcmp d x VNull = Some Lt /\ vcmp d VNull x = Some Gt /\ vcmp d VNull VNull = Some Eq.
Proof.
  intros d x y Tx Ty Nx Ny F Ne.
  assert (vcmp d x VNull = Some Lt /\ vcmp d VNull x = Some Gt /\ vcmp d VNull VNull = Some Eq) as Nn.
  { destruct x; try contradiction (Nx eq_refl); repeat split; reflexivity. }
  split; [|split; [|exact Nn]]; clear Nn.
  - intros Ox Oy. destruct x as [|b|z|s|vs]; try contradiction (Nx eq_refl); destruct y as [|c|w|t|ws]; try contradiction (Ny eq_refl);
      try (destruct d; cbn in Tx, Ty; contradiction || reflexivity).
    + destruct d as [| |p nl| | | |i n]; try (cbn in Tx; contradiction); [|contradiction (Ne i n eq_refl)]. cbn [vcmp value_cmp]. destruct (is_float p) eqn:Fp.
      * rewrite !zkey_total by exact Fp. cbn in Tx, Ty. apply total_is_ieee; [exact Fp|exact Tx|exact Ty|exact (Ox Fp)|exact (Oy Fp)].
      * unfold zkey. rewrite Fp. reflexivity.
  - destruct x as [|b|z|s|vs]; try contradiction (Nx eq_refl); destruct y as [|c|w|t|ws]; try contradiction (Ny eq_refl);
      try (destruct d; cbn in Tx, Ty; contradiction || reflexivity).
    + destruct b, c; reflexivity.
    + destruct d as [| |p nl| | | |i n]; try (cbn in Tx; contradiction); [|contradiction (Ne i n eq_refl)]. cbn [veq value_cmp]. cbn in Tx, Ty. destruct (is_float p) eqn:Fp.
      * apply peq_ieee; assumption.
      * unfold peq. rewrite Fp. cbn [rel]. destruct (Z.eqb_spec z w) as [->|Nz]; [rewrite Z.compare_refl; reflexivity|]. destruct (z ?= w)%Z eqn:E; try reflexivity. apply Z.compare_eq in E. contradiction.
Qed.
Print Assumptions statistics_use_the_order_of_values.

Example ex_order :
  vcmp (DPrim F32 true) (VInt 3212836864) (VInt 1065353216) = Some Lt /\ not_odd (DPrim F32 true) (VInt 3212836864) /\ vtyped (DPrim F32 true) (VInt 3212836864). (* -1.0 < 1.0 *)
Proof. split; [reflexivity|]. split; [|cbn; unfold in_range; cbn; lia]. intros _. split; [reflexivity|cbn; lia]. Qed.
