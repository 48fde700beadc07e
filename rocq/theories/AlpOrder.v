(** Rounding to nearest even is monotone, and so is ALP decoding (lemmas for C25). *)
From Coq Require Import Floats.SpecFloat.
From Verif Require Import Base Spec CmpSpec Arr Scalars FloatCast Alp PropAlp.
Local Open Scope Z_scope.

Section Rounding.
  Variables prec emax : Z.
  Hypotheses (Hp : 1 < prec) (Hm : prec < emax).
  Let em := 3 - emax - prec.
  Let H := 2 ^ (prec - 1).
  Let Inf := (2 * emax - 1) * H.
  Lemma H_pos : 0 < H.
  Proof. apply Z.pow_pos_nonneg; lia. Qed.
  Lemma H_double : 2 ^ prec = 2 * H.
  Proof. unfold H. rewrite <- Z.pow_succ_r by lia. f_equal. lia. Qed.

  (** Rounding [v / 2^k] to the nearest integer, ties to even. *)
  Definition rne (k v : Z) : Z :=
    let q := v / 2 ^ k in
    match 2 * (v mod 2 ^ k) ?= 2 ^ k with Lt => q | Eq => if Z.even q then q else q + 1 | Gt => q + 1 end.
  Lemma pow_pos k : 0 <= k -> 0 < 2 ^ k.
  Proof. intros. apply Z.pow_pos_nonneg; lia. Qed.
  Lemma rne_bounds k v : v / 2 ^ k <= rne k v <= v / 2 ^ k + 1.
  Proof. unfold rne. destruct (_ ?= _); [destruct (Z.even _)| |]; lia. Qed.
  Lemma rne_mono k v w : 0 <= k -> v <= w -> rne k v <= rne k w.
  Proof.
    intros K L. pose proof (pow_pos k K) as P. assert (v / 2 ^ k <= w / 2 ^ k) as Q by (apply Z.div_le_mono; lia).
    pose proof (rne_bounds k v). pose proof (rne_bounds k w). destruct (Z.eq_dec (v / 2 ^ k) (w / 2 ^ k)) as [E|E]; [|lia].
    pose proof (Z.div_mod v (2 ^ k) ltac:(lia)). pose proof (Z.div_mod w (2 ^ k) ltac:(lia)). assert (v mod 2 ^ k <= w mod 2 ^ k) as R by nia.
    unfold rne. rewrite E. destruct (Z.compare_spec (2 * (v mod 2 ^ k)) (2 ^ k)), (Z.compare_spec (2 * (w mod 2 ^ k)) (2 ^ k)); try destruct (Z.even _); lia.
  Qed.
  Lemma rne_scale k v j : 0 <= k -> 0 <= j -> rne (k + j) (v * 2 ^ j) = rne k v.
  Proof.
    intros K J. pose proof (pow_pos k K) as P. pose proof (pow_pos j J) as Q. unfold rne. rewrite Z.pow_add_r by lia.
    rewrite Z.div_mul_cancel_r by lia. rewrite Z.mul_mod_distr_r by lia.
    replace (2 * (v mod 2 ^ k * 2 ^ j)) with (2 * (v mod 2 ^ k) * 2 ^ j) by lia. rewrite <- (Zmult_compare_compat_r _ _ (2 ^ j)) by lia. reflexivity.
  Qed.

  (** Shifting right, with the bits lost. *)
  Definition rep (k v : Z) (x : shr_record) : Prop :=
    shr_m x = v / 2 ^ k /\ shr_r x = (2 ^ k <=? 2 * (v mod 2 ^ k)) /\
    shr_s x = negb (2 * (v mod 2 ^ k) =? 0) && negb (2 * (v mod 2 ^ k) =? 2 ^ k).
  Lemma rep_0 v : rep 0 v {| shr_m := v; shr_r := false; shr_s := false |}.
  Proof. unfold rep. cbn [shr_m shr_r shr_s]. change (2 ^ 0) with 1. rewrite Z.div_1_r, Z.mod_1_r. auto. Qed.
  Lemma shr_1_val x : 0 <= shr_m x -> shr_m (shr_1 x) = shr_m x / 2 /\ shr_r (shr_1 x) = Z.odd (shr_m x) /\ shr_s (shr_1 x) = shr_r x || shr_s x.
  Proof.
    destruct x as [m r s]. cbn [shr_m]. intros M. destruct m as [|[m|m|]|m]; [auto| | |auto|lia]; cbn [shr_1 shr_m shr_r shr_s]; (split; [|split; reflexivity]).
    - rewrite (Pos2Z.inj_xI m). apply (Z.div_unique _ _ _ 1); lia.
    - rewrite (Pos2Z.inj_xO m). apply (Z.div_unique _ _ _ 0); lia.
  Qed.
  Lemma rep_step k v x : 0 <= k -> 0 <= v -> rep k v x -> rep (k + 1) v (shr_1 x).
  Proof.
    intros K V (R1 & R2 & R3). pose proof (pow_pos k K) as P. assert (0 <= shr_m x) as M by (rewrite R1; apply Z.div_pos; lia).
    destruct (shr_1_val x M) as (S1 & S2 & S3). rewrite R1 in S1, S2. rewrite R2, R3 in S3. clear R1 R2 R3.
    unfold rep. rewrite S1, S2, S3. rewrite Z.pow_add_r, Z.pow_1_r by lia. set (T := 2 ^ k) in *. clearbody T.
    rewrite Z.div_div by lia. split; [reflexivity|]. rewrite Z.rem_mul_r by lia. pose proof (Z.mod_pos_bound v T P) as B. set (r := v mod T) in *. clearbody r.
    set (q := v / T). clearbody q. pose proof (Zmod_odd q) as O. destruct (Z.odd q); rewrite O; clear O.
    - split; [symmetry; apply Z.leb_le; lia|]. destruct (Z.leb_spec T (2 * r)), (Z.eqb_spec (2 * r) 0), (Z.eqb_spec (2 * r) T), (Z.eqb_spec (2 * (r + T * 1)) 0), (Z.eqb_spec (2 * (r + T * 1)) (T * 2)); try reflexivity; lia.
    - split; [symmetry; apply Z.leb_gt; lia|]. destruct (Z.leb_spec T (2 * r)), (Z.eqb_spec (2 * r) 0), (Z.eqb_spec (2 * r) T), (Z.eqb_spec (2 * (r + T * 0)) 0), (Z.eqb_spec (2 * (r + T * 0)) (T * 2)); try reflexivity; lia.
  Qed.
  Lemma rep_iter p : forall k v x, 0 <= k -> 0 <= v -> rep k v x -> rep (k + Zpos p) v (SpecFloat.iter_pos shr_1 p x).
  Proof.
    induction p as [p IH|p IH|]; intros k v x K V R; cbn [SpecFloat.iter_pos].
    - replace (k + Zpos p~1) with (k + 1 + Zpos p + Zpos p) by lia. apply IH; [lia|exact V|]. apply IH; [lia|exact V|]. apply rep_step; assumption.
    - replace (k + Zpos p~0) with (k + Zpos p + Zpos p) by lia. apply IH; [lia|exact V|]. apply IH; assumption.
    - apply rep_step; assumption.
  Qed.
  Lemma rep_round k v x : 0 <= k -> rep k v x -> round_nearest_even (shr_m x) (loc_of_shr_record x) = rne k v.
  Proof.
    intros K (R1 & R2 & R3). pose proof (Z.mod_pos_bound v (2 ^ k) (pow_pos k K)) as B. destruct x as [m r s]. cbn [shr_m shr_r shr_s] in *. unfold rne. rewrite <- R1. clear R1.
    set (T := 2 ^ k) in *. set (w := v mod T) in *. clearbody w T.
    destruct (Z.compare_spec (2 * w) T), (Z.leb_spec T (2 * w)), (Z.eqb_spec (2 * w) 0), (Z.eqb_spec (2 * w) T); try lia; subst r s; cbn [negb andb loc_of_shr_record round_nearest_even]; try reflexivity; lia.
  Qed.

  Definition digits (m : positive) : Z := Zpos (digits2_pos m).
  (** The exponent of the rounded value, and the position of the rounded value among the floats. *)
  Definition texp (m : positive) (e : Z) : Z := Z.max (digits m + e - prec) em.
  Definition key (m : positive) (e : Z) : Z := (texp m e - em) * H + rne (texp m e - e) (Zpos m).
  Definition canonical (x : spec_float) : Prop :=
    match x with
    | S754_finite _ k e => Zpos k < 2 ^ prec /\ em <= e <= emax - prec /\ (Zpos k < H -> e = em)
    | S754_nan => False
    | _ => True
    end.
  Definition mag (x : spec_float) : Z :=
    match x with S754_finite _ k e => (e - em) * H + Zpos k | S754_infinity _ => Inf | _ => 0 end.
  Definition sgn (x : spec_float) : bool := match x with S754_zero s | S754_infinity s | S754_finite s _ _ => s | S754_nan => false end.

  Lemma rne_range m e : e <= texp m e -> 0 <= rne (texp m e - e) (Zpos m) <= 2 * H /\ (em < texp m e -> H <= rne (texp m e - e) (Zpos m)).
  Proof.
    intros L. pose proof (digits_bounds m) as [B1 B2]. fold (digits m) in B1, B2. set (n := texp m e - e). assert (0 <= n) as N by (unfold n; lia). pose proof (pow_pos n N) as P.
    pose proof (rne_bounds n (Zpos m)) as R. assert (0 <= Zpos m / 2 ^ n) by (apply Z.div_pos; lia).
    assert (0 < digits m) as D by (unfold digits; lia). assert (Zpos m / 2 ^ n < 2 ^ prec) as Q.
    { apply Z.div_lt_upper_bound; [lia|]. rewrite <- Z.pow_add_r by lia. apply (Z.lt_le_trans _ _ _ B2). apply Z.pow_le_mono_r; unfold n, texp; lia. }
    rewrite H_double in Q. split; [lia|]. intros T. apply Z.le_trans with (Zpos m / 2 ^ n); [|apply R]. apply Z.div_le_lower_bound; [lia|]. unfold H. rewrite <- Z.pow_add_r by lia.
    replace (n + (prec - 1)) with (digits m - 1) by (unfold n, texp in *; lia). exact B1.
  Qed.
  Lemma shr_first m e : e <= texp m e -> exists x, shr_fexp prec emax (Zpos m) e loc_Exact = (x, texp m e) /\ rep (texp m e - e) (Zpos m) x.
  Proof.
    intros L. unfold shr_fexp. change (fexp prec emax (Zdigits2 (Zpos m) + e)) with (texp m e). cbn [shr_record_of_loc]. unfold shr. destruct (texp m e - e) as [|n|n] eqn:E; [| |lia].
    - eexists. split; [f_equal; lia|]. apply rep_0.
    - eexists. split; [f_equal; lia|]. apply (rep_iter n 0); [lia|lia|]. apply rep_0.
  Qed.
  Lemma shr_none m e : 0 <= m -> fexp prec emax (Zdigits2 m + e) <= e -> shr_fexp prec emax m e loc_Exact = ({| shr_m := m; shr_r := false; shr_s := false |}, e).
  Proof. intros M L. unfold shr_fexp, shr. cbn [shr_record_of_loc]. destruct (_ - e) eqn:E; [reflexivity|lia|reflexivity]. Qed.
  Lemma round_key s m e : e <= texp m e ->
    let r := binary_round_aux prec emax s (Zpos m) e loc_Exact in canonical r /\ sgn r = s /\ mag r = Z.min Inf (key m e).
  Proof.
    intros L. cbv zeta. destruct (shr_first m e L) as (x & E & R). unfold binary_round_aux. rewrite E. rewrite (rep_round (texp m e - e) (Zpos m) x) by (try exact R; lia).
    destruct (rne_range m e L) as [[B1 B2] B3]. unfold key. set (M := rne _ _) in *. assert (em <= texp m e) as TE by (unfold texp; lia). set (t := texp m e) in *. clearbody M t. clear E R x L.
    pose proof H_pos as HP. pose proof H_double as HD. assert (Inf = (2 * emax - 1) * H) as HI by reflexivity. assert (em = 3 - emax - prec) as Em by reflexivity.
    assert (emin prec emax = em) as Em' by reflexivity.
    destruct (Z.eq_dec M 0) as [M0|M0]; [|destruct (Z.lt_ge_cases M (2 * H)) as [ML|ML]].
    - subst M. rewrite shr_none; [|lia|unfold fexp; rewrite Em'; cbn [Zdigits2]; lia]. cbn [shr_m canonical sgn mag]. split; [exact I|]. split; [reflexivity|].
      assert (t = em) by (destruct (Z.eq_dec t em); [assumption|]; specialize (B3 ltac:(lia)); lia). replace (t - em) with 0 by lia. rewrite Z.mul_0_l, Z.min_r; [reflexivity|]. rewrite HI. nia.
    - destruct M as [|k|k]; [lia| |lia]. rewrite shr_none; [|lia|]. 
      2: { unfold fexp. rewrite Em'. cbn [Zdigits2]. pose proof (digits_le k prec ltac:(lia)). lia. }
      cbn [shr_m]. change Zle_bool with Z.leb. destruct (Z.leb_spec t (emax - prec)) as [C|C]; cbn [canonical sgn mag].
      + split; [|split; [reflexivity|]]; [split; [lia|]; split; [lia|]; intros X; destruct (Z.eq_dec t em); [assumption|]; specialize (B3 ltac:(lia)); lia|].
        symmetry. apply Z.min_r. nia.
      + split; [exact I|]. split; [reflexivity|]. symmetry. apply Z.min_l. specialize (B3 ltac:(lia)). nia.
    - assert (M = 2 * H) as -> by lia. unfold shr_fexp. cbn [shr_record_of_loc].
      assert (Zdigits2 (2 * H) = prec + 1) as D.
      { rewrite <- HD. pose proof (pow_pos prec ltac:(lia)) as Q. destruct (2 ^ prec) as [|k|k] eqn:Ek; [lia| |lia]. cbn [Zdigits2]. apply digits_unique. rewrite <- Ek.
        replace (prec + 1 - 1) with prec by lia. split; [lia|]. apply Z.pow_lt_mono_r; lia. }
      rewrite D. unfold fexp. rewrite Em'. replace (Z.max (prec + 1 + t - prec) em - t) with 1 by lia. cbn [shr SpecFloat.iter_pos].
      destruct (shr_1_val {| shr_m := 2 * H; shr_r := false; shr_s := false |}) as (S1 & _); [cbn [shr_m]; lia|]. cbn [shr_m] in S1. rewrite S1.
      replace (2 * H / 2) with H by (symmetry; rewrite Z.mul_comm; apply Z.div_mul; lia). clear S1 D. assert (exists k, H = Zpos k) as (k & Ek) by (destruct H as [|k|k]; [lia|eauto|lia]). rewrite Ek. change Zle_bool with Z.leb.
      destruct (Z.leb_spec (t + 1) (emax - prec)) as [C|C]; cbn [canonical sgn mag].
      + split; [|split; [reflexivity|]]; [split; [lia|]; split; [lia|]; intros; lia|]. rewrite <- Ek. symmetry. rewrite Z.min_r; nia.
      + split; [exact I|]. split; [reflexivity|]. symmetry. apply Z.min_l. nia.
  Qed.

  (** m * 2^e <= m' * 2^e'. *)
  Definition vle (m : positive) (e : Z) (m' : positive) (e' : Z) : Prop := exists k, k <= e /\ k <= e' /\ Zpos m * 2 ^ (e - k) <= Zpos m' * 2 ^ (e' - k).
  Lemma vle_digits m e m' e' : vle m e m' e' -> digits m + e <= digits m' + e'.
  Proof.
    intros (k & K1 & K2 & L). pose proof (digits_bounds m) as [B _]. pose proof (digits_bounds m') as [_ B']. fold (digits m) in B. fold (digits m') in B'.
    pose proof (pow_pos (e - k) ltac:(lia)) as P. pose proof (pow_pos (e' - k) ltac:(lia)) as P'. assert (0 < digits m /\ 0 < digits m') as [D D'] by (unfold digits; lia).
    assert (2 ^ (digits m - 1 + (e - k)) < 2 ^ (digits m' + (e' - k))) as Q by (rewrite !Z.pow_add_r by lia; nia).
    apply Z.pow_lt_mono_r_iff in Q; lia.
  Qed.
  Lemma key_mono m e m' e' : e <= texp m e -> e' <= texp m' e' -> vle m e m' e' -> key m e <= key m' e'.
  Proof.
    intros L L' V. pose proof (vle_digits _ _ _ _ V) as D. destruct (rne_range m e L) as [[A1 A2] A3]. destruct (rne_range m' e' L') as [[B1 B2] B3]. pose proof H_pos as HP.
    assert (texp m e <= texp m' e') as T by (unfold texp; lia). assert (em <= texp m e) as T0 by (unfold texp; lia). unfold key.
    destruct (Z.eq_dec (texp m e) (texp m' e')) as [E|E].
    - rewrite <- E in *. set (t := texp m e) in *. clearbody t. destruct V as (k & K1 & K2 & V). apply Z.add_le_mono_l.
      rewrite <- (rne_scale (t - e) (Zpos m) (e - k)) by lia. rewrite <- (rne_scale (t - e') (Zpos m') (e' - k)) by lia.
      replace (t - e + (e - k)) with (t - k) by lia. replace (t - e' + (e' - k)) with (t - k) by lia. apply rne_mono; [lia|exact V].
    - specialize (B3 ltac:(lia)). nia.
  Qed.
  (** The order of canonical floats is that of their positions. *)
  Lemma mag_vle s k e s' k' e' : canonical (S754_finite s k e) -> canonical (S754_finite s' k' e') -> mag (S754_finite s k e) <= mag (S754_finite s' k' e') -> vle k e k' e'.
  Proof.
    cbn [canonical mag]. rewrite H_double. intros (C1 & C2 & C3) (D1 & D2 & D3) M. pose proof H_pos as HP. exists em. split; [lia|]. split; [lia|].
    destruct (Z.lt_trichotomy e e') as [L|[->|L]].
    - specialize (pow_pos (e - em) ltac:(lia)) as P. replace (e' - em) with ((e - em) + (e' - e)) by lia. rewrite Z.pow_add_r by lia.
      assert (2 ^ 1 <= 2 ^ (e' - e)) as Q by (apply Z.pow_le_mono_r; lia). change (2 ^ 1) with 2 in Q. assert (H <= Zpos k') by (destruct (Z.lt_ge_cases (Zpos k') H) as [X|X]; [specialize (D3 X); lia|exact X]). 
      assert (Zpos k <= Zpos k' * 2 ^ (e' - e)) by nia. nia.
    - apply Z.mul_le_mono_nonneg_r; [apply Z.pow_nonneg; lia|lia].
    - exfalso. assert (H <= Zpos k) by (destruct (Z.lt_ge_cases (Zpos k) H) as [X|X]; [specialize (C3 X); lia|exact X]). nia.
  Qed.
  Lemma mag_range x : canonical x -> 0 <= mag x <= Inf.
  Proof.
    pose proof H_pos as HP. assert (Inf = (2 * emax - 1) * H) as HI by reflexivity. assert (em = 3 - emax - prec) as Em by reflexivity. destruct x as [s|s| |s k e]; cbn [canonical mag]; [nia|nia|contradiction|].
    rewrite H_double. intros (C1 & C2 & C3). nia.
  Qed.

  (** * Multiplication by a positive normal number *)
  Section Mult.
    Variables (c : positive) (ec : Z).
    Hypothesis Hc : H <= Zpos c.
    Let mul x := SFmul prec emax x (S754_finite false c ec).
    Lemma mul_texp k e : e + ec <= texp (k * c) (e + ec).
    Proof.
      unfold texp. enough (prec <= digits (k * c)) by lia. pose proof (digits_bounds (k * c)) as [_ B]. fold (digits (k * c)) in B.
      destruct (Z.le_gt_cases prec (digits (k * c))) as [L|L]; [exact L|exfalso]. assert (2 ^ digits (k * c) <= H) by (apply Z.pow_le_mono_r; lia). rewrite Pos2Z.inj_mul in B. nia.
    Qed.
    Lemma mul_ok x : canonical x -> canonical (mul x) /\ sgn (mul x) = sgn x /\
      mag (mul x) = match x with S754_finite _ k e => Z.min Inf (key (k * c) (e + ec)) | _ => mag x end.
    Proof.
      destruct x as [s|s| |s k e]; cbn [canonical]; intros C; try contradiction; unfold mul; cbn [SFmul]; rewrite ?xorb_false_r; cbn [canonical sgn mag]; auto.
      apply round_key, mul_texp.
    Qed.
    Lemma mul_mag x y : canonical x -> canonical y -> mag x <= mag y -> mag (mul x) <= mag (mul y).
    Proof.
      intros Cx Cy L. destruct (mul_ok x Cx) as (X1 & _ & X2). destruct (mul_ok y Cy) as (Y1 & _ & Y2). pose proof (mag_range _ X1) as RX. pose proof (mag_range _ Y1) as RY. pose proof H_pos as HP.
      assert (Inf = (2 * emax - 1) * H) as HI by reflexivity. assert (em = 3 - emax - prec) as Em by reflexivity.
      destruct x as [s|s| |s k e]; [rewrite X2; cbn [mag]; lia| |contradiction|]; (destruct y as [s'|s'| |s' k' e']; [| |contradiction|]); try (rewrite Y2; cbn [mag]; lia).
      - exfalso. cbn [mag] in L. nia.
      - exfalso. cbn [mag canonical] in L, Cy. rewrite H_double in Cy. nia.
      - exfalso. cbn [mag canonical] in L, Cx. nia.
      - rewrite X2, Y2. apply Z.min_le_compat_l. apply key_mono; try apply mul_texp. destruct (mag_vle _ _ _ _ _ _ Cx Cy L) as (b & B1 & B2 & B3).
        exists (b + ec). split; [lia|]. split; [lia|]. replace (e + ec - (b + ec)) with (e - b) by lia. replace (e' + ec - (b + ec)) with (e' - b) by lia. rewrite !Pos2Z.inj_mul. nia.
    Qed.
    (** Positions on the number line. *)
    Definition pos (x : spec_float) : Z := if sgn x then - mag x else mag x.
    Lemma mul_mono x y : canonical x -> canonical y -> pos x <= pos y -> canonical (mul x) /\ canonical (mul y) /\ pos (mul x) <= pos (mul y).
    Proof.
      intros Cx Cy L. destruct (mul_ok x Cx) as (X1 & X2 & _). destruct (mul_ok y Cy) as (Y1 & Y2 & _). split; [exact X1|]. split; [exact Y1|].
      pose proof (mag_range _ X1) as RX. pose proof (mag_range _ Y1) as RY. pose proof (mag_range _ Cx) as RX'. pose proof (mag_range _ Cy) as RY'. pose proof (mul_mag x y Cx Cy) as M1. pose proof (mul_mag y x Cy Cx) as M2.
      unfold pos in *. rewrite X2, Y2. destruct (sgn x), (sgn y); try lia.
      assert (mag x = 0 /\ mag y = 0) as [Zx Zy] by lia. specialize (M1 ltac:(lia)). specialize (M2 ltac:(lia)). 
      assert (forall z, canonical z -> mag z = 0 -> mag (mul z) = 0) as MZ.
      { intros z Cz Hz. destruct (mul_ok z Cz) as (_ & _ & Z3). destruct z as [s|s| |s k e]; try (rewrite Z3; exact Hz). exfalso. cbn [mag canonical] in Hz, Cz. pose proof H_pos. nia. }
      rewrite (MZ x), (MZ y) by assumption. lia.
    Qed.
  End Mult.

  (** * Integers *)
  Lemma round_ok s m : exists k e, e <= 0 /\ Zpos k = Zpos m * 2 ^ (- e) /\ e <= texp k e /\
    let r := binary_round prec emax s m 0 in canonical r /\ sgn r = s /\ mag r = Z.min Inf (key k e).
  Proof.
    unfold binary_round. change (fexp prec emax (Zpos (digits2_pos m) + 0)) with (texp m 0). unfold shl_align. rewrite Z.sub_0_r.
    assert (0 <= texp m 0 -> exists k e, e <= 0 /\ Zpos k = Zpos m * 2 ^ (- e) /\ e <= texp k e /\
      let r := binary_round_aux prec emax s (Zpos m) 0 loc_Exact in canonical r /\ sgn r = s /\ mag r = Z.min Inf (key k e)) as K.
    { intros T. exists m, 0. split; [lia|]. split; [change (2 ^ - 0) with 1; lia|]. split; [exact T|]. apply round_key, T. }
    destruct (texp m 0) as [|d|d] eqn:T; [apply K; lia|apply K; lia|]. clear K.
    assert (Zneg d <= texp (shift_pos d m) (Zneg d)) as L.
    { unfold texp in *. enough (digits (shift_pos d m) = digits m + Zpos d) by lia. apply digits_unique. rewrite shift_pos_val. pose proof (digits_bounds m) as B. fold (digits m) in B.
      assert (0 < digits m) by (unfold digits; lia). replace (digits m + Zpos d - 1) with (digits m - 1 + Zpos d) by lia. rewrite !Z.pow_add_r by lia. pose proof (pow_pos (Zpos d) ltac:(lia)). nia. }
    exists (shift_pos d m), (Zneg d). split; [lia|]. split; [rewrite shift_pos_val; reflexivity|]. split; [exact L|]. apply round_key, L.
  Qed.
  Lemma round_mag s s' m m' : Zpos m <= Zpos m' -> mag (binary_round prec emax s m 0) <= mag (binary_round prec emax s' m' 0).
  Proof.
    intros L. destruct (round_ok s m) as (k & e & E1 & E2 & E3 & _ & _ & ->). destruct (round_ok s' m') as (k' & e' & F1 & F2 & F3 & _ & _ & ->).
    apply Z.min_le_compat_l. apply key_mono; [exact E3|exact F3|]. exists (Z.min e e'). split; [lia|]. split; [lia|]. rewrite E2, F2. rewrite <- !Z.mul_assoc, <- !Z.pow_add_r by lia.
    replace (- e + (e - Z.min e e')) with (- Z.min e e') by lia. replace (- e' + (e' - Z.min e e')) with (- Z.min e e') by lia. apply Z.mul_le_mono_nonneg_r; [apply Z.pow_nonneg; lia|exact L].
  Qed.
  Lemma normalize_mono n m : n <= m -> canonical (binary_normalize prec emax n 0 false) /\ canonical (binary_normalize prec emax m 0 false) /\
    pos (binary_normalize prec emax n 0 false) <= pos (binary_normalize prec emax m 0 false).
  Proof.
    intros L. assert (forall z, canonical (binary_normalize prec emax z 0 false) /\ sgn (binary_normalize prec emax z 0 false) = (z <? 0)) as K.
    { intros [|k|k]; cbn [binary_normalize]; [split; [exact I|reflexivity]| |]; [destruct (round_ok false k) as (? & ? & _ & _ & _ & C & G & _)|destruct (round_ok true k) as (? & ? & _ & _ & _ & C & G & _)]; auto. }
    destruct (K n) as [Cn Sn]. destruct (K m) as [Cm Sm]. clear K. split; [exact Cn|]. split; [exact Cm|]. pose proof (mag_range _ Cn) as Rn. pose proof (mag_range _ Cm) as Rm. unfold pos. rewrite Sn, Sm.
    destruct (Z.ltb_spec n 0), (Z.ltb_spec m 0); try lia.
    - destruct n as [|k|k]; [lia|lia|]. destruct m as [|k'|k']; [lia|lia|]. cbn [binary_normalize] in *. pose proof (round_mag true true k' k ltac:(lia)). lia.
    - destruct n as [|k|k]; [cbn [binary_normalize mag]; lia| |lia]. destruct m as [|k'|k']; [lia| |lia]. cbn [binary_normalize] in *. apply round_mag. lia.
  Qed.
End Rounding.

(** * Decoding *)
Definition at_pos (p : ptype) (x : spec_float) : Z := pos (fprec p) (femax p) x.
Definition canon_float (p : ptype) (x : spec_float) : Prop := canonical (fprec p) (femax p) x.
Lemma params p : p = F32 \/ p = F64 -> 1 < fprec p /\ fprec p < femax p.
Proof. intros [-> | ->]; cbn; lia. Qed.
Lemma key_of_bits p x : p = F32 \/ p = F64 -> canon_float p x -> CmpSpec.is_nan p (to_bits p x) = false /\ float_key p (to_bits p x) = at_pos p x.
Proof.
  intros P C. destruct (params p P) as [Q1 Q2]. pose proof (mag_range _ _ Q1 Q2 x C) as R. unfold at_pos, pos. destruct (alp_sign p P) as (S1 & S2 & _).
  assert ((2 * femax p - 1) * 2 ^ (fprec p - 1) = CmpSpec.inf_bits p) as E by (destruct P as [-> | ->]; reflexivity). rewrite E in R.
  assert (to_bits p x = (if sgn x then sign_bit p else 0) + mag (fprec p) (femax p) x) as ->.
  { destruct x as [s|s| |s k e]; cbn [to_bits sgn mag]; [lia|rewrite E; reflexivity|contradiction C|]. f_equal.
    unfold canon_float in C. cbn [canonical] in C. destruct C as (C1 & C2 & C3). change (femin p) with (3 - femax p - fprec p). replace (mantissa p) with (fprec p - 1) by (unfold fprec; lia).
    destruct (Z.ltb_spec (Zpos k) (2 ^ (fprec p - 1))) as [L|L]; [rewrite (C3 L); lia|lia]. }
  set (m := mag _ _ _) in *. clearbody m. clear E C. unfold CmpSpec.is_nan, float_key, magnitude, is_neg. set (i := CmpSpec.inf_bits p) in *. set (b := sign_bit p) in *. clearbody i b.
  destruct (sgn x).
  - rewrite (proj2 (Z.leb_le b (b + m))) by lia. split; [apply Z.ltb_ge; lia|lia].
  - rewrite (proj2 (Z.leb_gt b (0 + m))) by lia. split; [apply Z.ltb_ge; lia|lia].
Qed.
Lemma tables_normal p k : p = F32 \/ p = F64 -> (k < table_len p)%nat ->
  (exists m e, f10 p k = S754_finite false m e /\ 2 ^ (fprec p - 1) <= Zpos m) /\ (exists m e, if10 p k = S754_finite false m e /\ 2 ^ (fprec p - 1) <= Zpos m).
Proof.
  intros [-> | ->] H; cbn [table_len] in H;
    do 24 (destruct k as [|k]; [split; (eexists; eexists; split; [vm_compute; reflexivity|apply Z.leb_le; vm_compute; reflexivity])|try lia]); lia.
Qed.
Lemma alp_dec_mono p e f n m : p = F32 \/ p = F64 -> exps_ok p e f = true -> n <= m ->
  CmpSpec.is_nan p (alp_dec p e f n) = false /\ float_key p (alp_dec p e f n) <= float_key p (alp_dec p e f m).
Proof.
  intros P E L. destruct (exps_lt p e f E) as [Le Lf]. destruct (params p P) as [Q1 Q2]. destruct (normalize_mono _ _ Q1 Q2 n m L) as (C1 & C2 & L1).
  destruct (tables_normal p f P Lf) as [(k1 & e1 & T1 & N1) _]. destruct (tables_normal p e P Le) as [_ (k2 & e2 & T2 & N2)].
  unfold alp_dec, fmul. rewrite T1, T2.
  destruct (mul_mono _ _ Q1 Q2 k1 e1 N1 _ _ C1 C2 L1) as (D1 & D2 & L2). destruct (mul_mono _ _ Q1 Q2 k2 e2 N2 _ _ D1 D2 L2) as (E1 & E2 & L3).
  destruct (key_of_bits p _ P E1) as [G1 G2]. destruct (key_of_bits p _ P E2) as [_ G3]. split; [exact G1|]. rewrite G2, G3. exact L3.
Qed.
(** Codes of values that survive the encoding are ordered like the values. *)
Lemma enc_order p e f x z : p = F32 \/ p = F64 -> exps_ok p e f = true -> alp_bad p e f x = false -> alp_bad p e f z = false ->
  alp_enc p e f x <= alp_enc p e f z -> float_key p x <= float_key p z.
Proof.
  intros P E Bx Bz L. destruct (alp_dec_mono p e f _ _ P E L) as [_ K]. unfold alp_bad, feqb in Bx, Bz. apply negb_false_iff in Bx, Bz. unfold ieee_cmp in Bx, Bz.
  destruct (CmpSpec.is_nan p _ || CmpSpec.is_nan p x); [discriminate Bx|]. destruct (CmpSpec.is_nan p _ || CmpSpec.is_nan p z); [discriminate Bz|].
  destruct (Z.compare_spec (float_key p (alp_dec p e f (alp_enc p e f x))) (float_key p x)) as [X| |]; try discriminate Bx.
  destruct (Z.compare_spec (float_key p (alp_dec p e f (alp_enc p e f z))) (float_key p z)) as [Y| |]; try discriminate Bz. lia.
Qed.
