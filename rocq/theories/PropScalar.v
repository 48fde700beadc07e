(** C45: the order on scalars, and casts. *)
From Coq Require Import Floats.SpecFloat.
From Verif Require Import Base Spec CmpSpec Arr ArrWf ValidityModel Compare CmpProofs PropPrune Scalars FloatCast.

(** * Specification *)

(** A value of a type: nulls only where the type allows them, struct values with one value per field, numbers in range. (A value
    of an extension type has the type of its storage, which the dtype does not give.) *)
Fixpoint has_type (d : xdtype) (v : sval) {struct d} : Prop :=
  match d, v with
  | d, SNull => xnullable d = true
  | XBool _, SBool _ => True
  | XPrim p _, SPrim q z => p = q /\ in_range p z
  | XUtf8 _, SStr _ => True
  | XBinary _, SBuf _ => True
  | XStruct _ ts _, SList l =>
      (fix go (ts : list xdtype) (l : list sval) {struct ts} : Prop := match ts, l with [], [] => True | t :: ts', x :: l' => has_type t x /\ go ts' l' | _, _ => False end) ts l
  | XList t _, SList l => Forall (has_type t) l
  | _, _ => False
  end.
(** Numbers in range, at any depth. *)
Fixpoint nums_ok (v : sval) : Prop :=
  match v with
  | SPrim p z => in_range p z
  | SList l => (fix go (l : list sval) : Prop := match l with [] => True | x :: r => nums_ok x /\ go r end) l
  | _ => True
  end.
(** No floats, at any depth. *)
Fixpoint float_free (v : sval) : Prop :=
  match v with
  | SPrim p _ => is_float p = false
  | SList l => (fix go (l : list sval) : Prop := match l with [] => True | x :: r => float_free x /\ go r end) l
  | _ => True
  end.

(** What a cast of a number does. Integers to integers: the same number. Floats to integers: the number without its fraction. Integers
    to f32 or f64 and floats to wider floats: the same number, as long as it has no more digits than the type. Other casts to floats
    round. *)
Definition whole_part (x : Z * Z) : Z := let (m, e) := x in if (0 <=? e)%Z then (m * 2 ^ e)%Z else Z.quot m (2 ^ (- e)).
Definition casts (p q : ptype) (z x : Z) : Prop :=
  (p = q -> x = z) /\
  (is_float p = false -> is_float q = false -> x = z) /\
  (is_float p = true -> is_float q = false -> exists y, fvalue p z = Some y /\ x = whole_part y) /\
  (is_float p = false -> q = F32 \/ q = F64 -> (Z.abs z < 2 ^ (mantissa q + 1))%Z -> exists y, fvalue q x = Some y /\ same_number y (z, 0%Z)) /\
  (is_float p = true -> is_float q = true -> (bits p < bits q)%Z -> forall y, fvalue p z = Some y -> exists y', fvalue q x = Some y' /\ same_number y' y).
(** Which numbers can be cast: integers must be in range, floats must be finite with a whole part in range. *)
Definition castable (p q : ptype) (z : Z) : Prop :=
  if is_float q then True
  else if is_float p then exists y, fvalue p z = Some y /\ in_range q (whole_part y)
  else in_range q z.

(** * The order *)
Fixpoint lcmp (l r : list sval) {struct l} : option comparison :=
  match l, r with
  | [], [] => Some Eq | [], _ => Some Lt | _, [] => Some Gt
  | a :: l', b :: r' => match sval_cmp a b with Some Eq => lcmp l' r' | c => c end
  end.
Lemma cmp_list l r : sval_cmp (SList l) (SList r) = lcmp l r.
Proof. reflexivity. Qed.
Fixpoint leqb (l r : list sval) {struct l} : bool := match l, r with [], [] => true | a :: l', b :: r' => sval_eqb a b && leqb l' r' | _, _ => false end.
Lemma eqb_list l r : sval_eqb (SList l) (SList r) = leqb l r.
Proof. reflexivity. Qed.

Section Ind.
  Variable P : sval -> Prop.
  Hypothesis Hb : forall b, P (SBool b).
  Hypothesis Hp : forall p z, P (SPrim p z).
  Hypothesis Hf : forall b, P (SBuf b).
  Hypothesis Hs : forall b, P (SStr b).
  Hypothesis Hl : forall l, Forall P l -> P (SList l).
  Hypothesis Hn : P SNull.
  Fixpoint sval_ind' (v : sval) : P v :=
    match v with
    | SBool b => Hb b | SPrim p z => Hp p z | SBuf b => Hf b | SStr b => Hs b
    | SList l => Hl l ((fix go (l : list sval) : Forall P l := match l with [] => Forall_nil _ | x :: r => Forall_cons x (sval_ind' x) (go r) end) l)
    | SNull => Hn
    end.
End Ind.

Lemma total_cmp_rev p a b : total_cmp p b a = CompOpp (total_cmp p a b).
Proof. unfold total_cmp; destruct (is_float p); apply Z.compare_antisym. Qed.
Lemma bool_cmp_rev a b : bool_cmp b a = CompOpp (bool_cmp a b).
Proof. destruct a, b; reflexivity. Qed.

Lemma sval_cmp_rev x : forall y, sval_cmp y x = option_map CompOpp (sval_cmp x y).
Proof.
  induction x as [a|p a|a|a|l IH|] using sval_ind'; intros [b|q b|b|b|r|]; try reflexivity.
  - cbn; now rewrite bool_cmp_rev.
  - cbn [sval_cmp]. destruct (ptype_dec p q) as [->|N]; destruct (ptype_dec _ _) as [E|M]; try congruence; try reflexivity. cbn [option_map]; now rewrite total_cmp_rev.
  - cbn [sval_cmp option_map]; now rewrite lex_rev.
  - cbn [sval_cmp option_map]; now rewrite lex_rev.
  - rewrite !cmp_list. revert r; induction IH as [|x l Hx _ IHl]; intros [|y r]; try reflexivity.
    cbn [lcmp]. rewrite (Hx y). destruct (sval_cmp x y) as [[| |]|]; try reflexivity. cbn [option_map CompOpp]; apply IHl.
Qed.

Lemma sval_cmp_refl x : sval_cmp x x = Some Eq.
Proof.
  induction x as [a|p a|a|a|l IH|] using sval_ind'; try reflexivity.
  - cbn; now destruct a.
  - cbn [sval_cmp]; destruct (ptype_dec p p); [|congruence]. unfold total_cmp; now rewrite !Z.compare_refl; destruct (is_float p).
  - cbn [sval_cmp]. f_equal. now apply lex_eq.
  - cbn [sval_cmp]. f_equal. now apply lex_eq.
  - rewrite cmp_list; induction IH as [|x l Hx _ IHl]; [reflexivity|]. cbn [lcmp]; now rewrite Hx.
Qed.

(** Equal values compare alike. *)
Lemma sval_cmp_eq_l x : forall y z, sval_cmp x y = Some Eq -> sval_cmp x z = sval_cmp y z.
Proof.
  induction x as [a|p a|a|a|l IH|] using sval_ind'; intros [b|q b|b|b|r|] z H; try discriminate H; try reflexivity.
  - destruct a, b; try discriminate H; reflexivity.
  - cbn [sval_cmp] in H. destruct (ptype_dec p q) as [->|N]; [|discriminate H]. injection H as H.
    destruct z as [c|k c|c|c|t|]; try reflexivity. cbn [sval_cmp]. destruct (ptype_dec q k); [|reflexivity]. f_equal.
    unfold total_cmp in *; destruct (is_float q); apply Z.compare_eq in H; now rewrite H.
  - cbn [sval_cmp] in H; injection H as H; apply lex_eq in H; now subst.
  - cbn [sval_cmp] in H; injection H as H; apply lex_eq in H; now subst.
  - destruct z as [c|k c|c|c|t|]; try reflexivity. rewrite !cmp_list in *. revert r t H; induction IH as [|x l Hx _ IHl]; intros [|y r] t H; try discriminate H; [reflexivity|].
    cbn [lcmp] in H. destruct (sval_cmp x y) as [[| |]|] eqn:E; try discriminate H. destruct t as [|w t]; [reflexivity|].
    cbn [lcmp]. rewrite (Hx y w E). now rewrite (IHl r t H).
Qed.

Lemma sval_cmp_trans x : forall y z, sval_cmp x y = Some Lt -> sval_cmp y z = Some Lt -> sval_cmp x z = Some Lt.
Proof.
  induction x as [a|p a|a|a|l IH|] using sval_ind'; intros [b|q b|b|b|r|] z H1 H2; try discriminate H1;
    destruct z as [c|k c|c|c|t|]; try discriminate H2; try reflexivity.
  - destruct a, b, c; try discriminate H1; try discriminate H2; reflexivity.
  - cbn [sval_cmp] in *. destruct (ptype_dec p q) as [->|]; [|discriminate H1]. destruct (ptype_dec q k); [|discriminate H2].
    injection H1 as H1; injection H2 as H2. f_equal. unfold total_cmp in *; destruct (is_float q); rewrite Z.compare_lt_iff in *; lia.
  - cbn [sval_cmp] in *. injection H1 as H1; injection H2 as H2. f_equal. eapply lex_trans; [rewrite H1|rewrite H2|left; apply H1]; discriminate.
  - cbn [sval_cmp] in *. injection H1 as H1; injection H2 as H2. f_equal. eapply lex_trans; [rewrite H1|rewrite H2|left; apply H1]; discriminate.
  - rewrite !cmp_list in *. revert r t H1 H2; induction IH as [|x l Hx _ IHl]; intros [|y r] t H1 H2; try discriminate H1.
    + destruct t; [discriminate H2|reflexivity].
    + destruct t as [|w t]; [discriminate H2|]. cbn [lcmp] in *.
      destruct (sval_cmp x y) as [[| |]|] eqn:E; try discriminate H1.
      * rewrite (sval_cmp_eq_l x y w E). destruct (sval_cmp y w) as [[| |]|] eqn:F; try discriminate H2; [|reflexivity]. eapply IHl; eassumption.
      * destruct (sval_cmp y w) as [[| |]|] eqn:F; try discriminate H2.
        -- assert (G : sval_cmp w y = Some Eq) by (rewrite sval_cmp_rev, F; reflexivity).
           assert (K : sval_cmp w x = sval_cmp y x) by now apply sval_cmp_eq_l.
           rewrite sval_cmp_rev, K, sval_cmp_rev, E; reflexivity.
        -- rewrite (Hx y w E F); reflexivity.
Qed.

(** Comparing [Eq] means identical, for numbers in range. *)
Lemma total_cmp_eq p a b : in_range p a -> in_range p b -> total_cmp p a b = Eq -> a = b.
Proof.
  unfold total_cmp, in_range. intros A B H. destruct (is_float p) eqn:F; apply Z.compare_eq in H; [|exact H].
  unfold total_key, magnitude, is_neg in H. destruct (Z.leb_spec (sign_bit p) a), (Z.leb_spec (sign_bit p) b); try lia;
  destruct p; try discriminate F; cbn in A, B; lia.
Qed.
Lemma sval_cmp_eq x : forall y, nums_ok x -> nums_ok y -> sval_cmp x y = Some Eq -> x = y.
Proof.
  induction x as [a|p a|a|a|l IH|] using sval_ind'; intros [b|q b|b|b|r|] A B H; try discriminate H; try reflexivity.
  - destruct a, b; try discriminate H; reflexivity.
  - cbn [sval_cmp] in H. destruct (ptype_dec p q) as [->|N]; [|discriminate H]. injection H as H. f_equal. eapply total_cmp_eq; eassumption.
  - cbn [sval_cmp] in H; injection H as H; apply lex_eq in H; now subst.
  - cbn [sval_cmp] in H; injection H as H; apply lex_eq in H; now subst.
  - f_equal. rewrite cmp_list in H. revert r A B H; induction IH as [|x l Hx _ IHl]; intros [|y r] A B H; try discriminate H; [reflexivity|].
    cbn [lcmp] in H. destruct (sval_cmp x y) as [[| |]|] eqn:E; try discriminate H. destruct A as [A1 A2], B as [B1 B2]. f_equal; [now apply Hx|now apply IHl].
Qed.

(** Values of one type are always comparable. *)
Lemma has_type_total d : forall x y, has_type d x -> has_type d y -> exists c, sval_cmp x y = Some c.
Proof.
  revert d. fix REC 1. intros d x y A B.
  destruct x as [a|p a|a|a|l|], y as [b|q b|b|b|r|];
    try (eexists; reflexivity); destruct d as [|n|k n|n|n|ns ts n|t n|i m n]; try contradiction.
  - destruct A as [<- _], B as [<- _]. cbn [sval_cmp]. destruct (ptype_dec k k); [eexists; reflexivity|congruence].
  - rewrite cmp_list. cbn [has_type] in A, B. revert l r A B. induction ts as [|t ts IH]; intros [|x l] [|y r] A B; try contradiction; [eexists; reflexivity|].
    destruct A as [A1 A2], B as [B1 B2]. cbn [lcmp]. destruct (REC t x y A1 B1) as [c E]. rewrite E. destruct c; try (eexists; reflexivity). now apply IH.
  - rewrite cmp_list. cbn [has_type] in A, B. specialize (REC t). clear n. revert r B. induction A as [|x l Ax _ IH]; intros [|y r] B; try (eexists; reflexivity).
    inversion B as [|? ? B1 B2]; subst. cbn [lcmp]. destruct (REC x y Ax B1) as [c E]. rewrite E. destruct c; try (eexists; reflexivity). now apply IH.
Qed.

Lemma xeqb_refl a : xeqb a a = true.
Proof.
  revert a; fix REC 1; intros [|n|p n|n|n|ns ts n|t n|i m n]; cbn [xeqb]; rewrite ?Bool.eqb_reflx; try reflexivity.
  - destruct (ptype_dec p p); [reflexivity|congruence].
  - destruct (list_eq_dec bytes_dec ns ns); [|congruence]. rewrite andb_true_r. cbn [andb]. induction ts as [|t ts IH]; [reflexivity|]. now rewrite REC.
  - now rewrite REC.
  - destruct (bytes_dec i i); [|congruence]. destruct (obytes_dec m m); [reflexivity|congruence].
Qed.
Lemma xeqb_eq a b : xeqb a b = true -> a = b.
Proof.
  revert a b; fix REC 1; intros [|n|p n|n|n|ns ts n|t n|i m n] [|n'|p' n'|n'|n'|ns' ts' n'|t' n'|i' m' n'] H; try discriminate H; try reflexivity; cbn [xeqb] in H.
  - apply Bool.eqb_prop in H; now subst.
  - destruct (ptype_dec p p'); [|discriminate H]. apply Bool.eqb_prop in H; now subst.
  - apply Bool.eqb_prop in H; now subst.
  - apply Bool.eqb_prop in H; now subst.
  - destruct (list_eq_dec bytes_dec ns ns') as [->|]; [|discriminate H]. cbn [andb] in H. apply andb_true_iff in H as [H1 H2]. apply Bool.eqb_prop in H2; subst n'.
    f_equal. revert ts' H1; induction ts as [|t ts IH]; intros [|t' ts'] H1; try discriminate H1; [reflexivity|]. apply andb_true_iff in H1 as [H1 H2]. f_equal; [now apply REC|now apply IH].
  - apply andb_true_iff in H as [H1 H2]. apply Bool.eqb_prop in H2; subst. f_equal; now apply REC.
  - destruct (bytes_dec i i'); [|discriminate H]. destruct (obytes_dec m m'); [|discriminate H]. apply Bool.eqb_prop in H; now subst.
Qed.
Lemma eq_ignoring_iff a b : eq_ignoring a b = true <-> xwith a true = xwith b true.
Proof. unfold eq_ignoring; split; [apply xeqb_eq|intros ->; apply xeqb_refl]. Qed.
Lemma eq_ignoring_xwith a n m : eq_ignoring (xwith a n) (xwith a m) = true.
Proof. apply eq_ignoring_iff; now destruct a. Qed.
Lemma eq_ignoring_sym a b : eq_ignoring a b = eq_ignoring b a.
Proof. apply eq_true_iff_eq; rewrite !eq_ignoring_iff; split; congruence. Qed.

(** ** Scalars *)
Theorem scalar_order_reflexive x : scalar_cmp_partial x x = Some Eq.
Proof. unfold scalar_cmp_partial. replace (eq_ignoring _ _) with true; [apply sval_cmp_refl|]. symmetry; now apply eq_ignoring_iff. Qed.

Theorem scalar_order_antisymmetric x y : scalar_cmp_partial y x = option_map CompOpp (scalar_cmp_partial x y).
Proof. unfold scalar_cmp_partial. rewrite eq_ignoring_sym. destruct (eq_ignoring (fst x) (fst y)); [apply sval_cmp_rev|reflexivity]. Qed.

Theorem scalar_order_transitive x y z : scalar_cmp_partial x y = Some Lt -> scalar_cmp_partial y z = Some Lt -> scalar_cmp_partial x z = Some Lt.
Proof.
  unfold scalar_cmp_partial. intros A B.
  destruct (eq_ignoring (fst x) (fst y)) eqn:E; [|discriminate A]. destruct (eq_ignoring (fst y) (fst z)) eqn:F; [|discriminate B].
  replace (eq_ignoring (fst x) (fst z)) with true; [eapply sval_cmp_trans; eassumption|].
  symmetry; apply eq_ignoring_iff. apply eq_ignoring_iff in E, F. congruence.
Qed.

(** Any two scalars of one type (up to nullability) are comparable. *)
Theorem scalar_order_total d n m x y :
  has_type (xwith d n) x -> has_type (xwith d m) y -> exists c, scalar_cmp_partial (xwith d n, x) (xwith d m, y) = Some c.
Proof.
  intros A B. unfold scalar_cmp_partial; cbn [fst snd]. rewrite eq_ignoring_xwith.
  assert (K : forall k v, has_type (xwith d k) v -> has_type (xwith d true) v).
  { intros k v H. destruct v; destruct d; cbn in *; auto. }
  eapply has_type_total; [exact (K _ _ A)|exact (K _ _ B)].
Qed.

(** They compare equal exactly if they are the same value. *)
Theorem scalar_order_equal d n m x y :
  nums_ok x -> nums_ok y -> (scalar_cmp_partial (xwith d n, x) (xwith d m, y) = Some Eq <-> x = y).
Proof.
  intros A B. unfold scalar_cmp_partial; cbn [fst snd]. rewrite eq_ignoring_xwith. split; [now apply sval_cmp_eq|intros ->; apply sval_cmp_refl].
Qed.

(** Null is the greatest. *)
Theorem null_is_greatest d n m x : x <> SNull -> scalar_cmp_partial (xwith d n, x) (xwith d m, SNull) = Some Lt.
Proof. intros H. unfold scalar_cmp_partial; cbn [fst snd]. rewrite eq_ignoring_xwith. destruct x; try reflexivity. congruence. Qed.

(** On values without floats, [==] is "same dtype and compares equal". *)
Lemma sval_eqb_cmp x : forall y, float_free x -> sval_eqb x y = true <-> sval_cmp x y = Some Eq.
Proof.
  induction x as [a|p a|a|a|l IH|] using sval_ind'; intros [b|q b|b|b|r|] A; try (cbn; split; discriminate); try (split; reflexivity).
  - destruct a, b; cbn; split; congruence.
  - cbn [sval_eqb sval_cmp float_free] in *. destruct (ptype_dec p q) as [->|]; [|split; discriminate]. unfold native_cmp, total_cmp; rewrite A. cbn [andb rel].
    destruct (a ?= b)%Z; split; congruence.
  - cbn [sval_eqb sval_cmp]. destruct (bytes_dec a b) as [->|N]; split; try discriminate; intros H.
    + f_equal; now apply lex_eq.
    + reflexivity.
    + injection H as H; apply lex_eq in H; congruence.
  - cbn [sval_eqb sval_cmp]. destruct (bytes_dec a b) as [->|N]; split; try discriminate; intros H.
    + f_equal; now apply lex_eq.
    + reflexivity.
    + injection H as H; apply lex_eq in H; congruence.
  - rewrite cmp_list, eqb_list. revert r A; induction IH as [|x l Hx _ IHl]; intros [|y r] A; try (cbn; split; congruence).
    cbn [leqb lcmp]. destruct A as [A1 A2]. specialize (Hx y A1). rewrite andb_true_iff, (IHl r A2), Hx.
    destruct (sval_cmp x y) as [[| |]|]; split; try congruence; intuition congruence.
Qed.
Theorem scalar_equality_is_the_order x y :
  float_free (snd x) -> (scalar_eqb x y = true <-> fst x = fst y /\ scalar_cmp_partial x y = Some Eq).
Proof.
  intros A. unfold scalar_eqb, scalar_cmp_partial. rewrite andb_true_iff, (sval_eqb_cmp _ _ A). split.
  - intros [E H]. apply xeqb_eq in E. split; [exact E|]. replace (eq_ignoring _ _) with true; [exact H|]. symmetry; apply eq_ignoring_iff; now rewrite E.
  - intros [E H]. rewrite E. split; [apply xeqb_refl|]. destruct (eq_ignoring _ _); [exact H|discriminate H].
Qed.

Example scalar_order_example :
  let d := XStruct [[97%Z]; [98%Z]] [XPrim F64 false; XUtf8 true] false in
  let x := SList [SPrim F64 (2 ^ 63)%Z; SNull] in
  let y := SList [SPrim F64 0; SStr [104; 105]%Z] in
  has_type d x /\ has_type d y /\ scalar_cmp_partial (d, x) (d, y) = Some Lt.
Proof. cbn. unfold in_range; cbn. repeat split; try lia; reflexivity. Qed.

(** Negative zero equals zero but sorts before it; NaN sorts equal to itself but is not equal to itself. *)
Theorem scalar_equality_is_the_order_refuted :
  let d := XPrim F32 false in
  let zero := SPrim F32 0 in let negzero := SPrim F32 (2 ^ 31)%Z in let nan := SPrim F32 (255 * 2 ^ 23 + 1)%Z in
  has_type d zero /\ has_type d negzero /\ has_type d nan /\
  scalar_eqb (d, negzero) (d, zero) = true /\ scalar_cmp_partial (d, negzero) (d, zero) = Some Lt /\
  scalar_eqb (d, nan) (d, nan) = false /\ scalar_cmp_partial (d, nan) (d, nan) = Some Eq.
Proof. cbn. unfold in_range; cbn. repeat split; try lia; reflexivity. Qed.

(** Scalars of the nullable and of the non-nullable type are ordered as equal but are not equal. *)
Theorem scalar_equality_ignores_nullability_refuted :
  let x := SPrim I32 7 in
  scalar_cmp_partial (XPrim I32 true, x) (XPrim I32 false, x) = Some Eq /\ scalar_eqb (XPrim I32 true, x) (XPrim I32 false, x) = false.
Proof. split; reflexivity. Qed.

(** * Casts of numbers *)
Lemma truncate_spec p z : fl p -> in_range p z -> truncate (of_bits p z) = option_map whole_part (fvalue p z).
Proof.
  intros F R. pose proof (of_bits_spec p z F R) as H. destruct (fvalue p z) as [[m e]|]; cbn [option_map].
  - destruct H as [[-> ->]|(k & -> & -> & _)]; unfold truncate, whole_part.
    + f_equal. destruct (0 <=? e)%Z eqn:E; [lia|]. rewrite Z.quot_0_l; [reflexivity|]. apply Z.leb_gt in E. apply Z.pow_nonzero; lia.
    + f_equal. destruct (Z.leb_spec 0 e); [destruct (is_neg p z); lia|].
      assert (0 < 2 ^ (- e))%Z by (apply Z.pow_pos_nonneg; lia).
      destruct (is_neg p z); [rewrite Z.quot_opp_l by lia; f_equal|]; rewrite Z.quot_div_nonneg by lia; reflexivity.
  - destruct H as [->|[s ->]]; reflexivity.
Qed.

Lemma of_int_exact q z :
  q = F32 \/ q = F64 -> (Z.abs z < 2 ^ (mantissa q + 1))%Z -> exists y, fvalue q (of_int q z) = Some y /\ same_number y (z, 0%Z).
Proof.
  intros Q H. unfold of_int. destruct (Z.eq_dec z 0) as [->|N].
  - destruct Q as [->| ->]; eexists; (split; [reflexivity|]); reflexivity.
  - assert (Zpos (digits2_pos (Z.to_pos (Z.abs z))) <= fprec q)%Z by (apply digits_le; rewrite Z2Pos.id by lia; exact H).
    apply normalize_exact; try assumption.
    + destruct Q as [->| ->]; reflexivity.
    + destruct Q as [->| ->]; vm_compute; discriminate.
    + apply Z.le_trans with (fprec q); [lia|]. destruct Q as [->| ->]; vm_compute; discriminate.
Qed.

Lemma convert_exact p q z :
  fl p -> fl q -> (bits p < bits q)%Z -> in_range p z -> forall y, fvalue p z = Some y -> exists y', fvalue q (convert p q z) = Some y' /\ same_number y' y.
Proof.
  intros P Q L R [m e] E. pose proof (of_bits_spec p z P R) as H. rewrite E in H. unfold convert.
  destruct H as [[-> ->]|(k & -> & -> & K & Ke & _)].
  - assert (Ez : exists e', fvalue q (to_bits q (S754_zero (is_neg p z))) = Some (0, e')%Z).
    { destruct (is_neg p z); destruct q; try discriminate Q; eexists; reflexivity. }
    destruct Ez as [e' ->]. eexists; split; [reflexivity|]. unfold same_number; cbn [fst snd]. lia.
  - assert (A : Z.abs (cond_Zopp (is_neg p z) (Zpos k)) = Zpos k) by (destruct (is_neg p z); reflexivity).
    replace (if is_neg p z then (- Zpos k)%Z else Zpos k) with (cond_Zopp (is_neg p z) (Zpos k)) by reflexivity.
    assert (D : (Zpos (digits2_pos k) <= fprec p)%Z) by now apply digits_le.
    assert (G : (fprec p <= fprec q /\ femax p <= femax q /\ femin q <= femin p)%Z).
    { destruct p, q; try discriminate P; try discriminate Q; try (exfalso; cbn [bits] in L; lia); vm_compute; repeat split; discriminate. }
    apply normalize_exact.
    + exact Q.
    + destruct (is_neg p z); discriminate.
    + rewrite A. apply Z.lt_le_trans with (1 := K). apply Z.pow_le_mono_r; lia.
    + lia.
    + rewrite A. cbn [Z.to_pos]. lia.
Qed.

Lemma num_cast_spec p q z :
  in_range p z -> match num_cast p q z with Some x => castable p q z /\ casts p q z x | None => ~ castable p q z end.
Proof.
  intros R. unfold num_cast, castable. destruct (is_float p) eqn:P; destruct (is_float q) eqn:Q.
  - split; [exact I|]. repeat split; try (intros; congruence).
    + intros <-. destruct p; try discriminate P; (destruct (ptype_dec _ _); [reflexivity|congruence]).
    + intros _ _ L y E.
      assert (N : p <> q) by (intros ->; lia).
      match goal with |- exists y', fvalue q ?X = _ /\ _ => replace X with (convert p q z) end; [exact (convert_exact p q z P Q L R y E)|].
      destruct (ptype_dec p q); [congruence|]. destruct p, q; try discriminate P; try discriminate Q; cbn in L; try lia; reflexivity.
  - rewrite truncate_spec by assumption. destruct (fvalue p z) as [y|] eqn:V; cbn [option_map].
    + destruct (in_rangeb q (whole_part y)) eqn:E; [apply in_rangeb_spec in E|].
      * split; [now exists y|]. repeat split; try (intros; congruence). intros _ _. now exists y.
      * intros (y' & Ey & K). injection Ey as <-. apply in_rangeb_spec in K; congruence.
    + intros (y' & Ey & _). discriminate Ey.
  - split; [exact I|]. repeat split; try (intros; congruence). intros _ K L. destruct K as [->| ->]; apply of_int_exact; auto.
  - destruct (in_rangeb q z) eqn:E; [apply in_rangeb_spec in E|].
    + split; [exact E|]. repeat split; try (intros; congruence). intros _ [->| ->]; discriminate Q.
    + intros K. apply in_rangeb_spec in K; congruence.
Qed.

Lemma num_cast_self p z : in_range p z -> num_cast p p z = Some z.
Proof.
  intros R. unfold num_cast. destruct (is_float p) eqn:P.
  - destruct p; try discriminate P; (destruct (ptype_dec _ _); [reflexivity|congruence]).
  - apply in_rangeb_spec in R; now rewrite R.
Qed.
Lemma pv_as_self p z : in_range p z -> pv_as p p z = Ok z.
Proof. intros R. unfold pv_as. rewrite (num_cast_self p z R). destruct p; reflexivity. Qed.

(** ** Scalars *)
Theorem scalar_cast_of_numbers p q a b z :
  in_range p z ->
  (castable p q z -> exists x, scalar_cast (SPrim p z) (XPrim p a) (XPrim q b) = Ok (XPrim q b, SPrim q x) /\ casts p q z x) /\
  (~ castable p q z -> scalar_cast (SPrim p z) (XPrim p a) (XPrim q b) = Err).
Proof.
  intros R. cbn [scalar_cast andb]. unfold eq_ignoring; cbn [xwith xeqb]. rewrite andb_true_r. pose proof (num_cast_spec p q z R) as H.
  destruct (ptype_dec p q) as [<-|N].
  - rewrite num_cast_self in H by assumption. destruct H as [H1 H2]. split; [|tauto]. intros _. exists z. now split.
  - unfold prim_cast; cbn [prim_scalar]. rewrite pv_as_self by assumption. cbn [bind]. destruct (num_cast p q z) as [x|].
    + destruct H as [H1 H2]. split; [|tauto]. intros _. exists x. now split.
    + split; [tauto|reflexivity].
Qed.

(** A cast gives a scalar of the type asked for, and a null exactly from a null. *)
Theorem scalar_cast_keeps_nulls v d e r : scalar_cast v d e = Ok r -> fst r = e /\ (snd r = SNull <-> v = SNull) /\ (v = SNull -> xnullable e = true).
Proof.
  intros H. destruct v as [a|p a|a|a|l|]; cbn [scalar_cast andb] in H.
  6: destruct (xnullable e) eqn:Ne; [cbn [negb andb] in H|discriminate H].
  all: destruct (eq_ignoring d e); [injection H as <-; cbn [fst snd]; repeat split; congruence|].
  all: destruct e as [|n|q n|n|n|ns ts n|t n|i m n]; try discriminate H; destruct d as [|n'|q' n'|n'|n'|ns' ts' n'|t' n'|i' m' n']; try discriminate H.
  - unfold prim_cast in H; cbn in H. destruct (pv_as q' p a) as [x| |]; try discriminate H. cbn in H. destruct (num_cast q' q x); [|discriminate H].
    injection H as <-. cbn. repeat split; congruence.
  - destruct (length ts =? length ts'); [|discriminate H].
    match type of H with bind ?X _ = _ => destruct X as [fs| |] end; try discriminate H. injection H as <-. cbn. repeat split; congruence.
  - destruct (length ts =? length ts'); [|discriminate H]. injection H as <-. cbn. repeat split; congruence.
Qed.

Theorem null_cast_to_non_nullable_is_an_error d e : xnullable e = false -> scalar_cast SNull d e = Err.
Proof. intros H. cbn [scalar_cast]. now rewrite H. Qed.

(** Changing only the nullability never changes the value. *)
Theorem scalar_cast_nullability v d n m : (v = SNull -> xnullable (xwith d m) = true) -> scalar_cast v (xwith d n) (xwith d m) = Ok (xwith d m, v).
Proof. intros H. destruct v; cbn [scalar_cast andb]; rewrite ?eq_ignoring_xwith; try reflexivity. now rewrite (H eq_refl). Qed.

(** Struct scalars are cast field by field. *)
Fixpoint cast_fields (l : list sval) (us ts : list xdtype) {struct l} : result (list sval) :=
  match l, us, ts with
  | [], _, _ => Ok []
  | x :: l', u :: us', t :: ts' => do r <- scalar_cast x u t; do rs <- cast_fields l' us' ts'; Ok (snd r :: rs)
  | _, _, _ => Panic
  end.
Theorem struct_cast_is_fieldwise ns us a ms ts b l r :
  has_type (XStruct ns us a) (SList l) -> scalar_cast (SList l) (XStruct ns us a) (XStruct ms ts b) = Ok r -> eq_ignoring (XStruct ns us a) (XStruct ms ts b) = false ->
  exists fs, r = (XStruct ms ts b, SList fs) /\ length fs = length ts /\
    forall i, i < length ts -> exists e, scalar_cast (nth i l SNull) (nth i us XNull) (nth i ts XNull) = Ok (e, nth i fs SNull).
Proof.
  intros T H E. cbn [scalar_cast andb] in H. rewrite E in H. destruct (Nat.eqb_spec (length ts) (length us)) as [L|]; [|discriminate H].
  change ((do fs <- cast_fields l us ts; Ok (XStruct ms ts b, SList fs)) = Ok r) in H.
  destruct (cast_fields l us ts) as [fs| |] eqn:F; try discriminate H. injection H as <-. exists fs. split; [reflexivity|].
  cbn [has_type] in T. clear E ns ms a b. revert us ts fs T F L. induction l as [|x l IH]; intros [|u us] [|t ts] fs T F L; try contradiction; try discriminate L.
  - injection F as <-. split; [reflexivity|]. cbn; intros; lia.
  - cbn [cast_fields] in F. destruct (scalar_cast x u t) as [[e w]| |] eqn:C; try discriminate F. cbn [bind] in F.
    destruct (cast_fields l us ts) as [gs| |] eqn:G; try discriminate F. injection F as <-. destruct T as [_ T].
    destruct (IH us ts gs T G) as [L' K]; [now injection L|]. split; [cbn; now f_equal|]. intros [|i] I; [now exists e|]. apply (K i). cbn in I; lia.
Qed.

(** Values are not always preserved, though: fractions are dropped (1.5 becomes 1), and integers with too many digits are rounded
    (2^24 + 1 becomes 2^24). *)
Theorem scalar_cast_preserves_numbers_refuted :
  (let x := (127 * 2 ^ 23 + 2 ^ 22)%Z in
   in_range F32 x /\ fvalue F32 x = Some (3 * 2 ^ 22, -23)%Z /\ scalar_cast (SPrim F32 x) (XPrim F32 false) (XPrim I32 false) = Ok (XPrim I32 false, SPrim I32 1)) /\
  (let x := (2 ^ 24 + 1)%Z in
   in_range I32 x /\ exists y, scalar_cast (SPrim I32 x) (XPrim I32 false) (XPrim F32 false) = Ok (XPrim F32 false, SPrim F32 y) /\ fvalue F32 y = Some (2 ^ 23, 1)%Z).
Proof.
  split.
  - split; [unfold in_range; cbn; lia|]. split; vm_compute; reflexivity.
  - split; [unfold in_range; cbn; lia|]. eexists; split; [vm_compute; reflexivity|]. vm_compute; reflexivity.
Qed.
(** A null of one number type cannot be cast to another, nullable, number type: that panics. So do list and extension casts. *)
Theorem scalar_cast_never_panics_refuted :
  scalar_cast SNull (XPrim I32 true) (XPrim I64 true) = Panic /\
  scalar_cast (SList [SPrim I32 1]) (XList (XPrim I32 false) false) (XList (XPrim I64 false) false) = Panic /\
  scalar_cast (SPrim I32 1) (XExt [97%Z] None false) (XExt [98%Z] None false) = Panic.
Proof. repeat split; reflexivity. Qed.

Example scalar_cast_example :
  castable I64 U8 200 /\ ~ castable I64 U8 (-1)%Z /\ castable F64 I8 (2 ^ 63)%Z /\ castable U16 F32 65535 /\
  scalar_cast (SList [SPrim I64 200; SNull]) (XStruct [[97%Z]; [98%Z]] [XPrim I64 false; XUtf8 true] false) (XStruct [[97%Z]; [98%Z]] [XPrim U8 true; XUtf8 true] true)
  = Ok (XStruct [[97%Z]; [98%Z]] [XPrim U8 true; XUtf8 true] true, SList [SPrim U8 200; SNull]).
Proof.
  unfold castable, in_range; cbn. repeat split; try lia.
  exists (0, -1074)%Z. split; [reflexivity|]. cbn. lia.
Qed.

(** ** Arrays *)
(** A cast array has the type asked for; each element is the cast of the original element, and nulls stay null. *)
Definition cast_value (p q : ptype) (x y : value) : Prop :=
  match x with VInt z => exists k, y = VInt k /\ castable p q z /\ casts p q z k | _ => y = x end.


Lemma Forall2_tab {A B} (R : A -> B -> Prop) n f g : (forall i, i < n -> R (f i) (g i)) -> Forall2 R (tab n f) (tab n g).
Proof.
  unfold tab. intros H. assert (K : forall m, Forall (fun i => R (f i) (g i)) (seq m (n - m)) -> Forall2 R (map f (seq m (n - m))) (map g (seq m (n - m)))).
  { intros m. induction 1; cbn; constructor; assumption. }
  specialize (K 0). rewrite Nat.sub_0_r in K. apply K. apply Forall_forall. intros i I. apply H. apply in_seq in I; lia.
Qed.

Lemma mapM_num_cast p q l l' :
  mapM (fun z => match num_cast p q z with Some x => Ok x | None => Err end) l = Ok l' ->
  length l' = length l /\ forall i, i < length l -> num_cast p q (nth i l 0%Z) = Some (nth i l' 0%Z).
Proof.
  revert l'; induction l as [|z l IH]; intros l' H; cbn in H; [injection H as <-; split; [reflexivity|cbn; lia]|].
  destruct (num_cast p q z) as [x|] eqn:E; [|discriminate H]. cbn in H. destruct (mapM _ l) as [r| |] eqn:M; try discriminate H. injection H as <-.
  destruct (IH r eq_refl) as [L K]. split; [cbn; now f_equal|]. intros [|i] I; [exact E|]. apply K. cbn in I; lia.
Qed.

Theorem array_cast_correct f p l v q n r :
  wf f (APrim p l v) -> try_cast (APrim p l v) (DPrim q n) = Ok r ->
  adtype r = DPrim q n /\ Forall2 (cast_value p q) (logical (APrim p l v)) (logical r).
Proof.
  intros W H. cbn [wf] in W. destruct W as [Wl Wv].
  assert (R : forall i, i < length l -> in_range p (nth i l 0%Z)) by (intros i I; rewrite Forall_forall in Wl; apply Wl, nth_In, I).
  assert (Self : p = q -> forall w, (forall i, i < length l -> vvalid w i = vvalid v i) -> Forall2 (cast_value p q) (logical (APrim p l v)) (logical (APrim p l w))).
  { intros <- w K. cbn [logical]. apply Forall2_tab. intros i I. rewrite K by exact I. destruct (vvalid v i); [|reflexivity]. cbn.
    pose proof (num_cast_spec p p _ (R i I)) as C. rewrite num_cast_self in C by (now apply R). eexists; split; [reflexivity|exact C]. }
  unfold try_cast in H. destruct (dtype_eqb _ _) eqn:E.
  - injection H as <-. apply dtype_eqb_eq in E. split; [exact E|]. cbn [adtype] in E. injection E as E _. now apply Self.
  - unfold prim_array_cast in H.
    match type of H with bind ?X _ = _ => destruct X as [w| |] eqn:Ew end; try discriminate H. cbn [bind] in H.
    assert (Kw : vnullable w = n /\ forall i, i < length l -> vvalid w i = vvalid v i).
    { destruct (Bool.eqb (vnullable v) n) eqn:B; [injection Ew as <-; apply Bool.eqb_prop in B; now split|].
      destruct n.
      - injection Ew as <-. destruct v; cbn in *; try discriminate B; split; reflexivity.
      - destruct (l_all_valid _) eqn:A; [|discriminate Ew]. injection Ew as <-. split; [reflexivity|]. intros i I. cbn.
        destruct v as [| | |bs]; try reflexivity; try discriminate A. cbn in A, Wv. destruct bs as [|b bs]; [discriminate A|].
        destruct (forallb id (b :: bs)) eqn:Fb; [|destruct (negb _); discriminate A].
        symmetry. rewrite forallb_forall in Fb. apply (Fb (nth i (b :: bs) false)), nth_In. rewrite Wv. exact I. }
    destruct Kw as [Kn Kv]. destruct (ptype_dec p q) as [<-|N].
    + injection H as <-. split; [cbn; now rewrite Kn|]. now apply Self.
    + destruct (mapM _ l) as [l'| |] eqn:M; try discriminate H. injection H as <-. destruct (mapM_num_cast p q l l' M) as [L K].
      split; [cbn; now rewrite Kn|]. cbn [logical]. rewrite L. apply Forall2_tab. intros i I. rewrite Kv by exact I. destruct (vvalid v i); [|reflexivity].
      cbn. pose proof (num_cast_spec p q _ (R i I)) as C. rewrite (K i I) in C. eexists; split; [reflexivity|exact C].
Qed.

(** It succeeds if every number stored in the array can be cast and no null is in the way. *)
Theorem array_cast_total f p l v q n :
  wf f (APrim p l v) -> (forall z, In z l -> castable p q z) ->
  (n = true \/ v = VNonNull \/ l <> [] /\ ~ In VNull (logical (APrim p l v))) ->
  exists r, try_cast (APrim p l v) (DPrim q n) = Ok r.
Proof.
  intros W C N. cbn [wf] in W. destruct W as [Wl Wv]. unfold try_cast. destruct (dtype_eqb _ _); [eexists; reflexivity|].
  unfold prim_array_cast.
  assert (Kw : exists w, (if Bool.eqb (vnullable v) n then Ok v else if n then Ok (into_nullable v) else if l_all_valid (to_logical v (length l)) then Ok VNonNull else Err) = Ok w).
  { destruct (Bool.eqb (vnullable v) n); [eexists; reflexivity|]. destruct n; [eexists; reflexivity|].
    replace (l_all_valid _) with true; [eexists; reflexivity|]. symmetry. destruct N as [N|[->|[N1 N2]]]; [discriminate N|reflexivity|].
    destruct v as [| | |bs]; try reflexivity.
    - exfalso. apply N2. cbn. destruct l; [congruence|]. left; reflexivity.
    - cbn in Wv. cbn [to_logical]. destruct bs as [|b bs]; [destruct l; [congruence|discriminate Wv]|].
      replace (forallb id (b :: bs)) with true; [reflexivity|]. symmetry; apply forallb_forall. intros x X.
      destruct x; [reflexivity|exfalso]. apply N2. destruct (In_nth _ _ false X) as (i & I & E). cbn [logical]. unfold tab. apply in_map_iff. exists i. cbn [vvalid]. rewrite E.
      split; [reflexivity|]. apply in_seq. lia. }
  destruct Kw as [w Kw]. rewrite Kw. cbn [bind]. destruct (ptype_dec p q); [eexists; reflexivity|].
  assert (M : exists l', mapM (fun z => match num_cast p q z with Some x => Ok x | None => Err end) l = Ok l').
  { clear - Wl C. induction Wl as [|z l Hz _ IH]; [eexists; reflexivity|]. cbn. pose proof (num_cast_spec p q z Hz) as S0.
    destruct (num_cast p q z); [|exfalso; apply S0, C; now left]. cbn. destruct IH as [l' ->]; [intros; apply C; now right|]. eexists; reflexivity. }
  destruct M as [l' M]. rewrite M. eexists; reflexivity.
Qed.

(** Nulls cannot become non-null, and a number that cannot be cast is an error. *)
Theorem array_cast_rejects f p l v q n :
  wf f (APrim p l v) -> (n = false /\ In VNull (logical (APrim p l v)) \/ exists z, In (VInt z) (logical (APrim p l v)) /\ ~ castable p q z) ->
  try_cast (APrim p l v) (DPrim q n) = Err.
Proof.
  intros W H.
  assert (NP : try_cast (APrim p l v) (DPrim q n) <> Panic).
  { unfold try_cast. destruct (dtype_eqb _ _); [discriminate|]. unfold prim_array_cast.
    match goal with |- bind ?X _ <> _ => assert (X <> Panic) as NX; [|destruct X as [w| |]; cbn [bind]; try congruence] end.
    { destruct (Bool.eqb _ _); [discriminate|]. destruct n; [discriminate|]. destruct (l_all_valid _); discriminate. }
    destruct (ptype_dec p q); [discriminate|].
    assert (NM : mapM (fun z => match num_cast p q z with Some x => Ok x | None => Err end) l <> Panic).
    { clear. induction l as [|z l IH]; [discriminate|]. cbn. destruct (num_cast p q z); [cbn|discriminate]. destruct (mapM _ l); cbn; congruence. }
    destruct (mapM _ l); cbn; congruence. }
  destruct (try_cast (APrim p l v) (DPrim q n)) as [r| |] eqn:E; [exfalso|reflexivity|congruence].
  destruct (array_cast_correct f p l v q n r W E) as (D & F).
  destruct H as [[-> Hn]|(z & Hz & Nc)].
  - assert (In VNull (logical r)).
    { clear - F Hn. induction F as [|x y xs ys Hxy _ IH]; [contradiction|]. destruct Hn as [->|Hn]; [left; exact Hxy|right; auto]. }
    unfold try_cast in E. destruct (dtype_eqb _ _) eqn:De.
    + injection E as <-. cbn [adtype] in D. injection D as _ D. destruct v; try discriminate D. cbn [logical] in Hn. unfold tab in Hn. apply in_map_iff in Hn as (i & K & _). discriminate K.
    + unfold prim_array_cast in E. match type of E with bind ?X _ = _ => destruct X as [w| |] end; try discriminate E. cbn [bind] in E.
      assert (exists q' l', r = APrim q' l' w) as (q' & l' & ->).
      { destruct (ptype_dec p q); [injection E as <-; eauto|]. destruct (mapM _ l); try discriminate E. injection E as <-; eauto. }
      cbn [adtype] in D. injection D as _ D. destruct w; try discriminate D. cbn [logical] in H. unfold tab in H. apply in_map_iff in H as (i & K & _). discriminate K.
  - clear - F Hz Nc. induction F as [|x y xs ys Hxy _ IH]; [contradiction|]. destruct Hz as [->|Hz]; [|auto]. destruct Hxy as (k & _ & C & _). contradiction.
Qed.

(** The numbers stored under nulls must be castable too, and an empty nullable array with a validity bitmap cannot be made non-nullable. *)
Theorem array_cast_ignores_nulls_refuted :
  try_cast (APrim I32 [1; -1]%Z (VBits [true; false])) (DPrim U32 true) = Err /\
  logical (APrim I32 [1; -1]%Z (VBits [true; false])) = [VInt 1; VNull] /\
  try_cast (APrim I32 [] (VBits [])) (DPrim I32 false) = Err.
Proof. repeat split; reflexivity. Qed.

Example array_cast_example :
  wf f0 (APrim I64 [1; 300; 255]%Z (VBits [true; false; true])) /\
  try_cast (APrim I64 [1; 300; 255]%Z (VBits [true; false; true])) (DPrim U16 true) = Ok (APrim U16 [1; 300; 255]%Z (VBits [true; false; true])).
Proof. split; [|reflexivity]. cbn. split; [repeat constructor; unfold in_range; cbn; lia|reflexivity]. Qed.

Print Assumptions scalar_cast_of_numbers.
Print Assumptions array_cast_correct.

(** * is_instance_of *)

(** Struct values have one value per field, at any depth. *)
Fixpoint arity_ok (d : xdtype) (v : sval) {struct d} : Prop :=
  match d, v with
  | XStruct _ ts _, SList l =>
      (fix go (ts : list xdtype) (l : list sval) {struct ts} : Prop := match ts, l with [], [] => True | t :: ts', x :: l' => arity_ok t x /\ go ts' l' | _, _ => False end) ts l
  | XList t _, SList l => Forall (arity_ok t) l
  | _, _ => True
  end.

(** Of the values whose structs have one value per field, those accepted are exactly the values of the type: null only where the type
    is nullable, every other value only in its own type. *)
Theorem instance_of_is_the_type :
  forall v d, nums_ok v -> arity_ok d v -> (instance_of v d = true <-> has_type d v).
Proof.
  induction v as [a|p a|a|a|l IH|] using sval_ind'; intros d N A; destruct d as [|n|q n|n|n|ns ts n|t n|i m n]; try (cbn; intuition congruence).
  - cbn [instance_of has_type nums_ok] in *. destruct (ptype_dec p q) as [->|NE]; [tauto|]. split; [discriminate|]. intros [E _]. congruence.
  - cbn [instance_of has_type nums_ok arity_ok] in *. revert ts A. induction IH as [|x l Hx _ IHl]; intros [|t ts] A; try tauto.
    destruct N as [N1 N2], A as [A1 A2]. rewrite andb_true_iff, (Hx t N1 A1). specialize (IHl N2 ts A2). rewrite IHl. reflexivity.
  - cbn [instance_of has_type nums_ok arity_ok] in *. induction IH as [|x l Hx _ IHl]; [split; [constructor|reflexivity]|].
    destruct N as [N1 N2]. inversion A as [|? ? A1 A2]; subst. cbn [map forallb]. rewrite andb_true_iff, (Hx t N1 A1), (IHl N2 A2). split; [intros []; constructor; auto|]. intros F. inversion F; auto.
Qed.
Print Assumptions instance_of_is_the_type.
Theorem null_is_an_instance_of_nullable_types : forall d, instance_of SNull d = xnullable d.
Proof. destruct d; reflexivity. Qed.
(** A struct value with a missing field is accepted too. *)
Theorem instance_of_counts_fields_refuted :
  instance_of (SList [SBool true]) (XStruct [[97]; [98]]%Z [XBool false; XBool false] false) = true /\
  ~ has_type (XStruct [[97]; [98]]%Z [XBool false; XBool false] false) (SList [SBool true]).
Proof. split; [reflexivity|]. cbn. tauto. Qed.

(** ** Which scalars are comparable *)
(** The same type but for whether it allows nulls itself; what is inside lists and structs must agree fully. *)
Inductive up_to_nullability : xdtype -> xdtype -> Prop :=
  | UNull : up_to_nullability XNull XNull
  | UBool : forall n m, up_to_nullability (XBool n) (XBool m)
  | UPrim : forall p n m, up_to_nullability (XPrim p n) (XPrim p m)
  | UUtf8 : forall n m, up_to_nullability (XUtf8 n) (XUtf8 m)
  | UBinary : forall n m, up_to_nullability (XBinary n) (XBinary m)
  | UStruct : forall ns ts n m, up_to_nullability (XStruct ns ts n) (XStruct ns ts m)
  | UList : forall t n m, up_to_nullability (XList t n) (XList t m)
  | UExt : forall i e n m, up_to_nullability (XExt i e n) (XExt i e m).

(** Making a type (non-)nullable changes nothing else, and the null type is always nullable. *)
Theorem with_nullability_changes_only_that d n :
  up_to_nullability d (xwith d n) /\ (d <> XNull -> xnullable (xwith d n) = n) /\ xwith d (xnullable d) = d /\ xnullable XNull = true.
Proof. destruct d; repeat split; try constructor; congruence. Qed.

(** Scalars are incomparable if their types differ in more than nullability; between types that agree so far, every two values of the types compare. *)
Theorem scalars_are_comparable_by_type d e x y :
  (eq_ignoring d e = true <-> up_to_nullability d e) /\
  (~ up_to_nullability d e -> scalar_cmp_partial (d, x) (e, y) = None) /\
  (up_to_nullability d e -> has_type d x -> has_type e y -> exists c, scalar_cmp_partial (d, x) (e, y) = Some c).
Proof.
  assert (eq_ignoring d e = true <-> up_to_nullability d e) as K.
  { rewrite eq_ignoring_iff. split.
    - destruct d, e; cbn [xwith]; intros E; try discriminate E; try (injection E; intros; subst); constructor.
    - intros U. destruct U; reflexivity. }
  split; [exact K|]. split.
  - intros N. unfold scalar_cmp_partial; cbn [fst snd]. destruct (eq_ignoring d e) eqn:E; [contradiction (N (proj1 K eq_refl))|reflexivity].
  - intros U A B. assert (exists n m b, d = xwith b n /\ e = xwith b m) as (n & m & b & -> & ->); [|apply scalar_order_total; assumption].
    destruct U; [exists true, true, XNull| exists n, m, (XBool n)| exists n, m, (XPrim p n)| exists n, m, (XUtf8 n)| exists n, m, (XBinary n)| exists n, m, (XStruct ns ts n)| exists n, m, (XList t n)| exists n, m, (XExt i e n)]; split; reflexivity.
Qed.
Print Assumptions with_nullability_changes_only_that.
Print Assumptions scalars_are_comparable_by_type.
Example ex_comparable :
  scalar_cmp_partial (XStruct [[97%Z]] [XBool true] true, SList [SBool true]) (XStruct [[97%Z]] [XBool true] false, SList [SBool false]) = Some Gt /\
  scalar_cmp_partial (XList (XBool true) true, SNull) (XList (XBool false) true, SNull) = None.
Proof. split; reflexivity. Qed.
