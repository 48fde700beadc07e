(** C40: pruning by min/max statistics. *)
From Verif Require Import Base Spec CmpSpec ExprSpec Arr ArrRead ArrSlice ArrWf ValidityModel ArrOps Compare CmpProofs Layout Expr.

(** * The order of values *)
Lemma lex_trans a : forall b c, lex a b <> Gt -> lex b c <> Gt -> lex a c <> Gt /\ (lex a b = Lt \/ lex b c = Lt -> lex a c = Lt).
Proof.
  induction a as [|x a IH]; intros [|y b] [|z c]; cbn [lex]; try (intros; split; [discriminate|intros [H|H]; congruence]); try congruence; try (intros; split; [congruence|tauto]).
  destruct (Z.compare_spec x y) as [->|H1|H1]; destruct (Z.compare_spec y z) as [->|H2|H2]; try congruence; intros A B.
  - apply IH; assumption.
  - split; [congruence|auto].
  - try rewrite (proj2 (Z.compare_lt_iff _ _) H1). split; [congruence|auto].
  - rewrite (proj2 (Z.compare_lt_iff x z)) by lia. split; [congruence|auto].
Qed.
Definition vlt (d : dtype) (x y : value) : Prop := value_cmp d x y = Some Lt.
Lemma zc_trans x y z : (x ?= y)%Z <> Gt -> (y ?= z)%Z <> Gt -> (x ?= z)%Z <> Gt /\ ((x ?= y)%Z = Lt \/ (y ?= z)%Z = Lt -> (x ?= z)%Z = Lt).
Proof. destruct (Z.compare_spec x y), (Z.compare_spec y z), (Z.compare_spec x z); intros; split; try congruence; try lia; intros [|]; congruence. Qed.
Lemma vle_trans_strict d x y z : vle d x y -> vle d y z -> vle d x z /\ (vlt d x y \/ vlt d y z -> vlt d x z).
Proof.
  unfold vle, vlt. destruct x as [|a|a|a|a], y as [|b|b|b|b]; try (intros [H|H]; discriminate H); destruct z as [|c|c|c|c]; try (intros _ [H|H]; discriminate H); cbn [value_cmp].
  - destruct a, b, c; cbn; intros [|] [|]; split; try congruence; auto; intros [|]; congruence.
  - destruct d; try (intros [H|H]; discriminate H).
    assert (forall u v w : Z, Some (u ?= v)%Z = Some Lt \/ Some (u ?= v)%Z = Some Eq -> Some (v ?= w)%Z = Some Lt \/ Some (v ?= w)%Z = Some Eq ->
      (Some (u ?= w)%Z = Some Lt \/ Some (u ?= w)%Z = Some Eq) /\ (Some (u ?= v)%Z = Some Lt \/ Some (v ?= w)%Z = Some Lt -> Some (u ?= w)%Z = Some Lt)) as G.
    { intros u v w H1 H2. destruct (zc_trans u v w) as [T1 T2]; [destruct H1; congruence|destruct H2; congruence|]. split; [destruct (u ?= w)%Z; auto; congruence|]. intros H. f_equal. apply T2. destruct H; [left|right]; congruence. }
    destruct (is_float p); [|apply G]. unfold ieee_cmp. destruct (is_nan p a); [intros [|]; discriminate|]. destruct (is_nan p b); [intros [|]; discriminate|]. destruct (is_nan p c); [intros _ [|]; discriminate|]. apply G.
  - intros H1 H2. destruct (lex_trans a b c) as [T1 T2]; [destruct H1; congruence|destruct H2; congruence|]. split; [destruct (lex a c); auto; congruence|]. intros H. f_equal. apply T2. destruct H; [left|right]; congruence.
Qed.
Lemma vcmp_gt d x y : value_cmp d x y = Some Gt -> vlt d y x.
Proof. unfold vlt. rewrite (value_cmp_rev d x y). intros ->. reflexivity. Qed.
Lemma vlt_irrefl d x : ~ vlt d x x.
Proof. unfold vlt. intros H. pose proof (value_cmp_rev d x x) as E. rewrite H in E. discriminate E. Qed.
Lemma vcmp_eq_sym d x y : value_cmp d x y = Some Eq -> value_cmp d y x = Some Eq.
Proof. rewrite (value_cmp_rev d x y). intros ->. reflexivity. Qed.

(** * Columns compared with an expression *)
Definition no_columns {F} (e : expr F) : Prop := refs e = [].
Lemma constant_expr {F} (ty : F -> dtype) sty st row (s : stat) e : no_columns e ->
  eval_row sty st (with_stat s e) = eval_row ty row e /\ etype sty (with_stat s e) = etype ty e.
Proof.
  unfold no_columns. induction e as [c|d x|op l IHl r IHr| |b cs]; cbn; try discriminate; auto. intros H. apply app_eq_nil in H. destruct H as [H1 H2].
  destruct (IHl H1) as [A1 A2]. destruct (IHr H2) as [B1 B2]. rewrite A1, A2, B1. auto.
Qed.
Lemma spec_cmp_true d op x y : spec_cmp d op x y = VBool true -> x <> VNull /\ y <> VNull /\ rel op (value_cmp d x y) = true.
Proof. unfold spec_cmp. destruct x; cbn [is_null orb]; try discriminate; (destruct y; cbn [is_null]; try discriminate; intros H; injection H as H; repeat split; try discriminate; exact H). Qed.
Lemma spec_bool_and x y : spec_bool andb x y = VBool true -> x = VBool true /\ y = VBool true.
Proof. destruct x as [|[]| | |], y as [|[]| | |]; cbn; try discriminate; auto. Qed.
Lemma spec_bool_or x y : spec_bool orb x y = VBool true -> x = VBool true \/ y = VBool true.
Proof. destruct x as [|[]| | |], y as [|[]| | |]; cbn; try discriminate; auto. Qed.

(** A row matches [c op other]; [other]'s value lies between [lo] and [hi], the values of its rewritten forms. Then the rewritten
    predicate is not true. *)
Lemma rewrite_core d (op : cop) mn mx lo hi v w :
  (mn <> VNull -> vle d mn v) -> (mx <> VNull -> vle d v mx) -> (op <> CNe -> lo <> VNull -> vle d lo w) -> (op <> CNe -> hi <> VNull -> vle d w hi) ->
  rel op (value_cmp d v w) = true ->
  match op with
  | CEq => spec_cmp d CGt mn hi <> VBool true /\ spec_cmp d CGt lo mx <> VBool true
  | CNe => (lo = w /\ hi = w) -> spec_cmp d CEq mn w = VBool true -> spec_cmp d CEq w mx = VBool true -> False
  | CGt => spec_cmp d CLe mx lo <> VBool true
  | CLt => spec_cmp d CGe mn hi <> VBool true
  | _ => True
  end.
Proof.
  intros Bn Bx Bl Bh R. destruct op; try exact I; try (specialize (Bl ltac:(discriminate)); specialize (Bh ltac:(discriminate))).
  - assert (value_cmp d v w = Some Eq) as E by (destruct (value_cmp d v w) as [[]|]; try discriminate R; reflexivity). clear R. split; intros H; apply spec_cmp_true in H; destruct H as (N1 & N2 & H).
    + assert (value_cmp d mn hi = Some Gt) as G by (destruct (value_cmp d mn hi) as [[]|]; try discriminate H; reflexivity). apply vcmp_gt in G.
      destruct (vle_trans_strict d mn v w (Bn N1) (or_intror E)) as [T1 _]. destruct (vle_trans_strict d mn w hi T1 (Bh N2)) as [T2 _].
      destruct (vle_trans_strict d hi mn hi (or_introl G) T2) as [_ T3]. specialize (T3 (or_introl G)). destruct (vlt_irrefl _ _ T3).
    + assert (value_cmp d lo mx = Some Gt) as G by (destruct (value_cmp d lo mx) as [[]|]; try discriminate H; reflexivity). apply vcmp_gt in G.
      destruct (vle_trans_strict d lo w v (Bl N1) (or_intror (vcmp_eq_sym _ _ _ E))) as [T1 _]. destruct (vle_trans_strict d lo v mx T1 (Bx N2)) as [T2 _].
      destruct (vle_trans_strict d mx lo mx (or_introl G) T2) as [_ T3]. specialize (T3 (or_introl G)). destruct (vlt_irrefl _ _ T3).
  - intros _ H1 H2. apply spec_cmp_true in H1. destruct H1 as (N1 & N2 & H1). apply spec_cmp_true in H2. destruct H2 as (_ & N3 & H2).
    assert (value_cmp d mn w = Some Eq) as E1 by (destruct (value_cmp d mn w) as [[]|]; try discriminate H1; reflexivity). assert (value_cmp d w mx = Some Eq) as E2 by (destruct (value_cmp d w mx) as [[]|]; try discriminate H2; reflexivity).
    destruct (vle_trans_strict d w mn v (or_intror (vcmp_eq_sym _ _ _ E1)) (Bn N1)) as [T1 _]. destruct (vle_trans_strict d v mx w (Bx N3) (or_intror (vcmp_eq_sym _ _ _ E2))) as [T2 _].
    assert (value_cmp d v w = Some Eq) as E. { destruct T2 as [T2|T2]; [|exact T2]. destruct (vle_trans_strict d v w v (or_introl T2) T1) as [_ T3]. specialize (T3 (or_introl T2)). destruct (vlt_irrefl _ _ T3). }
    rewrite E in R. discriminate R.
  - assert (value_cmp d v w = Some Gt) as E by (destruct (value_cmp d v w) as [[]|]; try discriminate R; reflexivity). apply vcmp_gt in E. intros H. apply spec_cmp_true in H. destruct H as (N1 & N2 & H).
    assert (vle d mx lo) as G by (unfold vle; destruct (value_cmp d mx lo) as [[]|]; try discriminate H; auto).
    destruct (vle_trans_strict d v mx lo (Bx N1) G) as [T1 _]. destruct (vle_trans_strict d v lo w T1 (Bl N2)) as [T2 _]. destruct (vle_trans_strict d v w v T2 (or_introl E)) as [_ T3]. specialize (T3 (or_intror E)). destruct (vlt_irrefl _ _ T3).
  - assert (value_cmp d v w = Some Lt) as E by (destruct (value_cmp d v w) as [[]|]; try discriminate R; reflexivity). intros H. apply spec_cmp_true in H. destruct H as (N1 & N2 & H).
    assert (vle d hi mn) as G. { unfold vle. rewrite (value_cmp_rev d mn hi). destruct (value_cmp d mn hi) as [[]|]; try discriminate H; auto. }
    destruct (vle_trans_strict d w hi mn (Bh N2) G) as [T1 _]. destruct (vle_trans_strict d w mn v T1 (Bn N1)) as [T2 _]. destruct (vle_trans_strict d w v w T2 (or_introl E)) as [_ T3]. specialize (T3 (or_intror E)). destruct (vlt_irrefl _ _ T3).
Qed.

(** * C40 *)
(** Comparisons of a column that the rewrite handles: [=], [>], [<] against an expression without columns or another column, [<>]
    against an expression without columns. *)
Definition sound_cmp {F} (eqb : F -> F -> bool) (ty : F -> dtype) (c : F) (op : cop) (other : expr F) : Prop :=
  erase (ty c) = erase (etype ty other) /\
  ((no_columns other /\ (op = CEq \/ op = CNe \/ op = CGt \/ op = CLt)) \/
   (exists c', other = ECol c' /\ eqb c c' = false /\ (op = CEq \/ op = CGt \/ op = CLt))).
(** ... on either side, and conjunctions with at least one of them. *)
Inductive prunable {F} (eqb : F -> F -> bool) (ty : F -> dtype) : expr F -> Prop :=
| P_left c op o : sound_cmp eqb ty c op o -> prunable eqb ty (EBin (BCmp op) (ECol c) o)
| P_right c op o : no_columns o -> sound_cmp eqb ty c (cop_swap op) o -> prunable eqb ty (EBin (BCmp op) o (ECol c))
| P_and_l l r : prunable eqb ty l -> prunable eqb ty (EBin BAnd l r)
| P_and_r l r : prunable eqb ty r -> prunable eqb ty (EBin BAnd l r).

Lemma rewrite_sound {F} (eqb : F -> F -> bool) ty sty st (rows : list (F -> value)) c op o row :
  (forall c s, erase (sty (c, s)) = erase (ty c)) -> stats_ok ty st rows -> sound_cmp eqb ty c op o -> In row rows ->
  eval_row sty st (rewrite_cmp eqb c (BCmp op) o) = VBool true -> spec_cmp (ty c) op (row c) (eval_row ty row o) = VBool true -> False.
Proof.
  intros ST SO [TE SC] HR EV M. apply spec_cmp_true in M. destruct M as (N1 & N2 & R).
  destruct (SO row c HR N1) as [Bn Bx]. unfold rewrite_cmp in EV.
  assert (existsb (eqb c) (refs o) = false) as RF by (destruct SC as [[NC _]|(c' & -> & E & _)]; [rewrite NC; reflexivity|cbn; rewrite E; reflexivity]).
  rewrite RF in EV. set (lo := eval_row sty st (with_stat SMin o)) in *. set (hi := eval_row sty st (with_stat SMax o)) in *. set (w := eval_row ty row o) in *.
  assert ((op <> CNe -> lo <> VNull -> vle (ty c) lo w) /\ (op <> CNe -> hi <> VNull -> vle (ty c) w hi) /\ (op = CNe -> lo = w /\ hi = w) /\
          erase (etype sty (with_stat SMin o)) = erase (ty c) /\ erase (etype sty (with_stat SMax o)) = erase (ty c)) as (Bl & Bh & CE & TL & TH).
  { destruct SC as [[NC OP]|(c' & EO & E & OP)].
    - destruct (constant_expr ty sty st row SMin o NC) as [A1 A2]. destruct (constant_expr ty sty st row SMax o NC) as [A3 A4]. fold lo w in A1. fold hi w in A3. rewrite A2, A4.
      assert (op <> CNe -> vle (ty c) w w) as WW.
      { intros NE. right.
        assert (value_cmp (ty c) w w <> None -> value_cmp (ty c) w w = Some Eq) as G. { pose proof (value_cmp_rev (ty c) w w) as H. destruct (value_cmp (ty c) w w) as [[]|]; try discriminate H; congruence. }
        apply G. intros H. assert (forall x, value_cmp (ty c) x w = None) as G2.
        { intros x. clear - H. destruct w as [|b|b|b|b], x as [|a|a|a|a]; try reflexivity; cbn in *; try discriminate. destruct (ty c); try reflexivity. destruct (is_float p); [|discriminate H]. unfold ieee_cmp in *. destruct (is_nan p b); [rewrite orb_true_r; reflexivity|discriminate H]. }
        specialize (G2 (row c)). destruct op; rewrite G2 in R; try discriminate R. congruence. }
      rewrite A1, A3. split; [auto|]. split; [auto|]. split; [auto|]. split; congruence.
    - subst o. cbn [with_stat eval_row etype] in *. destruct (SO row c' HR N2) as [C1 C2].
      assert (forall x y, vle (ty c') x y -> vle (ty c) x y) as TR. { intros x y. unfold vle. rewrite (value_cmp_erase (ty c) (ty c')) by exact TE. auto. }
      split; [auto|]. split; [auto|]. split; [intros ->; destruct OP as [OP|[OP|OP]]; discriminate OP|]. rewrite !ST. split; congruence. }
  assert (OPS : op = CEq \/ op = CNe \/ op = CGt \/ op = CLt) by (destruct SC as [[_ OP]|(c' & _ & _ & [OP|[OP|OP]])]; auto).
  pose proof (rewrite_core (ty c) op (st (c, SMin)) (st (c, SMax)) lo hi (row c) w Bn Bx Bl Bh R) as RC.
  assert (forall o1 d x y, erase d = erase (ty c) -> spec_cmp d o1 x y = spec_cmp (ty c) o1 x y) as SE by (intros; apply spec_cmp_erase; assumption).
  destruct OPS as [-> |[-> |[-> | ->]]]; cbn [eval_row etype] in EV; fold lo hi in EV; rewrite ?(SE _ _ _ _ (ST _ _)), ?(SE _ _ _ _ TL), ?(SE _ _ _ _ TH) in EV.
  - apply spec_bool_or in EV. destruct RC as [R1 R2]. destruct EV; auto.
  - destruct (CE eq_refl) as [E1 E2]. specialize (RC (conj E1 E2)). rewrite E1, E2 in EV. apply spec_bool_or in EV. destruct EV as [EV|EV]; apply spec_bool_and in EV; destruct EV; auto.
  - auto.
  - auto.
Qed.

(** A block whose statistics make the rewritten predicate true holds no row that passes the filter. *)
Theorem prune_is_sound {F} (eqb : F -> F -> bool) (ty : F -> dtype) (sty : F * stat -> dtype) st (rows : list (F -> value)) e :
  (forall c s, erase (sty (c, s)) = erase (ty c)) -> stats_ok ty st rows -> prunable eqb ty e ->
  eval_row sty st (prune eqb e) = VBool true -> forall row, In row rows -> passes ty e row = false.
Proof.
  intros ST SO P EV row HR. cut (eval_row ty row e <> VBool true). { unfold passes. destruct (eval_row ty row e) as [|[]| | |]; congruence. }
  revert EV. induction P as [c op o SC|c op o NC SC|l r P IH|l r P IH].
  - assert (prune eqb (EBin (BCmp op) (ECol c) o) = rewrite_cmp eqb c (BCmp op) o) as -> by reflexivity. intros EV M.
    exact (rewrite_sound eqb ty sty st rows c op o row ST SO SC HR EV M).
  - assert (prune eqb (EBin (BCmp op) o (ECol c)) = rewrite_cmp eqb c (BCmp (cop_swap op)) o) as ->. { destruct o; try reflexivity. discriminate NC. }
    intros EV M. apply (rewrite_sound eqb ty sty st rows c (cop_swap op) o row ST SO SC HR EV). cbn [eval_row] in M. rewrite <- M.
    rewrite <- (spec_cmp_swap _ op). apply spec_cmp_erase. exact (proj1 SC).
  - intros EV. cbn [prune eval_row] in *. apply spec_bool_and in EV. intros M. apply spec_bool_and in M. destruct EV, M. apply IH; assumption.
  - intros EV. cbn [prune eval_row] in *. apply spec_bool_and in EV. intros M. apply spec_bool_and in M. destruct EV, M. apply IH; assumption.
Qed.

(** Conversely, in these cases a comparison of a column with a literal is pruned whenever no value between the bounds satisfies it. *)
Theorem prune_is_effective {F} (eqb : F -> F -> bool) (ty : F -> dtype) (sty : F * stat -> dtype) st c op d w :
  (forall c s, erase (sty (c, s)) = erase (ty c)) -> erase d = erase (ty c) -> w <> VNull -> (op = CEq \/ op = CNe \/ op = CGt \/ op = CLt) ->
  let mn := st (c, SMin) in let mx := st (c, SMax) in
  vle (ty c) mn mx -> value_cmp (ty c) mn w <> None -> value_cmp (ty c) w mx <> None -> value_cmp (ty c) w w <> None ->
  (forall v, vle (ty c) mn v -> vle (ty c) v mx -> rel op (value_cmp (ty c) v w) = false) ->
  eval_row sty st (prune eqb (EBin (BCmp op) (ECol c) (ELit d w))) = VBool true.
Proof.
  intros ST TD NW OP mn mx LE C1 C2 CW NO. cbn [prune]. unfold rewrite_cmp. cbn [refs existsb].
  assert (mn <> VNull) as NN by (intros E; unfold vle in LE; rewrite E in LE; destruct LE as [LE|LE]; discriminate LE).
  assert (mx <> VNull) as NX by (intros E; unfold vle in LE; rewrite E in LE; destruct mn; destruct LE as [LE|LE]; discriminate LE).
  assert (forall x y, vle (ty c) x y -> vle (ty c) x x /\ vle (ty c) y y) as RF.
  { intros x y. unfold vle. destruct x as [|a|a|a|a], y as [|b|b|b|b]; cbn; try (intros [H|H]; discriminate H).
    - destruct a, b; cbn; auto.
    - destruct (ty c); try (intros [H|H]; discriminate H). destruct (is_float p); [|intros _; rewrite !Z.compare_refl; auto]. unfold ieee_cmp. destruct (is_nan p a), (is_nan p b); cbn; try (intros [H|H]; discriminate H). rewrite !Z.compare_refl. auto.
    - intros _. assert (forall l, lex l l = Eq) as L by (induction l as [|z l IH]; cbn; [reflexivity|rewrite Z.compare_refl; exact IH]). rewrite !L. auto. }
  destruct (RF _ _ LE) as [RM RX]. pose proof (NO mn RM LE) as ON. pose proof (NO mx LE RX) as OX.
  assert (forall o1 dd x y, erase dd = erase (ty c) -> x <> VNull -> y <> VNull -> spec_cmp dd o1 x y = VBool (rel o1 (value_cmp (ty c) x y))) as SE.
  { intros o1 dd x y E X Y. rewrite (spec_cmp_erase dd (ty c)) by exact E. unfold spec_cmp. destruct x; try congruence; destruct y; try congruence; reflexivity. }
  assert (value_cmp (ty c) w w = Some Eq) as WW. { pose proof (value_cmp_rev (ty c) w w) as H. destruct (value_cmp (ty c) w w) as [[]|]; try discriminate H; congruence. }
  destruct OP as [-> |[-> |[-> | ->]]]; cbn [with_stat eval_row etype]; fold mn mx.
  - rewrite !(SE _ _ _ _ (ST _ _)), !(SE _ _ _ _ TD) by assumption. cbn [spec_bool]. f_equal.
    destruct (value_cmp (ty c) mn w) as [c1|] eqn:E1; [|congruence]. destruct (value_cmp (ty c) w mx) as [c2|] eqn:E2; [|congruence].
    destruct c1; try reflexivity; (destruct c2; try reflexivity; exfalso; assert (rel CEq (value_cmp (ty c) w w) = false) as B by (apply NO; unfold vle; auto); rewrite WW in B; discriminate B).
  - rewrite !(SE _ _ _ _ (ST _ _)), !(SE _ _ _ _ TD) by assumption.
    assert (value_cmp (ty c) mn w = Some Eq) as -> by (destruct (value_cmp (ty c) mn w) as [[]|]; try discriminate ON; reflexivity).
    assert (value_cmp (ty c) w mx = Some Eq) as ->. { apply vcmp_eq_sym. destruct (value_cmp (ty c) mx w) as [[]|]; try discriminate OX; reflexivity. } reflexivity.
  - rewrite !(SE _ _ _ _ (ST _ _)) by assumption. rewrite (value_cmp_rev (ty c) mx w) in C2. destruct (value_cmp (ty c) mx w) as [[]|]; try discriminate OX; try reflexivity. destruct (C2 eq_refl).
  - rewrite !(SE _ _ _ _ (ST _ _)) by assumption. destruct (value_cmp (ty c) mn w) as [[]|]; try discriminate ON; try reflexivity. destruct (C1 eq_refl).
Qed.

(** Non-vacuity: a block with x in [1, 5] is pruned for x = 9 and (7 < x and s), one row of it. *)
Definition i32 := DPrim I32 false.
Definition blk (lo hi : Z) (cs : nat * stat) : value := match snd cs with SMin => VInt lo | SMax => VInt hi end.
Lemma blk_ok lo hi z : (lo <= z <= hi)%Z -> stats_ok (fun _ : nat => i32) (blk lo hi) [fun _ => VInt z].
Proof.
  intros H row c [<-|[]] _. unfold blk, vle. cbn. split; intros _.
  - destruct (Z.compare_spec lo z); auto; lia.
  - destruct (Z.compare_spec z hi); auto; lia.
Qed.
Example prune_meets :
  stats_ok (fun _ : nat => i32) (blk 1 5) [fun _ => VInt 3] /\
  prunable Nat.eqb (fun _ => i32) (EBin (BCmp CEq) (ECol 0) (ELit i32 (VInt 9))) /\
  eval_row (fun _ => i32) (blk 1 5) (prune Nat.eqb (EBin (BCmp CEq) (ECol 0) (ELit i32 (VInt 9)))) = VBool true /\
  prunable Nat.eqb (fun _ => i32) (EBin BAnd (EBin (BCmp CLt) (ELit i32 (VInt 7)) (ECol 0)) (ECol 1)) /\
  eval_row (fun _ => i32) (blk 1 5) (prune Nat.eqb (EBin BAnd (EBin (BCmp CLt) (ELit i32 (VInt 7)) (ECol 0)) (ECol 1))) = VBool true.
Proof.
  split; [apply blk_ok; lia|]. split; [apply P_left; split; [reflexivity|left; split; [reflexivity|auto]]|]. split; [reflexivity|]. split; [|reflexivity].
  apply P_and_l, P_right; [reflexivity|]. split; [reflexivity|left; split; [reflexivity|auto]].
Qed.

(** The full claim fails: a block that holds a matching row is pruned for [>=] and [<=] when the bound equals the literal, for a
    disjunction when either side can be pruned, for everything that cannot be rewritten (the fallback is "true"), and for [<>]
    between two columns. *)
Theorem pruning_refuted :
  exists (st : nat * stat -> value) (row : nat -> value) (ty : nat -> dtype), ty = (fun _ => i32) /\ stats_ok ty st [row] /\
    (let e := EBin (BCmp CGe) (ECol 0) (ELit i32 (VInt 5)) in
     eval_row (fun _ => i32) st (prune Nat.eqb e) = VBool true /\ passes ty e row = true) /\
    (let e := EBin BOr (EBin (BCmp CEq) (ECol 0) (ELit i32 (VInt 5))) (EBin (BCmp CEq) (ECol 0) (ELit i32 (VInt 9))) in
     eval_row (fun _ => i32) st (prune Nat.eqb e) = VBool true /\ passes ty e row = true) /\
    (let e := EBin (BCmp CEq) (ECol 0) (ECol 0) in
     eval_row (fun _ => i32) st (prune Nat.eqb e) = VBool true /\ passes ty e row = true) /\
    (let e := EBin (BCmp CEq) (ELit i32 (VInt 5)) (ELit i32 (VInt 5)) in
     eval_row (fun _ => i32) st (prune Nat.eqb e) = VBool true /\ passes ty e row = true).
Proof.
  exists (blk 1 5), (fun _ => VInt 5), (fun _ => i32). split; [reflexivity|]. split; [apply blk_ok; lia|]. repeat split.
Qed.
Theorem pruning_lower_bound_refuted :
  exists (st : nat * stat -> value) (row : nat -> value), stats_ok (fun _ => i32) st [row] /\
    (let e := EBin (BCmp CLe) (ECol 0) (ELit i32 (VInt 1)) in
     eval_row (fun _ => i32) st (prune Nat.eqb e) = VBool true /\ passes (fun _ => i32) e row = true).
Proof. exists (blk 1 5), (fun _ => VInt 1). split; [apply blk_ok; lia|]. split; reflexivity. Qed.
Theorem pruning_not_equal_columns_refuted :
  exists (st : nat * stat -> value) (row : nat -> value), stats_ok (fun _ => i32) st [row] /\
    (let e := EBin (BCmp CNe) (ECol 0) (ECol 1) in
     eval_row (fun _ => i32) st (prune Nat.eqb e) = VBool true /\ passes (fun _ => i32) e row = true).
Proof.
  exists (fun cs => match cs with (0, _) => VInt 1 | (_, SMin) => VInt 1 | (_, SMax) => VInt 5 end), (fun c => match c with 0 => VInt 1 | _ => VInt 5 end).
  split; [|split; reflexivity]. intros row c [<-|[]] _. unfold vle. destruct c; cbn; auto.
Qed.
(** A boolean column used as a filter: every block is pruned. *)
Theorem pruning_bool_column_refuted :
  exists (st : nat * stat -> value) (row : nat -> value), stats_ok (fun _ => DBool false) st [row] /\
     eval_row (fun _ => DBool false) st (prune Nat.eqb (ECol 0)) = VBool true /\ passes (fun _ => DBool false) (ECol 0) row = true.
Proof. exists (fun _ => VNull), (fun _ => VBool true). split; [|split; reflexivity]. intros row c _ _. split; congruence. Qed.
Print Assumptions prune_is_sound.
Print Assumptions prune_is_effective.
