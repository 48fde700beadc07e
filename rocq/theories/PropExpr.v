(** C42: evaluating filter expressions, splitting conjunctions, row filters. *)
From Verif Require Import Base Spec CmpSpec ExprSpec Arr ArrRead ArrReadProofs ArrSlice ArrSliceProofs ArrWf ArrSliceMain ValidityModel ArrOps OpsVarBin OpsFlat OpsCanon OpsCanon2 OpsMain PropOps PropOpsX Compare CmpProofs PropCompare Layout Expr.

(** The columns of a batch, as the specification sees them. *)
Definition col_type (ns : list nat) (fls : list array) (c : field) : dtype := match col_of ns fls c with Some a => adtype a | None => DNull end.
Definition row_at (ns : list nat) (fls : list array) (i : nat) (c : field) : value := match col_of ns fls c with Some a => nth i (logical a) VNull | None => VNull end.

(** Expressions covered: columns and literals of flat types without NaN and -0.0, comparisons and connectives. Where [=] or [<>] compares
    literals (or columns that may be constant), their types must be the same, nullability included. *)
Definition safe_col (ns : list nat) (fls : list array) (e : expr field) : Prop :=
  match e with ECol c => exists a, col_of ns fls c = Some a /\ no_const a | _ => False end.
Fixpoint covered (ns : list nat) (fls : list array) (e : expr field) : Prop :=
  match e with
  | ECol c => forall a, col_of ns fls c = Some a -> flat (adtype a) = true /\ plain a
  | ELit d x => vtyped d x /\ flat d = true /\ d <> DNull /\ plain_value d x
  | EBin (BCmp op) l r => covered ns fls l /\ covered ns fls r /\
      (etype (col_type ns fls) l = etype (col_type ns fls) r \/ (op <> CEq /\ op <> CNe) \/ safe_col ns fls l \/ safe_col ns fls r)
  | EBin _ l r => covered ns fls l /\ covered ns fls r
  | _ => False
  end.

Lemma col_in ns fls c a : col_of ns fls c = Some a -> In a fls.
Proof. unfold col_of. destruct (col_pos ns c); [|discriminate]. apply nth_error_In. Qed.
Lemma plain_bool a n : adtype a = DBool n -> plain a.
Proof. intros E. unfold plain. rewrite E. apply Forall_forall. intros x _. exact I. Qed.
Definition row_good (ns : list nat) (fls : list array) (n : nat) (e : expr field) (r : array) : Prop :=
  logical r = tab n (fun i => eval_row (col_type ns fls) (row_at ns fls i) e) /\ adtype r = etype (col_type ns fls) e /\ wf fr r /\ flat (adtype r) = true /\ plain r.
Lemma tab_len_eq {A} n (f : nat -> A) l : l = tab n f -> length l = n.
Proof. intros ->. apply tab_length. Qed.
Lemma list_as_tab (l : list value) : l = tab (length l) (fun i => nth i l VNull).
Proof. apply nth_ext_len with (d := VNull); [symmetry; apply tab_length|]. intros i Hi. rewrite nth_tab by exact Hi. reflexivity. Qed.

Lemma evaluate_ok ns fls n v : wf fr (AStruct ns fls n v) -> forall e r, covered ns fls e -> evaluate e (AStruct ns fls n v) = Ok r -> row_good ns fls n e r.
Proof.
  intros W. apply wf_struct_iff in W. destruct W as (WL & WV & WF). rewrite Forall_forall in WF.
  induction e as [c|d x|op l IHl r IHr| |b cs]; intros res CV EV; cbn [evaluate] in EV; cbn [covered] in CV.
  - destruct (col_of ns fls c) as [a|] eqn:EC; [|discriminate EV]. injection EV as <-. destruct (CV a eq_refl) as [F P]. destruct (WF a (col_in _ _ _ _ EC)) as [Wa La].
    unfold row_good. cbn [eval_row etype]. unfold row_at, col_type. rewrite EC. rewrite <- La, <- logical_length. repeat split; auto. apply list_as_tab.
  - injection EV as <-. destruct CV as (T & F & N & P). cbn [alen]. unfold row_good. cbn [eval_row etype logical adtype wf]. repeat split; auto.
    + unfold tab. rewrite <- (seq_length n 0) at 1. induction (seq 0 n) as [|y s IH]; [reflexivity|]. cbn. f_equal. exact IH.
    + unfold plain. cbn [adtype logical]. apply Forall_forall. intros y Hy. apply repeat_spec in Hy. subst y. exact P.
  - inv_bind EV. rename a into A. rename a0 into B.
    assert (covered ns fls l /\ covered ns fls r) as [Cl Cr] by (destruct op; tauto).
    destruct (IHl A Cl eq_refl) as (L1 & L2 & L3 & L4 & L5). destruct (IHr B Cr eq_refl) as (R1 & R2 & R3 & R4 & R5).
    assert (forall op g, op = andb \/ op = orb -> bool_op op A B = Ok res -> (forall i, g i = spec_bool op (eval_row (col_type ns fls) (row_at ns fls i) l) (eval_row (col_type ns fls) (row_at ns fls i) r)) ->
       logical res = tab n g /\ adtype res = DBool true /\ wf fr res) as BO.
    { intros bo g HB HR HG. destruct (proj1 (and_or_are_elementwise fr A B bo HB L3 R3 eq_refl) res HR) as (_ & _ & _ & G1 & G2 & G3). split; [|auto].
      rewrite G1, L1, R1, map2_tab. apply tab_ext. intros i _. symmetry. apply HG. }
    destruct op as [op| |].
    + destruct CV as (_ & _ & FT).
      assert (eq_fits A B op) as EF.
      { destruct FT as [FT|[FT|[FT|FT]]]; [left; congruence|right; left; exact FT|right; right; left|right; right; right].
        - destruct l; try contradiction. destruct FT as (a & HC & NC). cbn [evaluate] in E. rewrite HC in E. congruence.
        - destruct r; try contradiction. destruct FT as (a & HC & NC). cbn [evaluate] in E0. rewrite HC in E0. congruence. }
      destruct (proj1 (compare_is_elementwise fr A B op L3 R3 eq_refl L4 L5 R5 EF) res EV) as (LE & _ & G1 & G2 & G3).
      unfold row_good. rewrite G1, L1, R1, map2_tab, L2. cbn [eval_row etype]. rewrite G2. repeat split; auto. eapply plain_bool; exact G2.
    + destruct (BO andb _ (or_introl eq_refl) EV (fun i => eq_refl)) as (G1 & G2 & G3). unfold row_good. cbn [eval_row etype]. rewrite G1, G2. repeat split; auto. eapply plain_bool; exact G2.
    + destruct (BO orb _ (or_intror eq_refl) EV (fun i => eq_refl)) as (G1 & G2 & G3). unfold row_good. cbn [eval_row etype]. rewrite G1, G2. repeat split; auto. eapply plain_bool; exact G2.
  - contradiction.
  - contradiction.
Qed.
(** Evaluating an expression on a batch gives, row by row, the meaning of the expression, whatever the encodings of the columns. *)
Theorem evaluate_is_rowwise :
  forall (ns : list nat) (fls : list array) (n : nat) (v : validity) (e : expr field) (r : array),
  wf fr (AStruct ns fls n v) -> covered ns fls e -> evaluate e (AStruct ns fls n v) = Ok r ->
  logical r = tab n (fun i => eval_row (col_type ns fls) (row_at ns fls i) e) /\ adtype r = etype (col_type ns fls) e.
Proof. intros ns fls n v e r W C E. destruct (evaluate_ok ns fls n v W e r C E) as (A & B & _). auto. Qed.
Print Assumptions evaluate_is_rowwise.

(** * Splitting *)
(** Splitting a filter into its conjuncts keeps the set of rows that pass, and no conjunct is a conjunction. *)
Theorem split_conjunction_keeps_meaning :
  forall (F : Type) (ty : F -> dtype) (e : expr F) (row : F -> value),
  passes ty e row = forallb (fun c => passes ty c row) (split_conjunction e) /\
  split_conjunction e <> [] /\ (forall c, In c (split_conjunction e) -> forall l r, c <> EBin BAnd l r).
Proof.
  intros F ty e row.
  assert (forall e, split_conjunction e = [e] -> (forall l r, e <> EBin BAnd l r) -> passes ty e row = forallb (fun c => passes ty c row) (split_conjunction e) /\
    split_conjunction e <> [] /\ (forall c, In c (split_conjunction e) -> forall l r, c <> EBin BAnd l r)) as ONE.
  { intros e0 -> NA. cbn [forallb]. rewrite andb_true_r. split; [reflexivity|]. split; [discriminate|]. intros c [<-|[]]. exact NA. }
  induction e as [c|d x|op l IHl r IHr| |b cs]; try (apply ONE; [reflexivity|discriminate]).
  destruct op; try (apply ONE; [reflexivity|discriminate]).
  destruct IHl as (L1 & L2 & L3). destruct IHr as (R1 & R2 & R3). cbn [split_conjunction]. rewrite forallb_app, <- L1, <- R1. split; [|split].
  - unfold passes. cbn [eval_row]. destruct (eval_row ty row l) as [|[]| | |]; try reflexivity; destruct (eval_row ty row r) as [|[]| | |]; reflexivity.
  - intros H. apply app_eq_nil in H. destruct H. auto.
  - intros c Hc. apply in_app_or in Hc. destruct Hc; auto.
Qed.
Print Assumptions split_conjunction_keeps_meaning.

(** Operator tables of expressions: the swapped operator on swapped operands means the same; the inverse is the negation on
    comparable non-null values; and / or have no inverse. *)
Theorem expr_operator_tables :
  forall (F : Type) (ty : F -> dtype) (row : F -> value) (op : bop) (l r : expr F), erase (etype ty l) = erase (etype ty r) ->
  eval_row ty row (EBin (bop_swap op) r l) = eval_row ty row (EBin op l r) /\
  match bop_inverse op with
  | None => op = BAnd \/ op = BOr
  | Some inv => forall x y, eval_row ty row l = x -> eval_row ty row r = y -> x <> VNull -> y <> VNull -> value_cmp (etype ty l) x y <> None ->
      exists b, eval_row ty row (EBin op l r) = VBool b /\ eval_row ty row (EBin inv l r) = VBool (negb b)
  end.
Proof.
  intros F ty row op l r TE. split.
  - destruct op; cbn [bop_swap eval_row].
    + rewrite <- (spec_cmp_swap (etype ty l)). apply spec_cmp_erase. symmetry. exact TE.
    + destruct (eval_row ty row l) as [|a| | |], (eval_row ty row r) as [|b| | |]; try reflexivity. cbn. rewrite andb_comm. reflexivity.
    + destruct (eval_row ty row l) as [|a| | |], (eval_row ty row r) as [|b| | |]; try reflexivity. cbn. rewrite orb_comm. reflexivity.
  - destruct op as [c| |]; cbn [bop_inverse]; auto. intros x y <- <- NX NY CM. cbn [eval_row].
    destruct (operator_inverse_is_correct (etype ty l) c (eval_row ty row l) (eval_row ty row r)) as [A B]; auto; try (destruct (eval_row ty row l); congruence || reflexivity); try (destruct (eval_row ty row r); congruence || reflexivity).
    rewrite A, B. eauto.
Qed.

(** * Row filters *)
Lemma count_app {A} (g : A -> bool) l r : count g (l ++ r) = count g l + count g r.
Proof. unfold count. rewrite filter_app, app_length. reflexivity. Qed.
Lemma true_count_ok : forall a k, true_count a = Some k -> count is_true (logical a) = k.
Proof.
  apply (array_ind' (fun a => forall k, true_count a = Some k -> count is_true (logical a) = k)); try (intros; discriminate).
  - intros o b n v k. cbn [true_count]. destruct (n =? 0); [discriminate|]. congruence.
  - intros d x n k. cbn [true_count]. destruct x as [|[]| | |]; try discriminate; intros [= <-]; cbn [logical]; unfold count; induction n as [|n IH]; cbn; congruence.
  - intros d cs IH k. cbn [true_count logical]. destruct cs as [|c0 cs]; [discriminate|]. cbn [map concat]. inversion IH as [|? ? H0 HR]; subst. clear IH.
    rewrite count_app. destruct (true_count c0) as [k0|] eqn:E0.
    + rewrite (H0 k0 eq_refl). clear H0 E0 c0. revert k0. induction cs as [|c cs IH]; intros k0; cbn [map fold_left concat]; [intros [= <-]; unfold count; cbn; lia|].
      inversion HR as [|? ? H1 HR']; subst. destruct (true_count c) as [k1|] eqn:E1; [|clear; intros H; exfalso; revert H; induction (map true_count cs); cbn; [discriminate|assumption]].
      intros H. specialize (IH HR' _ H). rewrite count_app, (H1 k1 eq_refl). lia.
    + clear. intros H. exfalso. revert H. induction (map true_count cs); cbn; [discriminate|assumption].
  - intros l v k. cbn [true_count]. destruct (length l =? 0); [discriminate|]. congruence.
Qed.
(** The count of true rows is missing only where there are none. *)
Definition counted (a : array) : Prop := true_count a = None -> count is_true (logical a) = 0.
Lemma counted_zero a : counted a -> match true_count a with Some n => n | None => 0 end =? 0 = true -> forall i, is_true (nth i (logical a) VNull) = false.
Proof.
  intros C H i. assert (count is_true (logical a) = 0) as Z. { destruct (true_count a) as [k|] eqn:E; [|auto]. apply Nat.eqb_eq in H. subst k. apply true_count_ok, E. }
  unfold count in Z. destruct (is_true (nth i (logical a) VNull)) eqn:T; [|reflexivity]. exfalso.
  assert (In (nth i (logical a) VNull) (filter is_true (logical a))) as HI. { apply filter_In. split; [|exact T]. destruct (Nat.lt_ge_cases i (length (logical a))); [apply nth_In; assumption|]. rewrite nth_overflow in T by assumption. discriminate T. }
  destruct (filter is_true (logical a)); [destruct HI|discriminate Z].
Qed.
Lemma counted_bool a : is_boolarray a = true \/ is_const a = true -> counted a.
Proof.
  unfold counted. destruct a as [|o b n v| | | | | |d x n| | | | | | | |]; try (intros [|]; discriminate).
  - intros _. cbn [true_count]. destruct (Nat.eqb_spec n 0) as [->|]; [reflexivity|discriminate].
  - intros _. cbn [true_count]. destruct x as [|[]| | |]; try discriminate; intros _; cbn [logical]; unfold count; induction n as [|n IH]; auto.
Qed.
Lemma bool_kernel_shape op a b r : bool_kernel op a b = Ok r -> is_boolarray r = true.
Proof. unfold bool_kernel. intros H. inv_bind H. destruct a0; try discriminate H. destruct a1; try discriminate H. inv_bind H. injection H as <-. reflexivity. Qed.
Lemma bool_op_shape op a b r : bool_op op a b = Ok r -> is_boolarray r = true \/ (is_const a = true /\ is_const b = true /\ is_const r = true).
Proof.
  unfold bool_op. intros H. inv_bind H.
  assert (forall d x n a b, is_const a = true -> const_bool op d x n a b = Ok r -> is_boolarray r = true \/ (is_const b = true /\ is_const r = true)) as CB.
  { intros d x n a' b' CA HB. unfold const_bool in HB. destruct b'; try discriminate HB; [left; eapply bool_kernel_shape; exact HB|]. inv_bind HB. injection HB as <-. auto. }
  destruct (is_const a) eqn:CA.
  { destruct a; try discriminate CA. destruct (CB _ _ _ _ _ CA H) as [X|[X Y]]; [left; exact X|right; auto]. }
  assert (forall c, (do c <- canon c; match c with ABool _ _ _ _ => bool_kernel op c b | _ => Err end) = Ok r -> is_boolarray r = true) as FB.
  { intros c HB. inv_bind HB. destruct a0; try discriminate HB. eapply bool_kernel_shape; exact HB. }
  left. destruct (is_boolarray a) eqn:BA; [destruct a; try discriminate BA; eapply bool_kernel_shape; exact H|].
  destruct (is_const b) eqn:CB'.
  { destruct b; try discriminate CB'. destruct a; try discriminate CA; try discriminate BA; destruct (CB _ _ _ _ _ CB' H) as [X|[X Y]]; try exact X; discriminate X. }
  destruct (is_boolarray b) eqn:BB.
  { destruct b; try discriminate BB. destruct a; try discriminate CA; try discriminate BA; eapply bool_kernel_shape; exact H. }
  destruct a; try discriminate CA; try discriminate BA; (destruct b; try discriminate CB'; try discriminate BB; eapply FB; exact H).
Qed.

Lemma null_as_false_rows bits v : vwf v (length bits) -> logical (null_as_false bits v) = tab (length bits) (fun i => VBool (vvalid v i && nth i bits false)) /\ adtype (null_as_false bits v) = DBool false.
Proof.
  intros W. split; [|destruct v; reflexivity]. destruct v as [| | |w]; cbn [null_as_false logical]; apply tab_ext; intros i Hi; cbn [vvalid]; rewrite Nat.add_0_l; cbn; try reflexivity.
  - rewrite nth_repeat. reflexivity.
  - rewrite (nth_map2 andb bits w i false false) by (auto; symmetry; exact W). rewrite andb_comm. reflexivity.
Qed.
Definition all_true (ns : list nat) (fls : list array) (i : nat) (es : list (expr field)) : bool := forallb (fun c => passes (col_type ns fls) c (row_at ns fls i)) es.
Lemma filter_loop_ok ns fls n v : wf fr (AStruct ns fls n v) -> forall es mask res (pre : nat -> bool),
  Forall (covered ns fls) es -> wf fr mask -> (es = [] -> is_bool (adtype mask) = true) -> alen mask = n -> (es <> [] -> counted mask) ->
  (forall i, i < n -> is_true (nth i (logical mask) VNull) = pre i) -> filter_loop es mask (AStruct ns fls n v) = Ok res ->
  logical res = tab n (fun i => VBool (pre i && all_true ns fls i es)) /\ adtype res = DBool false.
Proof.
  intros W. induction es as [|e es IH]; intros mask res pre CV WM BM LM CM PM H; cbn [filter_loop] in H.
  - specialize (BM eq_refl). inv_bind H. match type of E with _ = Ok ?q => destruct q as [bits w] end. injection H as <-. destruct (adtype mask) as [|nb| | | | |] eqn:DM; try discriminate BM.
    pose proof (into_bool_ok fr mask (canon mask) nb (canon_pl fr mask WM eq_refl) DM) as IB. rewrite E in IB. cbn [outc] in IB. destruct IB as (L1 & L2 & L3 & L4). cbn [fst snd] in *.
    destruct (null_as_false_rows bits w L3) as [N1 N2]. split; [|exact N2]. rewrite N1, L1, LM. apply tab_ext. intros i Hi. cbn [all_true forallb]. rewrite andb_true_r.
    rewrite <- (PM i Hi), L4, nth_tab by lia. destruct (vvalid w i); reflexivity.
  - inversion CV as [|? ? C0 CR]; subst. specialize (CM ltac:(discriminate)).
    destruct (match true_count mask with Some k => k | None => 0 end =? 0) eqn:EZ.
    + injection H as <-. split; [|reflexivity]. cbn [logical alen]. pose proof (counted_zero mask CM EZ) as Z.
      assert (forall m, repeat (VBool false) m = tab m (fun _ => VBool false)) as RT. { intros m. unfold tab. rewrite <- (seq_length m 0) at 1. induction (seq 0 m) as [|y s IHs]; [reflexivity|]. cbn. f_equal. exact IHs. }
      rewrite RT. apply tab_ext. intros i Hi. rewrite <- (PM i Hi), Z. reflexivity.
    + inv_bind H. destruct (evaluate_ok ns fls (alen mask) v W e a C0 E) as (V1 & V2 & V3 & V4 & V5).
      destruct (proj1 (and_or_are_elementwise fr a mask andb (or_introl eq_refl) V3 WM eq_refl) a0 E0) as (G1 & G2 & G3 & G4 & G5 & G6).
      specialize (IH a0 res (fun i => passes (col_type ns fls) e (row_at ns fls i) && pre i) CR G6).
      assert (logical res = tab (alen mask) (fun i => VBool ((passes (col_type ns fls) e (row_at ns fls i) && pre i) && all_true ns fls i es)) /\ adtype res = DBool false) as [R1 R2].
      { apply IH; clear IH; try exact H.
        - intros _. rewrite G5. reflexivity.
        - rewrite <- !logical_length, G4, map2_length by exact G1. rewrite G1. reflexivity.
        - intros _. apply counted_bool. destruct (bool_op_shape andb a mask a0 E0) as [X|(_ & _ & X)]; auto.
        - intros i Hi. rewrite G4. rewrite (nth_map2 (spec_bool andb) (logical a) (logical mask) i VNull VNull VNull) by (try exact G1; rewrite G1, logical_length; exact Hi).
          rewrite V1, nth_tab by exact Hi. rewrite <- (PM i Hi). unfold passes. destruct (eval_row (col_type ns fls) (row_at ns fls i) e) as [|[]| | |]; try reflexivity; destruct (nth i (logical mask) VNull) as [|[]| | |]; reflexivity. }
      split; [|exact R2]. rewrite R1. apply tab_ext. intros i Hi. f_equal. cbn [all_true forallb]. destruct (passes (col_type ns fls) e (row_at ns fls i)), (pre i); reflexivity.
Qed.

(** A row filter evaluated conjunct by conjunct gives a non-null mask that is true exactly for the rows that pass the original expression,
    provided the count of the first conjunct's true rows is missing only where there are none ([counted]; see below). *)
Theorem row_filter_is_the_filter :
  forall (ns : list nat) (fls : list array) (n : nat) (v : validity) (e : expr field) (m : array),
  wf fr (AStruct ns fls n v) -> Forall (covered ns fls) (split_conjunction e) -> is_bool (etype (col_type ns fls) e) = true ->
  (forall e0 e1 rest m0, split_conjunction e = e0 :: e1 :: rest -> evaluate e0 (AStruct ns fls n v) = Ok m0 -> counted m0) ->
  row_filter e (AStruct ns fls n v) = Ok m ->
  logical m = tab n (fun i => VBool (passes (col_type ns fls) e (row_at ns fls i))) /\ adtype m = DBool false.
Proof.
  intros ns fls n v e m W CV BT CT H. unfold row_filter in H. pose proof (fun row => proj1 (split_conjunction_keeps_meaning field (col_type ns fls) e row)) as SM.
  assert (forall e0, split_conjunction e = [e0] -> e0 = e) as SING.
  { intros e0. destruct e as [ | |[]| | ]; cbn [split_conjunction]; try congruence. intros H1. exfalso.
    destruct (split_conjunction_keeps_meaning field (col_type ns fls) e1 (row_at ns fls 0)) as (_ & A & _). destruct (split_conjunction_keeps_meaning field (col_type ns fls) e2 (row_at ns fls 0)) as (_ & B & _).
    destruct (split_conjunction e1) as [|x [|]], (split_conjunction e2); try congruence; discriminate H1. }
  destruct (split_conjunction e) as [|e0 rest] eqn:ES; [discriminate H|]. inversion CV as [|? ? C0 CR]; subst. inv_bind H. rename a into mask.
  destruct (evaluate_ok ns fls n v W e0 mask C0 E) as (V1 & V2 & V3 & V4 & V5).
  assert (LM : alen mask = n) by (rewrite <- logical_length, V1; apply tab_length).
  assert (logical m = tab n (fun i => VBool (passes (col_type ns fls) e0 (row_at ns fls i) && all_true ns fls i rest)) /\ adtype m = DBool false) as [R1 R2].
  { apply (filter_loop_ok ns fls n v W rest mask m (fun i => passes (col_type ns fls) e0 (row_at ns fls i)) CR V3).
    - intros ->. rewrite V2, (SING e0 eq_refl). exact BT.
    - exact LM.
    - intros NR. destruct rest as [|e1 rest]; [congruence|]. apply (CT e0 e1 rest mask eq_refl E).
    - intros i Hi. rewrite V1, nth_tab by exact Hi. unfold passes. destruct (eval_row _ _ e0) as [|[]| | |]; reflexivity.
    - exact H. }
  split; [|exact R2]. rewrite R1. apply tab_ext. intros i _. rewrite SM. reflexivity.
Qed.
Print Assumptions row_filter_is_the_filter.

(** * When evaluation succeeds *)
Lemma wf_fr : forall a g, ArrWf.fc g = true -> fC g = true -> fv g = true -> wf g a -> wf fr a.
Proof.
  apply (array_ind' (fun a => forall g, ArrWf.fc g = true -> fC g = true -> fv g = true -> wf g a -> wf fr a)).
  Ltac gtac := intuition (try congruence; try discriminate).
  - intros; exact I.
  - intros o b n v g C CC V W. exact W.
  - intros p l v g C CC V W. exact W.
  - intros u vs bufs v g C CC V (W1 & W2 & W3 & W4). cbn [wf]. repeat split; auto. discriminate.
  - intros u offs bytes v IH g C CC V (W1 & W2 & W3 & W4 & W5 & W6 & W7 & W8 & W9 & W10 & W11 & W12). cbn [wf]. repeat split; auto; try (apply (IH g); assumption).
  - intros ns fls n v IH g C CC V W. apply wf_struct_iff in W. apply wf_struct_iff. destruct W as (W1 & W2 & W3). repeat split; auto. rewrite Forall_forall in *. intros x Hx. destruct (W3 x Hx). split; [apply (IH x Hx g); assumption|assumption].
  - intros id st IH g C CC V (W1 & W2). split; [apply (IH g); assumption|reflexivity].
  - intros d x n g C CC V (W1 & W2). split; [exact W1|intros _; apply W2, CC].
  - intros idx vals off len fill IH1 IH2 g C CC V W. cbn [wf] in W. destruct W as (W1 & W2 & W3 & W4 & W5 & W6 & W7 & W8 & W9 & W10 & W11 & W12 & W13).
    cbn [wf]. split; [apply (IH1 (sliceable g)); assumption|]. split; [apply (IH2 (sliceable g)); assumption|]. do 8 (split; [assumption|]). split; [intros _; apply W11, C|]. split; [intros _; apply W12, V|]. intros [H|[H|H]]; discriminate H.
  - intros d cs IH g C CC V W. cbn [wf] in W. destruct W as (W1 & W2 & W3 & W4 & W5 & W6 & W7 & W8). apply wf_chunks_iff in W1. cbn [wf]. rewrite wf_chunks_iff. split.
    + rewrite Forall_forall in *. intros x Hx. destruct (W1 x Hx). split; [apply (IH x Hx g); assumption|assumption].
    + repeat split; try discriminate. left; reflexivity. intros _. apply W8, CC.
  - intros c vals IH1 IH2 g C CC V W. cbn [wf] in W. destruct W as (W1 & W2 & W3 & W4 & W5 & W6 & W7 & W8). cbn [wf]. split; [apply (IH1 g); assumption|]. split; [apply (IH2 g); assumption|]. do 3 (split; [assumption|]). split; [intros _; apply W6, V|]. split; discriminate.
  - intros e vals v off len IH1 IH2 g C CC V W. cbn [wf] in W. destruct W as (W1 & W2 & W3 & W4 & W5 & W6 & W7 & W8 & W9 & W10 & W11 & W12 & W13 & W14 & W15 & W16).
    cbn [wf]. split; [apply (IH1 g); assumption|]. split; [apply (IH2 g); assumption|]. do 9 (split; [assumption|]). split; [reflexivity|]. split; [intros _; apply W13, C|]. split; [discriminate|]. split; [reflexivity|]. intros [H|[H|H]]; discriminate H.
  - intros p e ref shift IH g C CC V (W1 & W2). cbn [wf]. split; [apply (IH g); assumption|exact W2].
  - intros e IH g C CC V (W1 & W2 & W3). cbn [wf]. split; [apply (IH g); assumption|]. split; [exact W2|]. intros [H|[H|H]]; discriminate H.
  - intros p packed bw off len v q IH g C CC V W. cbn [wf] in W. destruct W as (W1 & W2 & W3 & W4 & W5 & W6 & W7 & W8). cbn [wf]. do 6 (split; [assumption|]). split; [|intros [H|[H|H]]; discriminate H].
    destruct q as [q|]; [|exact I]. destruct W7 as (Q1 & Q2 & Q3 & Q4 & Q5). split; [apply (IH g); assumption|]. do 2 (split; [assumption|]). split; [discriminate|exact Q5].
  - intros l v g C CC V (W1 & W2 & W3). cbn [wf]. repeat split; auto; discriminate.
Qed.

Definition pure (a : array) : Prop := no_const a \/ is_const a = true.
Lemma try_bool_shape o b n v r : try_bool o b n v = Ok r -> is_boolarray r = true.
Proof. unfold try_bool. destruct (vfits v n); [|discriminate]. intros [= <-]. reflexivity. Qed.
Lemma arrow_kernel_shape d op l v r w x : arrow_kernel d op l v r w = Ok x -> is_boolarray x = true.
Proof. unfold arrow_kernel. intros H. inv_bind H. injection H as <-. reflexivity. Qed.
Lemma arrow_cmp_shape op a b x : arrow_cmp op a b = Ok x -> is_boolarray x = true.
Proof. unfold arrow_cmp. destruct (arrow_form a) as [[[d l] v]|]; [|discriminate]. destruct (arrow_form b) as [[[e r] w]|]; [|discriminate]. destruct (dtype_eqb d e); [|discriminate]. apply arrow_kernel_shape. Qed.
Lemma bool_no_const a : is_boolarray a = true -> no_const a.
Proof. destruct a; try discriminate. intros _. exact I. Qed.
Lemma slice_pure b i j s : pure b -> slice b i j = Ok s -> pure s /\ is_const s = is_const b.
Proof.
  intros P E. destruct b; try (destruct P as [P|P]; [|discriminate P]; destruct (slice_shape _ i j s E) as [(_ & N & _) _]; specialize (N P); split; [left; exact N|destruct s; try reflexivity; destruct N]).
  cbn [slice] in E. inv_bind E. injection E as <-. split; [right|]; reflexivity.
Qed.
(** An encoding's own comparison with a non-chunked left side gives a BoolArray. *)
Lemma own_shape k a b op r : flat (adtype a) = true -> is_chunked a = false -> is_const a = false -> own k a b op = Some (Ok r) -> is_boolarray r = true.
Proof.
  intros F CH CA H. destruct a; try discriminate CH; try discriminate CA; try discriminate F; cbn [own] in H; try discriminate H.
  - destruct b; try discriminate H; injection H as H.
    + unfold prim_compare in H. inv_bind H. eapply try_bool_shape, H.
    + unfold prim_const_compare in H. destruct x; try discriminate H. eapply try_bool_shape, H.
  - destruct b; try discriminate H; injection H as H. inv_bind H. match type of H with context [arrow_form ?t] => destruct (arrow_form t) as [[[d' l] w]|]; [|discriminate H] end. eapply arrow_kernel_shape, H.
  - destruct b; try discriminate H; injection H as H. unfold varbin_const_compare in H. inv_bind H. match type of E with _ = Ok ?t => destruct t as [[q ol] w] end. destruct q; try discriminate H; inv_bind H; eapply arrow_kernel_shape, H.
Qed.
Lemma compare_no_const k : forall a b op r, compare_ k a b op = Ok r -> flat (adtype a) = true -> pure a -> pure b -> is_const a && is_const b = false -> no_const r.
Proof.
  induction k as [|k IH]; intros a b op r H F Pa Pb NC; [discriminate H|]. rewrite compare_S in H. inv_bind H.
  apply negb_false_iff in C0. apply dtype_eqb_eq in C0. assert (flat (adtype b) = true) as Fb by (rewrite <- (erase_flat _ _ C0); exact F).
  - apply (IH b a (cop_swap op) r H Fb Pb Pa). rewrite andb_comm. exact NC.
  - apply negb_false_iff in C0. apply dtype_eqb_eq in C0. assert (flat (adtype b) = true) as Fb by (rewrite <- (erase_flat _ _ C0); exact F).
    assert (is_const a = false) as CA by (destruct (is_const a), (is_const b); auto; discriminate).
    assert (forall d cs b op, own k (AChunked d cs) b op = Some (Ok r) -> no_const (AChunked d cs) -> pure b -> flat (adtype b) = true -> no_const r) as CHK.
    { clear - IH. intros d cs b op H N P F. cbn [own] in H. injection H as H. unfold chunked_cmp in H.
      match type of H with bind ?u _ = _ => destruct u as [[n0 rs]| |] eqn:EF; cbn [bind] in H; try discriminate H end.
      unfold try_chunked in H. destruct (forallb _ rs); [|discriminate H]. injection H as <-. apply no_const_chunks. apply no_const_chunks in N. cbn [snd].
      assert (forall cs (st st' : nat * list array), Forall no_const cs -> Forall no_const (snd st) ->
        foldM (fun (st : nat * list array) c => do s <- slice b (fst st) (fst st + alen c); do r <- compare_ k c s op; Ok (fst st + alen c, snd st ++ [r])) st cs = Ok st' -> Forall no_const (snd st')) as G.
      { clear - IH P F. induction cs as [|c cs IHc]; intros st st' N S0 E; cbn [foldM] in E; [injection E as <-; exact S0|]. inversion N; subst. inv_bind E.
        eapply IHc; [assumption| |exact E]. inv_bind E0. injection E0 as <-. cbn [snd]. apply Forall_app. split; [exact S0|]. constructor; [|constructor].
        destruct (slice_pure _ _ _ _ P E1) as [P1 P2]. destruct (slice_shape _ _ _ _ E1) as [_ DS].
        eapply IH; [exact E2| |left; assumption|exact P1|].
        - destruct k; [discriminate E2|]. rewrite compare_S in E2. destruct (negb (alen c =? alen a0)); [discriminate E2|]. destruct (dtype_eqb (erase (adtype c)) (erase (adtype a0))) eqn:ED; [|discriminate E2]. apply dtype_eqb_eq in ED. rewrite (erase_flat _ _ ED), DS. exact F.
        - destruct c; try reflexivity. contradiction. }
      exact (G cs (0, []) (n0, rs) N (Forall_nil _) EF). }
    assert (no_const a) as Na by (destruct Pa as [Pa|Pa]; [exact Pa|congruence]).
    destruct (own k a b op) as [x|] eqn:EO.
    + subst x. destruct (is_chunked a) eqn:CH; [destruct a; try discriminate CH; exact (CHK _ _ _ _ EO Na Pb Fb)|]. apply bool_no_const. exact (own_shape _ _ _ _ _ F CH CA EO).
    + destruct (own k b a (cop_swap op)) as [x|] eqn:EO2.
      * subst x. destruct (is_const b) eqn:CB; [exfalso; destruct b; try discriminate CB; cbn [own] in EO2; destruct a; try discriminate EO2; discriminate CA|].
        assert (no_const b) as Nb by (destruct Pb as [Pb|Pb]; [exact Pb|congruence]).
        destruct (is_chunked b) eqn:CH; [destruct b; try discriminate CH; exact (CHK _ _ _ _ EO2 Nb Pa F)|]. apply bool_no_const. exact (own_shape _ _ _ _ _ Fb CH CB EO2).
      * inv_bind H. apply bool_no_const. eapply arrow_cmp_shape, H.
Qed.
Lemma compare_bool_shape k : forall a b op r, compare_ k a b op = Ok r -> flat (adtype a) = true -> is_chunked a = false -> is_chunked b = false -> is_boolarray r = true \/ is_const r = true.
Proof.
  induction k as [|k IH]; intros a b op r H F Pa Pb; [discriminate H|]. rewrite compare_S in H. inv_bind H.
  all: apply negb_false_iff in C0; apply dtype_eqb_eq in C0; assert (flat (adtype b) = true) as Fb by (rewrite <- (erase_flat _ _ C0); exact F).
  - apply (IH b a (cop_swap op) r H Fb Pb Pa).
  - destruct (is_const a) eqn:CA.
    + destruct (is_const b) eqn:CB; [|discriminate C1]. destruct a; try discriminate CA. destruct b; try discriminate CB. cbn [own] in H. inv_bind H. injection H as <-. right. reflexivity.
    + left. destruct (own k a b op) as [x|] eqn:EO; [subst x; exact (own_shape _ _ _ _ _ F Pa CA EO)|].
      destruct (own k b a (cop_swap op)) as [x|] eqn:EO2.
      * subst x. destruct (is_const b) eqn:CB; [exfalso; destruct b; try discriminate CB; cbn [own] in EO2; destruct a; try discriminate EO2; discriminate CA|]. exact (own_shape _ _ _ _ _ Fb Pb CB EO2).
      * inv_bind H. eapply arrow_cmp_shape, H.
Qed.

(** Filters whose evaluation always succeeds: boolean columns, comparisons of a column with a column or a non-null literal of the same type,
    and their combinations; no ConstantArray columns, no strings with 64-bit offsets. *)
Definition total_col (ns : list nat) (fls : list array) (c : field) (d : dtype) : Prop :=
  exists a, col_of ns fls c = Some a /\ no_const a /\ small_strings a /\ flat (adtype a) = true /\ plain a /\ erase (adtype a) = erase d.
Inductive total_filter (ns : list nat) (fls : list array) : expr field -> Prop :=
| T_col c n : total_col ns fls c (DBool n) -> total_filter ns fls (ECol c)
| T_cols c c' d op : total_col ns fls c d -> total_col ns fls c' d -> total_filter ns fls (EBin (BCmp op) (ECol c) (ECol c'))
| T_lit_r c d x op : total_col ns fls c d -> covered ns fls (ELit d x) -> x <> VNull -> total_filter ns fls (EBin (BCmp op) (ECol c) (ELit d x))
| T_lit_l c d x op : total_col ns fls c d -> covered ns fls (ELit d x) -> x <> VNull -> total_filter ns fls (EBin (BCmp op) (ELit d x) (ECol c))
| T_and l r : total_filter ns fls l -> total_filter ns fls r -> total_filter ns fls (EBin BAnd l r)
| T_or l r : total_filter ns fls l -> total_filter ns fls r -> total_filter ns fls (EBin BOr l r).
Lemma total_covered ns fls e : total_filter ns fls e -> covered ns fls e /\ is_bool (etype (col_type ns fls) e) = true.
Proof.
  assert (forall c d, total_col ns fls c d -> covered ns fls (ECol c)) as TC by (intros c d (a & E & _ & _ & F & P & _); cbn [covered]; intros a' E'; rewrite E in E'; injection E' as <-; auto).
  assert (forall c d, total_col ns fls c d -> safe_col ns fls (ECol c)) as SC by (intros c d (a & E & N & _); exists a; auto).
  induction 1 as [c n H|c c' d op H H'|c d x op H H' X|c d x op H H' X|l r H1 IH1 H2 IH2|l r H1 IH1 H2 IH2]; cbn [covered] in *.
  - split; [eapply TC; exact H|]. destruct H as (a & E & _ & _ & _ & _ & DE). cbn [etype]. unfold col_type. rewrite E. destruct (adtype a); try discriminate DE. reflexivity.
  - split; [|reflexivity]. split; [eapply TC, H|]. split; [eapply TC, H'|]. right. right. left. eapply SC, H.
  - split; [|reflexivity]. split; [eapply TC, H|]. split; [exact H'|]. right. right. left. eapply SC, H.
  - split; [|reflexivity]. split; [exact H'|]. split; [eapply TC, H|]. right. right. right. eapply SC, H.
  - destruct IH1, IH2. auto.
  - destruct IH1, IH2. auto.
Qed.
Lemma evaluate_total_ok g ns fls n v : fs g = true -> ArrWf.fc g = true -> fC g = true -> fv g = true -> wf g (AStruct ns fls n v) ->
  forall e, total_filter ns fls e -> exists r, evaluate e (AStruct ns fls n v) = Ok r /\ no_const r.
Proof.
  intros FS FC FCC FV W. pose proof (wf_fr _ g FC FCC FV W) as WR. pose proof W as W'. apply wf_struct_iff in W'. destruct W' as (_ & _ & WF). rewrite Forall_forall in WF.
  assert (forall op x y, wf g x -> wf g y -> flat (adtype x) = true -> plain x -> plain y -> alen x = alen y -> erase (adtype x) = erase (adtype y) -> sides_fit x y -> pure x -> pure y -> is_const x && is_const y = false ->
    exists r, compare x y op = Ok r /\ no_const r) as CMP.
  { intros op x y Wx Wy F Px Py L E S P1 P2 NC. assert (eq_fits x y op) as EF. { destruct P1 as [P1|P1]; [right; right; left; exact P1|]. destruct P2 as [P2|P2]; [right; right; right; exact P2|]. rewrite P1, P2 in NC. discriminate NC. }
    destruct (proj2 (compare_is_elementwise g x y op Wx Wy FC F Px Py EF)) as [r Hr]; [rewrite !logical_length; exact L|exact E|split; [exact FCC|split; [left; exact FS|exact S]]|].
    exists r. split; [exact Hr|]. eapply compare_no_const; [exact Hr| | | |]; assumption. }
  assert (forall d x, covered ns fls (ELit d x) -> wf g (AConst d x n) /\ plain (AConst d x n)) as LIT.
  { intros d x (T & F & N & P). split; [cbn [wf]; auto|]. unfold plain. cbn [adtype logical]. apply Forall_forall. intros y Hy. apply repeat_spec in Hy. subst y. exact P. }
  assert (forall a, no_const a -> is_const a = false) as NCI by (intros []; auto; intros []).
  assert (forall bo l r x y, bo = andb \/ bo = orb -> total_filter ns fls l -> total_filter ns fls r -> evaluate l (AStruct ns fls n v) = Ok x -> evaluate r (AStruct ns fls n v) = Ok y -> no_const x -> no_const y -> exists z, bool_op bo x y = Ok z /\ no_const z) as BOP.
  { intros bo l r x y HB Tl Tr El Er Nx Ny. destruct (total_covered _ _ _ Tl) as [Cl Bl]. destruct (total_covered _ _ _ Tr) as [Cr Br].
    destruct (evaluate_ok ns fls n v WR l x Cl El) as (L1 & L2 & L3 & _). destruct (evaluate_ok ns fls n v WR r y Cr Er) as (R1 & R2 & R3 & _).
    destruct (proj2 (and_or_are_elementwise fr x y bo HB L3 R3 eq_refl)) as [z Hz]; [reflexivity|rewrite L1, R1, !tab_length; reflexivity|rewrite L2; exact Bl|rewrite R2; exact Br|split; intros K; rewrite NCI in K by assumption; discriminate K|].
    exists z. split; [exact Hz|]. destruct (bool_op_shape bo x y z Hz) as [B|(B & _)]; [apply bool_no_const, B|rewrite NCI in B by assumption; discriminate B]. }
  induction 1 as [c m H|c c' d op H H'|c d x op H H' X|c d x op H H' X|l r H1 IH1 H2 IH2|l r H1 IH1 H2 IH2]; cbn [evaluate].
  - destruct H as (a & E & N & _). rewrite E. eauto.
  - destruct H as (a & E & N & S1 & F & P & DE). destruct H' as (a' & E' & N' & S1' & F' & P' & DE'). rewrite E, E'. cbn [bind]. destruct (WF a (col_in _ _ _ _ E)) as [Wa La]. destruct (WF a' (col_in _ _ _ _ E')) as [Wa' La'].
    apply (CMP op a a' Wa Wa' F P P' ltac:(congruence) ltac:(congruence)); [left; auto|left; exact N|left; exact N'|rewrite (NCI a N); reflexivity].
  - destruct H as (a & E & N & S1 & F & P & DE). destruct (LIT d x H') as [Wl Pl]. rewrite E. cbn [bind alen]. destruct (WF a (col_in _ _ _ _ E)) as [Wa La].
    apply (CMP op a (AConst d x n) Wa Wl F P Pl La DE); [right; right; left; auto|left; exact N|right; reflexivity|rewrite (NCI a N); reflexivity].
  - destruct H as (a & E & N & S1 & F & P & DE). destruct (LIT d x H') as [Wl Pl]. rewrite E. cbn [bind alen]. destruct (WF a (col_in _ _ _ _ E)) as [Wa La].
    apply (CMP op (AConst d x n) a Wl Wa (proj1 (proj2 H')) Pl P (eq_sym La) (eq_sym DE)); [right; left; auto|right; reflexivity|left; exact N|rewrite (NCI a N); reflexivity].
  - destruct IH1 as (x & E1 & N1). destruct IH2 as (y & E2 & N2). rewrite E1, E2. cbn [bind]. apply (BOP andb l r); auto.
  - destruct IH1 as (x & E1 & N1). destruct IH2 as (y & E2 & N2). rewrite E1, E2. cbn [bind]. apply (BOP orb l r); auto.
Qed.
Theorem evaluate_total :
  forall (g : flags) (ns : list nat) (fls : list array) (n : nat) (v : validity) (e : expr field),
  fs g = true -> ArrWf.fc g = true -> fC g = true -> fv g = true -> wf g (AStruct ns fls n v) -> total_filter ns fls e ->
  exists r, evaluate e (AStruct ns fls n v) = Ok r.
Proof. intros g ns fls n v e H1 H2 H3 H4 W T. destruct (evaluate_total_ok g ns fls n v H1 H2 H3 H4 W e T) as (r & E & _). eauto. Qed.
Print Assumptions evaluate_total.
Lemma total_conjuncts ns fls e : total_filter ns fls e -> Forall (total_filter ns fls) (split_conjunction e).
Proof.
  intros T. pose proof T as T'. induction T as [c n H|c c' d op H H'|c d x op H H' X|c d x op H H' X|l r H1 IH1 H2 IH2|l r H1 IH1 H2 IH2]; try (constructor; [exact T'|constructor]).
  cbn [split_conjunction]. apply Forall_app. auto.
Qed.
(** ... and so does the row filter made of it. *)
Theorem row_filter_total :
  forall (g : flags) (ns : list nat) (fls : list array) (n : nat) (v : validity) (e : expr field),
  fs g = true -> ArrWf.fc g = true -> fC g = true -> fv g = true -> wf g (AStruct ns fls n v) -> total_filter ns fls e ->
  exists m, row_filter e (AStruct ns fls n v) = Ok m.
Proof.
  intros g ns fls n v e H1 H2 H3 H4 W T. pose proof (evaluate_total_ok g ns fls n v H1 H2 H3 H4 W) as TOT. pose proof (wf_fr _ g H2 H3 H4 W) as WR.
  pose proof (total_conjuncts ns fls e T) as TC. destruct (split_conjunction_keeps_meaning field (col_type ns fls) e (row_at ns fls 0)) as (_ & NE & _). unfold row_filter.
  destruct (split_conjunction e) as [|e0 es]; [congruence|]. inversion TC as [|? ? T0 TR]; subst. destruct (TOT e0 T0) as (m & E & N). rewrite E. cbn [bind].
  destruct (total_covered _ _ _ T0) as [C0 B0]. destruct (evaluate_ok ns fls n v WR e0 m C0 E) as (L1 & L2 & L3 & _).
  assert (is_bool (adtype m) = true) as BM by (rewrite L2; exact B0). assert (length (logical m) = n) as LM by (rewrite L1; apply tab_length). clear - TR TOT WR BM LM L3 N. revert m BM LM L3 N.
  induction es as [|e es IH]; intros m BM LM L3 N; cbn [filter_loop].
  - destruct (adtype m) as [|nb| | | | |] eqn:DM; try discriminate BM. pose proof (into_bool_ok fr m (canon m) nb (canon_pl fr m L3 eq_refl) DM) as IB.
    destruct (into_bool (canon m)) as [[b w]| |]; cbn [bind]; [eauto| |]; cbn [outc fr fC] in IB; congruence.
  - destruct (match true_count m with Some k => k | None => 0 end =? 0); [eauto|]. inversion TR as [|? ? T0 TR']; subst. destruct (TOT e T0) as (x & E & Nx). rewrite E. cbn [bind].
    destruct (total_covered _ _ _ T0) as [C0 B0]. destruct (evaluate_ok ns fls _ v WR e x C0 E) as (X1 & X2 & X3 & _).
    assert (forall a, no_const a -> is_const a = false) as NCI by (intros []; auto; intros []).
    destruct (and_or_are_elementwise fr x m andb (or_introl eq_refl) X3 L3 eq_refl) as [AE AT].
    destruct AT as [z Hz]; [reflexivity|rewrite X1, tab_length; reflexivity|rewrite X2; exact B0|exact BM|split; intros K; rewrite NCI in K by assumption; discriminate K|].
    unfold and_. rewrite Hz. cbn [bind]. destruct (AE z Hz) as (G1 & G2 & G3 & G4 & G5 & G6). apply (IH TR').
    + rewrite G5. reflexivity.
    + rewrite G4, map2_length by exact G1. exact G1.
    + exact G6.
    + destruct (bool_op_shape andb x m z Hz) as [B|(B & _)]; [apply bool_no_const, B|rewrite NCI in B by assumption; discriminate B].
Qed.
Print Assumptions row_filter_total.

(** * When the count of true rows is missing *)
(** First conjuncts whose count is never missing on non-empty results: disjunctions, literals, BoolArray columns, comparisons between
    literals and columns that are not chunked. *)
Definition unchunked (ns : list nat) (fls : list array) (e : expr field) : Prop :=
  match e with ECol c => forall a, col_of ns fls c = Some a -> is_chunked a = false /\ flat (adtype a) = true | ELit d _ => flat d = true | _ => False end.
Definition countable (ns : list nat) (fls : list array) (e : expr field) : Prop :=
  match e with
  | EBin (BCmp _) l r => unchunked ns fls l /\ unchunked ns fls r
  | EBin _ _ _ | ELit _ _ => True
  | ECol c => forall a, col_of ns fls c = Some a -> is_boolarray a = true
  | _ => False
  end.
Theorem countable_is_counted :
  forall (ns : list nat) (fls : list array) (n : nat) (v : validity) (e : expr field) (m : array),
  countable ns fls e -> evaluate e (AStruct ns fls n v) = Ok m -> counted m.
Proof.
  intros ns fls n v e m C E. destruct e as [c|d x|op l r| |b cs]; try contradiction; cbn [evaluate countable] in *.
  - destruct (col_of ns fls c) as [a|]; [|discriminate E]. injection E as <-. apply counted_bool. left. apply C. reflexivity.
  - injection E as <-. apply counted_bool. right. reflexivity.
  - inv_bind E. rename a into A. rename a0 into B. apply counted_bool. destruct op as [op| |]; [|destruct (bool_op_shape _ A B m E) as [X|(_ & _ & X)]; auto ..].
    assert (forall e A, unchunked ns fls e -> evaluate e (AStruct ns fls n v) = Ok A -> is_chunked A = false /\ flat (adtype A) = true) as U.
    { intros e A0 H H0. destruct e; try contradiction; cbn [evaluate unchunked] in *; [destruct (col_of ns fls c) as [a|]; [|discriminate H0]; injection H0 as <-; apply H; reflexivity|injection H0 as <-; auto]. }
    destruct C as [C1 C2]. destruct (U l A C1 E0) as [U1 U2]. destruct (U r B C2 E1) as [U3 U4]. eapply compare_bool_shape; [exact E| | |]; assumption.
Qed.
(** Chunked columns: comparing one with a literal gives a count, if no chunk is empty, constant or itself chunked. *)
Lemma fold_counts l : Forall (fun o => o <> None) l -> forall k, exists j, fold_left (fun acc y : option nat => match acc, y with Some u, Some w => Some (u + w) | _, _ => None end) l (Some k) = Some j.
Proof. induction 1 as [|o l H _ IH]; intros k; cbn [fold_left]; [eauto|]. destruct o as [w|]; [apply IH|congruence]. Qed.
Theorem chunked_column_is_counted :
  forall (d : dtype) (cs : list array) (e : dtype) (x : value) (n : nat) (op : cop) (m : array),
  wf fr (AChunked d cs) -> wf fr (AConst e x n) -> flat d = true -> plain (AChunked d cs) -> plain (AConst e x n) ->
  Forall (fun c => is_chunked c = false /\ is_const c = false /\ 0 < alen c) cs ->
  compare (AChunked d cs) (AConst e x n) op = Ok m -> counted m.
Proof.
  intros d cs e x n op m W WL FL PC PL NE H. unfold compare in H. rewrite Nat.add_comm in H. cbn [Nat.add] in H. rewrite compare_S in H. inv_bind H; [discriminate C1|].
  cbn [own] in H. unfold chunked_cmp in H. match type of H with bind ?u _ = _ => destruct u as [[n0 rs]| |] eqn:EF; cbn [bind] in H; try discriminate H end.
  unfold try_chunked in H. destruct (forallb _ rs); [|discriminate H]. injection H as <-. set (k := S _) in EF. clearbody k. cbn [snd fst].
  assert (Forall (fun c => wf fr c /\ adtype c = d) cs) as WC by (destruct W as [W _]; apply wf_chunks_iff in W; exact W).
  assert (forall c, In c cs -> plain c) as PCC. { intros c Hc. rewrite Forall_forall in WC. destruct (WC c Hc) as [_ Dc]. unfold plain in *. rewrite Dc. rewrite Forall_forall in PC |- *. intros y Hy. apply (PC y). cbn [logical]. apply in_concat. exists (logical c). split; [apply in_map; exact Hc|exact Hy]. }
  assert (Forall (fun r => is_boolarray r = true /\ 0 < alen r) rs) as G.
  { assert (forall cs (st st' : nat * list array), Forall (fun c => wf fr c /\ adtype c = d) cs -> (forall c, In c cs -> plain c) -> Forall (fun c => is_chunked c = false /\ is_const c = false /\ 0 < alen c) cs -> Forall (fun r => is_boolarray r = true /\ 0 < alen r) (snd st) ->
      foldM (fun (st : nat * list array) c => do s <- slice (AConst e x n) (fst st) (fst st + alen c); do r <- compare_ k c s op; Ok (fst st + alen c, snd st ++ [r])) st cs = Ok st' -> Forall (fun r => is_boolarray r = true /\ 0 < alen r) (snd st')) as G.
    { clear EF WC NE PCC W PC C C0 C1 cs rs n0. induction cs as [|c cs IHc]; intros st st' WC PCC NE S0 E; cbn [foldM] in E; [injection E as <-; exact S0|]. inversion WC as [|? ? [Wc Dc] WC']; subst. inversion NE as [|? ? (N1 & N2 & N3) NE']; subst. inv_bind E.
      eapply IHc; [assumption|intros y Hy; apply PCC; right; exact Hy|assumption| |exact E]. inv_bind E0. injection E0 as <-. cbn [snd]. apply Forall_app. split; [exact S0|]. constructor; [|constructor].
      cbn [slice] in E1. inv_bind E1. injection E1 as <-.
      assert (plain (AConst e x (fst st + alen c - fst st))) as PK. { unfold plain in *. cbn [adtype logical] in *. destruct n as [|n]; [exfalso; cbn [alen] in C; unfold slice_bad in C; cbn [alen] in C; repeat (apply orb_false_iff in C; destruct C as [C ?]); repeat match goal with B : (_ <? _) = false |- _ => apply Nat.ltb_ge in B end; lia|]. inversion PL; subst. apply Forall_forall. intros y Hy. apply repeat_spec in Hy. subst y. assumption. }
      assert (eq_fits c (AConst e x (fst st + alen c - fst st)) op) as EFT. { right. right. left. destruct c; try discriminate N1; try discriminate N2; exact I. }
      pose proof (compare_ok k fr c (AConst e x (fst st + alen c - fst st)) op Wc WL eq_refl FL (PCC c (or_introl eq_refl)) PK EFT) as CO. rewrite E2 in CO. cbn [outc] in CO. destruct CO as (L & ED & (G1 & _)).
      split; [|rewrite <- logical_length, G1, map2_length; rewrite ?logical_length; auto]. 
      destruct k as [|k']; [discriminate E2|]. rewrite compare_S in E2. rewrite N2 in E2. cbn [andb] in E2. inv_bind E2.
      destruct (own k' c (AConst e x (fst st + alen c - fst st)) op) as [y|] eqn:EO; [subst y; exact (own_shape _ _ _ _ _ FL N1 N2 EO)|].
      destruct (own k' (AConst e x (fst st + alen c - fst st)) c (cop_swap op)) as [y|] eqn:EO2; [exfalso; cbn [own] in EO2; destruct c; try discriminate EO2; discriminate N2|].
      inv_bind E2. eapply arrow_cmp_shape, E2. }
    exact (G cs (0, []) (n0, rs) WC PCC NE (Forall_nil _) EF). }
  unfold counted. cbn [true_count logical]. destruct rs as [|r0 rs]; [reflexivity|]. cbn [map]. inversion G as [|? ? [B0 A0] GR]; subst.
  assert (forall r, is_boolarray r = true /\ 0 < alen r -> true_count r <> None) as TN. { intros r [B A]. destruct r; try discriminate B. cbn [true_count alen] in *. match goal with |- context [?t =? 0] => destruct (Nat.eqb_spec t 0); [lia|discriminate] end. }
  destruct (true_count r0) as [k0|] eqn:E0; [|destruct (TN r0 (conj B0 A0) E0)].
  destruct (fold_counts (map true_count rs)) with (k := k0) as [j Hj]; [apply Forall_map; eapply Forall_impl; [|exact GR]; exact TN|]. rewrite Hj. discriminate.
Qed.
Print Assumptions chunked_column_is_counted.

(** * Select *)
(** Include keeps the chosen columns, in the order asked; Exclude keeps the others, in their order; validity and length stay. *)
Lemma project_ok ns fls n v cs : wf f0 (AStruct ns fls n v) -> (forall c, In c cs -> exists i, col_pos ns c = Some i /\ i < length ns) ->
  struct_proj ns fls n v cs = Ok (AStruct (map (fun c => match col_pos ns c with Some i => nth i ns 0 | None => 0 end) cs)
                                           (map (fun c => match col_pos ns c with Some i => nth i fls (ANull 0) | None => ANull 0 end) cs) n v).
Proof.
  intros W HC. apply wf_struct_iff in W. destruct W as (WL & WV & WF). unfold struct_proj.
  rewrite (mapM_ok_map _ (fun c => match col_pos ns c with Some i => (nth i ns 0, nth i fls (ANull 0)) | None => (0, ANull 0) end)).
  - cbn [bind]. rewrite !map_map. unfold try_struct. rewrite !map_length, Nat.eqb_refl. cbn [negb].
    assert (forallb (fun x => alen x =? n) (map (fun x => snd match col_pos ns x with Some i => (nth i ns 0, nth i fls (ANull 0)) | None => (0, ANull 0) end) cs) = true) as ->.
    { apply forallb_forall. intros y Hy. apply in_map_iff in Hy. destruct Hy as (c & <- & Hc). destruct (HC c Hc) as (i & -> & Hi). cbn [snd]. rewrite Forall_forall in WF. apply Nat.eqb_eq. apply (WF (nth i fls (ANull 0))). apply nth_In. lia. }
    cbn [negb]. rewrite (proj2 (vfits_vwf v n) WV). cbn [negb]. f_equal. f_equal; apply map_ext; intros c; destruct (col_pos ns c); reflexivity.
  - intros c Hc. destruct (HC c Hc) as (i & -> & Hi). rewrite (nth_error_nth' ns 0 Hi). rewrite (nth_error_nth' fls (ANull 0)) by lia. reflexivity.
Qed.
Lemma position_nth ns i : NoDup ns -> i < length ns -> position ns (nth i ns 0) = Some i.
Proof.
  revert i. induction ns as [|m ns IH]; intros i ND Hi; [cbn in Hi; lia|]. inversion ND; subst. cbn [position]. destruct i as [|i]; cbn [nth]; [rewrite Nat.eqb_refl; reflexivity|].
  cbn in Hi. destruct (Nat.eqb_spec m (nth i ns 0)) as [E|E]; [exfalso; match goal with X : ~ In m ns |- _ => apply X end; rewrite E; apply nth_In; lia|]. rewrite IH by (auto; lia). reflexivity.
Qed.
Theorem select_include_keeps_columns :
  forall (ns : list nat) (fls : list array) (n : nat) (v : validity) (cs : list field),
  wf f0 (AStruct ns fls n v) -> (forall c, In c cs -> exists a, col_of ns fls c = Some a) ->
  exists ns' fls', evaluate (ESelect true cs) (AStruct ns fls n v) = Ok (AStruct ns' fls' n v) /\
    length ns' = length cs /\ length fls' = length cs /\
    forall k c, nth_error cs k = Some c -> col_of ns fls c = nth_error fls' k /\ (forall m, c = FName m -> nth_error ns' k = Some m) /\ (forall i, c = FIndex i -> nth_error ns' k = nth_error ns i).
Proof.
  intros ns fls n v cs W HC. pose proof W as W0. apply wf_struct_iff in W0. destruct W0 as (WL & _ & _).
  assert (forall c, In c cs -> exists i, col_pos ns c = Some i /\ i < length ns) as HP.
  { intros c Hc. destruct (HC c Hc) as [a E]. unfold col_of in E. destruct (col_pos ns c) as [i|]; [|discriminate E]. exists i. split; [reflexivity|]. rewrite WL. apply nth_error_Some. congruence. }
  cbn [evaluate]. rewrite (project_ok ns fls n v cs W HP). eexists. eexists. split; [reflexivity|]. rewrite !map_length. split; [reflexivity|]. split; [reflexivity|].
  intros k c Hk. rewrite !nth_error_map, Hk. cbn [option_map]. destruct (HP c (nth_error_In _ _ Hk)) as (i & E & Hi). unfold col_of. rewrite E. rewrite (nth_error_nth' fls (ANull 0)) by lia. split; [reflexivity|]. split.
  - intros m ->. cbn [col_pos] in E. f_equal. clear - E. revert i E. induction ns as [|q ns IH]; intros i E; [discriminate E|]. cbn [position] in E. destruct (Nat.eqb_spec q m) as [->|]; [injection E as <-; reflexivity|]. destruct (position ns m) as [j|]; [|discriminate E]. injection E as <-. cbn [nth]. apply IH. reflexivity.
  - intros j ->. cbn [col_pos] in E. injection E as ->. symmetry. apply nth_error_nth'. exact Hi.
Qed.
Theorem select_exclude_drops_columns :
  forall (ns : list nat) (fls : list array) (n : nat) (v : validity) (ex : list nat),
  wf f0 (AStruct ns fls n v) -> NoDup ns ->
  exists ns' fls', evaluate (ESelect false (map FName ex)) (AStruct ns fls n v) = Ok (AStruct ns' fls' n v) /\
    combine ns' fls' = filter (fun c => negb (existsb (Nat.eqb (fst c)) ex)) (combine ns fls) /\ length ns' = length fls'.
Proof.
  intros ns fls n v ex W ND. pose proof W as W0. apply wf_struct_iff in W0. destruct W0 as (WL & _ & _). cbn [evaluate].
  rewrite (mapM_ok_map _ (fun c => match c with FName m => m | FIndex _ => 0 end)) by (intros c Hc; apply in_map_iff in Hc; destruct Hc as (m & <- & _); reflexivity). cbn [bind]. rewrite map_map, map_id.
  set (keep := filter _ ns).
  rewrite (project_ok ns fls n v).
  2: { exact W. }
  2: { intros c Hc. apply in_map_iff in Hc. destruct Hc as (m & <- & Hm). apply filter_In in Hm. destruct Hm as [Hm _]. destruct (In_nth _ _ 0 Hm) as (i & Hi & <-). exists i. cbn [col_pos]. rewrite position_nth by assumption. auto. }
  eexists. eexists. split; [reflexivity|]. rewrite !map_map, !map_length. split; [|reflexivity]. cbn [col_pos].
  assert (forall sub, (forall m, In m sub -> In m ns) -> combine (map (fun x => match position ns x with Some i => nth i ns 0 | None => 0 end) sub) (map (fun x => match position ns x with Some i => nth i fls (ANull 0) | None => ANull 0 end) sub)
     = map (fun m => (m, match position ns m with Some i => nth i fls (ANull 0) | None => ANull 0 end)) sub) as G.
  { induction sub as [|m sub IH]; intros HS; [reflexivity|]. cbn [map combine]. rewrite IH by (intros; apply HS; right; assumption). f_equal. f_equal. destruct (In_nth _ _ 0 (HS m (or_introl eq_refl))) as (i & Hi & <-). rewrite position_nth by assumption. reflexivity. }
  rewrite G by (intros m Hm; apply filter_In in Hm; tauto). clear G. subst keep. clear W.
  assert (map (fun m => (m, match position ns m with Some i => nth i fls (ANull 0) | None => ANull 0 end)) ns = combine ns fls) as AL.
  { clear ex. revert fls WL ND. induction ns as [|m ns IH]; intros [|a fls] WL ND; try discriminate WL; [reflexivity|]. cbn [map combine position]. rewrite Nat.eqb_refl. cbn [nth]. f_equal. inversion ND; subst.
    rewrite <- (IH fls) by (auto; cbn in WL; lia). apply map_ext_in. intros q Hq. destruct (Nat.eqb_spec m q) as [->|]; [contradiction|]. destruct (position ns q); reflexivity. }
  rewrite <- AL. clear AL. set (g := fun m : nat => (m, _)). assert (forall m, fst (g m) = m) as FG by reflexivity. clearbody g.
  clear - FG. induction ns as [|m l IH]; [reflexivity|]. cbn [filter map]. rewrite FG. destruct (negb (existsb (Nat.eqb m) ex)); cbn [map]; rewrite IH; reflexivity.
Qed.
Print Assumptions select_exclude_drops_columns.

(** * Examples *)
(** A batch: x nullable i32 in a dictionary, s strings; filter x > 10 and (s = "b" or x = 15). *)
Definition ex_ns : list nat := [7; 8].
Definition ex_s : array := AView true [VInl [97%Z]; VInl [98%Z]; VInl [98%Z]; VInl []] [] VNonNull.
Definition ex_x : array := AChunked (DPrim U32 true) [dict2; APrim U32 [3%Z] VAllValid].
Definition ex_batch : array := AStruct ex_ns [ex_x; ex_s] 4 VNonNull.
Definition ex_filter : expr field :=
  EBin BAnd (EBin (BCmp CEq) (ECol (FName 8)) (ELit (DUtf8 false) (VBytes [98%Z]))) (EBin (BCmp CGt) (ELit (DPrim U32 false) (VInt 20)) (ECol (FName 7))).
Definition f_ex : flags := Flags true true true true true true false false false false.
Example ex_filter_hyps : wf f_ex ex_batch /\ wf fr ex_batch /\ total_filter ex_ns [ex_x; ex_s] ex_filter /\ Forall (covered ex_ns [ex_x; ex_s]) (split_conjunction ex_filter) /\
  (exists e0 e1, split_conjunction ex_filter = [e0; e1] /\ countable ex_ns [ex_x; ex_s] e0).
Proof.
  assert (wf f_ex ex_batch) as W.
  { unfold ex_batch. apply wf_struct_iff. split; [reflexivity|]. split; [exact I|]. repeat constructor; unfold ex_x, ex_s; cbn [wf]; wf_tac; try (left; reflexivity).
    all: try (destruct i as [|[|[|i]]]; cbn in *; try discriminate; try reflexivity; try lia).
    all: try (intros _ s [H|[H|[H|[H|[]]]]]; injection H as <-; reflexivity). }
  assert (total_filter ex_ns [ex_x; ex_s] ex_filter) as T.
  { apply T_and; [apply T_lit_r|apply T_lit_l]; try discriminate.
    - exists ex_s. repeat split; auto; try exact I. apply Forall_forall. intros y _. destruct y; exact I.
    - cbn. repeat split; auto. discriminate.
    - exists ex_x. repeat split; auto; try exact I. apply Forall_forall. intros y _. destruct y; try exact I. discriminate.
    - cbn. repeat split; auto; try lia; discriminate. }
  split; [exact W|]. split; [apply (wf_fr _ f_ex); auto|]. split; [exact T|]. split.
  - eapply Forall_impl; [|apply total_conjuncts, T]. intros e He. apply total_covered, He.
  - eexists. eexists. split; [reflexivity|]. cbn. split; [|reflexivity]. intros a [= <-]. split; reflexivity.
Qed.
Example ex_filter_runs : rows (row_filter ex_filter ex_batch) = Some [VBool false; VBool false; VBool true; VBool false] /\
  rows (evaluate ex_filter ex_batch) = Some [VBool false; VNull; VBool true; VBool false].
Proof. vm_compute. auto. Qed.

(** Without the count the filter is wrong: a two-part filter whose first part runs over a chunked column with an empty chunk, or is a
    dictionary-encoded boolean column, drops rows that pass. *)
Theorem row_filter_empty_chunk_refuted :
  let x := AChunked (DPrim U32 false) [APrim U32 [5%Z; 6%Z] VNonNull; APrim U32 [] VNonNull] in
  let b := AStruct [7] [x] 2 VNonNull in
  let gt := EBin (BCmp CGt) (ECol (FName 7)) (ELit (DPrim U32 false) (VInt 1)) in
  wf fr b /\ total_filter [7] [x] gt /\
  rows (row_filter gt b) = Some [VBool true; VBool true] /\ rows (row_filter (EBin BAnd gt gt) b) = Some [VBool false; VBool false] /\
  rows (evaluate (EBin BAnd gt gt) b) = Some [VBool true; VBool true].
Proof.
  cbv zeta. split; [apply wf_struct_iff; split; [reflexivity|]; split; [exact I|]; repeat constructor; cbn [wf]; wf_tac; left; reflexivity|]. split; [|vm_compute; auto].
  apply T_lit_r; try discriminate; [eexists; split; [reflexivity|]; repeat split; auto; try exact I; apply Forall_forall; intros y _; destruct y; try exact I; discriminate|]. cbn. repeat split; auto; try lia; discriminate.
Qed.
Theorem row_filter_dict_bool_refuted :
  let x := ADict (APrim U8 [0%Z; 0%Z] VNonNull) (ABool 0 [true] 1 VNonNull) in
  let b := AStruct [7] [x] 2 VNonNull in let e := ECol (FName 7) in
  wf fr b /\ rows (row_filter e b) = Some [VBool true; VBool true] /\ rows (row_filter (EBin BAnd e e) b) = Some [VBool false; VBool false] /\
  rows (evaluate (EBin BAnd e e) b) = Some [VBool true; VBool true].
Proof. cbv zeta. split; [|vm_compute; auto]. apply wf_struct_iff; split; [reflexivity|]; split; [exact I|]; repeat constructor; cbn [wf]; wf_tac. Qed.
(** Columns are only found in StructArrays: a batch in another encoding (here chunked) is an error. *)
Theorem column_of_chunked_batch_refuted :
  let b := AStruct [7] [APrim U32 [5%Z] VNonNull] 1 VNonNull in
  rows (evaluate (ECol (FName 7)) b) = Some [VInt 5] /\ evaluate (ECol (FName 7)) (AChunked (adtype b) [b]) = Err.
Proof. vm_compute. auto. Qed.
