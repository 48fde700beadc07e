(** C52: queries on in-memory tables. *)
From Verif Require Import Base Spec CmpSpec ExprSpec Arr ArrRead ArrWf ArrReadProofs ArrSlice ArrSliceProofs ValidityModel IntEnc PropIntEnc ArrOps OpsBase OpsFlat OpsCanon OpsCanon2 OpsMain PropOps PropOpsX DateTime Temporal PropTemporal Arrow ArrowSpec ArrowProofs ArrowProofs2 PropArrow Compare CmpProofs PropCompare StructOps PropStructOps Layout PropLayout Expr PropExpr MemTable.

(** * Specification *)
(** DataFusion's meaning of a filter on one row: three-valued logic. *)
Definition and3 (x y : value) : value :=
  match x, y with VBool false, _ | _, VBool false => VBool false | VBool true, VBool true => VBool true | _, _ => VNull end.
Definition or3 (x y : value) : value :=
  match x, y with VBool true, _ | _, VBool true => VBool true | VBool false, VBool false => VBool false | _, _ => VNull end.
Definition df_type (ty : nat -> dtype) (e : dfexpr) : dtype :=
  match e with
  | FCol n => ty n
  | FLit t _ => match from_arrow_type t true with Ok d => d | _ => DNull end
  | FBin _ _ _ => DBool true
  | FOther _ => DNull
  end.
Fixpoint df_eval (ty : nat -> dtype) (row : nat -> value) (e : dfexpr) : value :=
  match e with
  | FCol n => row n
  | FLit _ x => x
  | FBin (OpCmp c) l r => spec_cmp (df_type ty l) c (df_eval ty row l) (df_eval ty row r)
  | FBin OpAnd l r => and3 (df_eval ty row l) (df_eval ty row r)
  | FBin OpOr l r => or3 (df_eval ty row l) (df_eval ty row r)
  | _ => VNull
  end.
(** A row passes if the filter is true. *)
Definition df_passes (ty : nat -> dtype) (e : dfexpr) (row : nat -> value) : bool := match df_eval ty row e with VBool true => true | _ => false end.
(** Literals are of types Vortex knows. *)
Fixpoint literals_ok (e : dfexpr) : Prop :=
  match e with FLit t _ => supported t | FBin _ l r => literals_ok l /\ literals_ok r | _ => True end.
(** A conjunction of comparisons of columns and literals (and of boolean columns and literals). *)
Definition is_leaf (e : dfexpr) : bool := match e with FCol _ | FLit _ _ => true | _ => false end.
Fixpoint conjunction (e : dfexpr) : bool :=
  match e with
  | FBin OpAnd l r => conjunction l && conjunction r
  | FBin (OpCmp _) l r => is_leaf l && is_leaf r
  | e => is_leaf e
  end.
(** No column or literal is null on this row, and connectives join booleans. *)
Definition boolean (x : value) : Prop := exists b, x = VBool b.
Fixpoint no_nulls (ty : nat -> dtype) (row : nat -> value) (e : dfexpr) : Prop :=
  match e with
  | FCol n => row n <> VNull
  | FLit _ x => x <> VNull
  | FBin (OpCmp _) l r => no_nulls ty row l /\ no_nulls ty row r
  | FBin (OpOther _) _ _ | FOther _ => False
  | FBin _ l r => no_nulls ty row l /\ no_nulls ty row r /\ boolean (df_eval ty row l) /\ boolean (df_eval ty row r)
  end.
(** What stands under a name: the first column of that name. *)
Fixpoint named {A} (d : A) (ns : list nat) (l : list A) (n : nat) : A :=
  match ns, l with m :: ns', x :: l' => if m =? n then x else named d ns' l' n | _, _ => d end.
(** A row of a table, by column name. *)
Definition cells (ns : list nat) (r : value) : nat -> value := match r with VStruct vs => named VNull ns vs | _ => fun _ => VNull end.
(** Columns as seen by Vortex expressions (converted filters name their columns). *)
Definition by_name {A} (d : A) (g : nat -> A) (c : Layout.field) : A := match c with FName n => g n | FIndex _ => d end.

(** Filters over columns the table has, of types that are not large, nested or durations, with and, or and comparisons. *)
Definition ordinary (t : atype) : Prop := match t with TUtf8 Large | TBinary Large | TDuration _ | TStruct _ _ _ | TOther _ => False | _ => True end.
Fixpoint pushable (sch : list (nat * atype)) (e : dfexpr) : Prop :=
  match e with
  | FCol n => In n (map fst sch) /\ ordinary (named TNull (map fst sch) (map snd sch) n)
  | FLit t _ => ordinary t
  | FBin (OpOther _) _ _ | FOther _ => False
  | FBin _ l r => pushable sch l /\ pushable sch r
  end.

(** * Pushing filters down *)
(** Exactly those filters are accepted. *)
Theorem accepted_filters :
  forall sch e, can_be_pushed_down sch e = true <-> pushable sch e.
Proof.
  assert (forall t, supported_type t = true <-> ordinary t) as K by (intros [| | |[]|[]| | | | | | | |]; cbn; intuition discriminate).
  intros sch. induction e as [n|t x|o l IHl r IHr|n]; cbn [can_be_pushed_down pushable].
  - induction sch as [|[m t] sch IH]; cbn [find map fst snd named In]; [intuition discriminate|]. destruct (Nat.eqb_spec m n) as [->|N].
    + rewrite K. intuition.
    + rewrite IH. intuition congruence.
  - apply K.
  - destruct o; try (intuition discriminate); rewrite andb_true_iff, IHl, IHr; reflexivity.
  - intuition discriminate.
Qed.
Print Assumptions accepted_filters.
(** A filter that is accepted for pushdown can be converted. *)
Theorem accepted_filters_convert :
  forall sch e, can_be_pushed_down sch e = true -> literals_ok e -> exists e', convert e = Ok e'.
Proof.
  induction e as [n|t x|o l IHl r IHr|n]; cbn [can_be_pushed_down literals_ok convert]; intros H L; try discriminate H.
  - eauto.
  - assert (exists d y, df_scalar t x = Ok (d, y)) as (d & y & ->); [|cbn [bind]; eauto].
    assert (forall t, temporal_type t -> exists z, make_temporal t = Ok z) as TI.
    { intros t0 T0. destruct (arrow_temporal_type_roundtrip (fun s => s) (fun s _ => eq_refl) t0 T0) as (z & Z & _). eauto. }
    unfold df_scalar. destruct t; try discriminate H; try contradiction L; destruct x; cbn [from_arrow_type bind]; eauto;
      (match goal with |- context [make_temporal ?t] => destruct (TI t L) as (zz & Z) end; rewrite Z; cbn [bind]; eauto).
  - destruct o as [c| | |k]; try discriminate H; apply andb_true_iff in H; destruct H as [H1 H2]; destruct L as [L1 L2]; destruct (IHl H1 L1) as [l' ->]; destruct (IHr H2 L2) as [r' ->]; cbn [bind]; eauto.
Qed.
Print Assumptions accepted_filters_convert.

Lemma df_scalar_inv t x d y : df_scalar t x = Ok (d, y) -> y = x /\ (x <> VNull -> erase d = erase (match from_arrow_type t true with Ok d => d | _ => DNull end)).
Proof.
  unfold df_scalar. intros H. destruct t; try discriminate H; destruct x; cbn [from_arrow_type bind] in *; try (injection H as <- <-; split; [reflexivity|]; intros N; try congruence; reflexivity);
    (destruct (make_temporal _) as [zz| |]; cbn [bind] in *; try discriminate H; injection H as <- <-; split; [reflexivity|]; intros N; reflexivity).
Qed.
Lemma convert_type ty e e' row : convert e = Ok e' -> df_eval ty row e <> VNull -> erase (etype (by_name DNull ty) e') = erase (df_type ty e).
Proof.
  destruct e as [n|t x|o l r|n]; cbn [convert df_type df_eval]; intros H N; try discriminate H.
  - injection H as <-. reflexivity.
  - destruct (df_scalar t x) as [[d y]| |] eqn:D; cbn [bind] in H; try discriminate H. injection H as <-. cbn [etype]. apply (df_scalar_inv _ _ _ _ D), N.
  - destruct (convert l); cbn [bind] in H; try discriminate H. destruct (convert r); cbn [bind] in H; try discriminate H. destruct o; try discriminate H; injection H as <-; reflexivity.
Qed.
(** What Vortex computes for a converted filter: where it is not null, it is what DataFusion computes; on conjunctions of comparisons the same rows
    pass; and where nothing is null the values are the same. *)
Theorem conversion_keeps_meaning :
  forall ty row e e', convert e = Ok e' ->
  let v := eval_row (by_name DNull ty) (by_name VNull row) e' in
  (v <> VNull -> v = df_eval ty row e) /\
  (conjunction e = true -> (v = VBool true <-> df_eval ty row e = VBool true)) /\
  (no_nulls ty row e -> v = df_eval ty row e).
Proof.
  intros ty row. induction e as [n|t x|o l IHl r IHr|n]; intros e' H v; cbn [convert] in H; try discriminate H.
  - injection H as <-. subst v. cbn. tauto.
  - destruct (df_scalar t x) as [[d y]| |] eqn:D; cbn [bind] in H; try discriminate H. injection H as <-. subst v. cbn [eval_row df_eval]. rewrite (proj1 (df_scalar_inv _ _ _ _ D)). tauto.
  - destruct (convert l) as [l'| |] eqn:El; cbn [bind] in H; try discriminate H. destruct (convert r) as [r'| |] eqn:Er; cbn [bind] in H; try discriminate H.
    specialize (IHl _ eq_refl). specialize (IHr _ eq_refl). cbv zeta in IHl, IHr. pose proof (convert_type ty l l' row El) as TY.
    set (x := eval_row (by_name DNull ty) (by_name VNull row) l') in *. set (y := eval_row (by_name DNull ty) (by_name VNull row) r') in *.
    destruct IHl as (L1 & L2 & L3). destruct IHr as (R1 & R2 & R3).
    destruct o as [c| | |k]; try discriminate H; injection H as <-; subst v; cbn [eval_row df_eval conjunction no_nulls]; fold x; fold y.
    + assert (x = df_eval ty row l -> y = df_eval ty row r ->
        spec_cmp (etype (by_name DNull ty) l') c x y = spec_cmp (df_type ty l) c (df_eval ty row l) (df_eval ty row r)) as EQ.
      { intros -> ->. destruct (is_null (df_eval ty row l)) eqn:NL; [unfold spec_cmp; rewrite NL; reflexivity|]. apply spec_cmp_erase, TY. intros Z. rewrite Z in NL. discriminate NL. }
      split; [|split].
      * intros N. unfold spec_cmp in N at 1. destruct (is_null x) eqn:NX; [contradiction N; reflexivity|]. destruct (is_null y) eqn:NY; [contradiction N; reflexivity|].
        apply EQ; [apply L1; intros Z; rewrite Z in NX; discriminate NX|apply R1; intros Z; rewrite Z in NY; discriminate NY].
      * intros C. apply andb_true_iff in C. destruct C as [C1 C2].
        assert (forall e e', is_leaf e = true -> convert e = Ok e' -> eval_row (by_name DNull ty) (by_name VNull row) e' = df_eval ty row e) as LF.
        { clear. intros e e' L H. destruct e as [n|t x| |]; try discriminate L; cbn [convert] in H; [injection H as <-; reflexivity|].
          destruct (df_scalar t x) as [[d y]| |] eqn:D; cbn [bind] in H; try discriminate H. injection H as <-. apply (df_scalar_inv _ _ _ _ D). }
        rewrite (EQ (LF _ _ C1 El) (LF _ _ C2 Er)). reflexivity.
      * intros [N1 N2]. apply EQ; auto.
    + split; [|split].
      * intros N. destruct x as [|bx| | |] eqn:Ex; try (contradiction N; reflexivity). destruct y as [|bY| | |] eqn:Ey; try (contradiction N; reflexivity).
        rewrite <- L1, <- R1 by discriminate. destruct bx, bY; reflexivity.
      * intros C. apply andb_true_iff in C. destruct C as [C1 C2]. specialize (L2 C1). specialize (R2 C2).
        assert (spec_bool andb x y = VBool true <-> x = VBool true /\ y = VBool true) as ->.
        { destruct x as [|[]| | |], y as [|[]| | |]; cbn; split; try discriminate; try tauto; intros [? ?]; congruence. }
        rewrite L2, R2. destruct (df_eval ty row l) as [|[]| | |], (df_eval ty row r) as [|[]| | |]; cbn; split; try discriminate; try tauto; intros [? ?]; congruence.
      * intros (N1 & N2 & [b1 B1] & [b2 B2]). rewrite (L3 N1), (R3 N2), B1, B2. destruct b1, b2; reflexivity.
    + split; [|split].
      * intros N. destruct x as [|bx| | |] eqn:Ex; try (contradiction N; reflexivity). destruct y as [|bY| | |] eqn:Ey; try (contradiction N; reflexivity).
        rewrite <- L1, <- R1 by discriminate. destruct bx, bY; reflexivity.
      * discriminate.
      * intros (N1 & N2 & [b1 B1] & [b2 B2]). rewrite (L3 N1), (R3 N2), B1, B2. destruct b1, b2; reflexivity.
Qed.
Print Assumptions conversion_keeps_meaning.

(** * Columns *)
Lemma project_struct_shape ns fls n v p s : project p (AStruct ns fls n v) = Ok s ->
  exists idxs, Forall2 (picks ns) p idxs /\ Forall (fun i => i < length fls) idxs /\ s = AStruct (map (fun i => nth i ns 0) idxs) (map (fun i => nth i fls (ANull 0)) idxs) n v.
Proof.
  intros E. cbn [project] in E. destruct (mapM _ p) as [l| |] eqn:M; cbn [bind] in E; try discriminate E.
  assert (exists idxs, Forall2 (picks ns) p idxs /\ Forall (fun i => i < length fls) idxs /\ map fst l = map (fun i => nth i ns 0) idxs /\ map snd l = map (fun i => nth i fls (ANull 0)) idxs) as (idxs & P & B & N & C).
  { clear -M. revert l M. induction p as [|fd p IH]; intros l M; cbn [mapM] in M; [injection M as <-; exists []; repeat constructor|].
    destruct (resolve_field ns fd) as [i| |] eqn:R; cbn [bind] in M; try discriminate M. destruct (nth_error ns i) as [m|] eqn:N; cbn [bind] in M; try discriminate M.
    destruct (nth_error fls i) as [c|] eqn:C; cbn [bind] in M; try discriminate M. destruct (mapM _ p) as [q| |]; cbn [bind] in M; try discriminate M. injection M as <-.
    destruct (IH _ eq_refl) as (idxs & P & B & E1 & E2). exists (i :: idxs). split; [constructor; [exact (picks_of_resolve _ _ _ _ R N)|exact P]|].
    split; [constructor; [apply nth_error_Some; congruence|exact B]|]. cbn [map fst snd]. rewrite E1, E2, (nth_error_nth _ _ 0 N), (nth_error_nth _ _ (ANull 0) C). split; reflexivity. }
  exists idxs. split; [exact P|]. split; [exact B|]. rewrite N, C in E. unfold try_struct in E. repeat match type of E with (if ?b then _ else _) = _ => destruct b; try discriminate E end. congruence.
Qed.
(** Projecting to a list of names that includes a column keeps that column. *)
Lemma projected_col ns fls p idxs : length ns = length fls -> Forall2 (picks ns) p idxs -> (forall c, In c p -> exists n, c = FName n) -> forall c, In c p ->
  col_of (map (fun i => nth i ns 0) idxs) (map (fun i => nth i fls (ANull 0)) idxs) c = col_of ns fls c.
Proof.
  intros L P NM c HC. destruct (NM c HC) as [n ->]. unfold col_of, col_pos.
  assert (forall i, picks ns (FName n) i -> position ns n = Some i) as PS by (intros i Hi; apply position_spec; exact Hi).
  assert (exists k, In k idxs /\ picks ns (FName n) k) as (k & _ & Hk).
  { clear -P HC. induction P as [|fd i p idxs H _ IH]; [destruct HC|]. destruct HC as [->|HC]; [exists i; split; [left; reflexivity|exact H]|]. destruct (IH HC) as (k & K1 & K2). exists k. split; [right; exact K1|exact K2]. }
  rewrite (PS k Hk).
  assert (exists j, position (map (fun i => nth i ns 0) idxs) n = Some j /\ nth j idxs 0 = k /\ j < length idxs) as (j & J1 & J2 & J3).
  { clear -P HC NM Hk. revert HC. induction P as [|fd i p idxs H HP IH]; intros HC; [destruct HC|].
    destruct (NM fd (or_introl eq_refl)) as [m ->]. pose proof (proj1 H) as Hm. pose proof (nth_error_nth _ _ 0 Hm) as Hm'.
    cbn [map]. destruct (Nat.eq_dec m n) as [->|Dn].
    - exists 0. assert (i = k) as ->. { apply position_spec in H. apply position_spec in Hk. congruence. }
      split; [|split; [reflexivity|cbn; lia]]. apply position_spec. split; [cbn; congruence|]. intros j Hj; lia.
    - destruct IH as (j & J1 & J2 & J3); [intros c Hc; apply NM; right; exact Hc| |].
      { destruct HC as [HC|HC]; [congruence|exact HC]. }
      exists (S j). split; [|split; [exact J2|cbn; lia]]. apply position_spec in J1. apply position_spec. destruct J1 as [J1 J4]. split; [exact J1|].
      intros [|q] Hq; cbn; [congruence|]. apply J4. lia. }
  rewrite J1, nth_error_map_. rewrite (nth_error_nth' idxs 0 J3), J2. cbn [option_map]. symmetry. apply nth_error_nth'. rewrite <- L. apply nth_error_Some. rewrite (proj1 Hk). discriminate.
Qed.

Lemma eval_row_ext {F} (ty ty' : F -> dtype) (row row' : F -> value) (e : expr F) : (forall c, In c (refs e) -> ty c = ty' c /\ row c = row' c) ->
  eval_row ty row e = eval_row ty' row' e /\ etype ty e = etype ty' e.
Proof.
  induction e as [c|d x|op l IHl r IHr| |b cs]; intros H; cbn [eval_row etype refs] in *; auto.
  - destruct (H c (or_introl eq_refl)) as [-> ->]. auto.
  - destruct IHl as [L1 L2]; [intros c Hc; apply H, in_or_app; auto|]. destruct IHr as [R1 R2]; [intros c Hc; apply H, in_or_app; auto|]. rewrite L1, L2, R1. auto.
Qed.
Lemma covered_ext ns fls ns' fls' e : (forall c, In c (refs e) -> col_of ns' fls' c = col_of ns fls c) -> covered ns fls e -> covered ns' fls' e.
Proof.
  assert (forall e, (forall c, In c (refs e) -> col_of ns' fls' c = col_of ns fls c) -> etype (col_type ns' fls') e = etype (col_type ns fls) e) as ET.
  { intros e0 H. destruct e0; cbn [etype refs] in *; auto. unfold col_type. rewrite (H c (or_introl eq_refl)). reflexivity. }
  assert (forall e, (forall c, In c (refs e) -> col_of ns' fls' c = col_of ns fls c) -> safe_col ns fls e -> safe_col ns' fls' e) as SC.
  { intros e0 H. destruct e0; cbn [safe_col refs] in *; auto. rewrite (H c (or_introl eq_refl)). auto. }
  induction e as [c|d x|op l IHl r IHr| |b cs]; intros H; cbn [covered refs] in *; auto.
  - rewrite (H c (or_introl eq_refl)). auto.
  - assert (forall c, In c (refs l) -> col_of ns' fls' c = col_of ns fls c) as Hl by (intros c Hc; apply H, in_or_app; auto).
    assert (forall c, In c (refs r) -> col_of ns' fls' c = col_of ns fls c) as Hr by (intros c Hc; apply H, in_or_app; auto).
    destruct op; [|tauto|tauto]. rewrite (ET l Hl), (ET r Hr). intros (C1 & C2 & C3). split; [auto|]. split; [auto|]. destruct C3 as [C3|[C3|[C3|C3]]]; auto.
Qed.
Lemma named_col {A} (g : array -> A) (d : A) ns fls n : length ns = length fls -> named d ns (map g fls) n = match col_of ns fls (FName n) with Some a => g a | None => d end.
Proof.
  unfold col_of, col_pos. revert fls. induction ns as [|m ns IH]; intros [|x fls] L; try discriminate L; cbn [named map position]; [reflexivity|].
  destruct (m =? n); [reflexivity|]. injection L as L. rewrite (IH fls L). destruct (position ns n); reflexivity.
Qed.

(** * Selecting rows *)
Lemma row_indices_ok f ns fls n v e p idx : wf f (AStruct ns fls n v) -> ArrWf.fc f = true -> fC f = true -> fv f = true -> covered ns fls e ->
  (forall c, In c p -> exists m, c = FName m) -> (forall c, In c (refs e) -> In c p) -> row_indices e p (AStruct ns fls n v) = Ok idx ->
  exists m, idx = set_indices m /\ length m = n /\
    forall i, i < n -> eval_row (col_type ns fls) (row_at ns fls i) e = VNull \/ eval_row (col_type ns fls) (row_at ns fls i) e = VBool (nth i m false).
Proof.
  intros W C1 C2 C3 CV NM RF E. apply wf_fr in W; [|assumption..]. pose proof W as W'. apply wf_struct_iff in W'. destruct W' as (L & _ & _).
  unfold row_indices in E. destruct (project p _) as [s| |] eqn:PE; cbn [bind] in E; try discriminate E.
  destruct (project_selects_the_columns fr _ _ _ _ _ _ W eq_refl PE) as (_ & _ & _ & _ & Ws).
  destruct (project_struct_shape _ _ _ _ _ _ PE) as (idxs & P & B & ->).
  assert (forall c, In c (refs e) -> col_of (map (fun i => nth i ns 0) idxs) (map (fun i => nth i fls (ANull 0)) idxs) c = col_of ns fls c) as CO.
  { intros c Hc. apply (projected_col ns fls p idxs L P NM). apply RF, Hc. }
  set (ns' := map (fun i => nth i ns 0) idxs) in *. set (fls' := map (fun i => nth i fls (ANull 0)) idxs) in *. clearbody ns' fls'.
  destruct (evaluate e _) as [m| |] eqn:EE; cbn [bind] in E; try discriminate E.
  destruct (evaluate_ok ns' fls' n v Ws e m (covered_ext _ _ _ _ _ CO CV) EE) as (R1 & R2 & R3 & _).
  destruct (canon m) as [c| |] eqn:EC; cbn [bind] in E; try discriminate E. destruct (canonical_is_lossless fr m R3 eq_refl) as [K _]. destruct (K c EC) as (_ & L1 & L2 & _ & _ & Wc).
  destruct c as [|off buf len w| | | | | | | | | | | | | | ]; try discriminate E. injection E as <-. cbn [wf] in Wc. destruct Wc as (B1 & B2 & _).
  assert (len = n) as ->. { cbn [alen] in L2. rewrite L2, <- logical_length, R1. apply tab_length. }
  exists (lslice buf off (off + n)). split; [reflexivity|]. split; [rewrite lslice_length by lia; lia|].
  intros i Hi. rewrite nth_lslice by lia.
  assert (eval_row (col_type ns fls) (row_at ns fls i) e = eval_row (col_type ns' fls') (row_at ns' fls' i) e) as ->.
  { apply eval_row_ext. intros c Hc. unfold col_type, row_at. rewrite (CO c Hc). auto. }
  assert (nth i (logical m) VNull = eval_row (col_type ns' fls') (row_at ns' fls' i) e) as <- by (rewrite R1, nth_tab by exact Hi; reflexivity).
  rewrite <- L1. cbn [logical]. rewrite nth_tab by exact Hi. destruct (vvalid w i); auto.
Qed.

Lemma has_fields_derase : forall d d', derase d = derase d' -> has_fields d' -> has_fields d.
Proof.
  induction d as [d K|ns ts n IH] using dtype_ind_; [destruct d; try contradiction K; intros; exact I|].
  intros d' E H. destruct d' as [| | | | |ns' ts' n'|]; try discriminate E. cbn [derase] in E. injection E as _ E. apply has_fields_struct in H. destruct H as [H1 H2].
  cbn [has_fields]. split; [destruct ts, ts'; try discriminate E; [contradiction H1; reflexivity|discriminate]|]. clear H1 ns ns' n n'. revert ts' E H2.
  induction IH as [|t ts Ht _ IHt]; intros ts' E H2; [exact I|]. destruct ts' as [|t' ts']; [discriminate E|]. cbn [map] in E. injection E as E1 E2. inversion H2; subst. split; [apply (Ht t'); assumption|]. apply (IHt ts'); assumption.
Qed.
Lemma has_fields_cols ns ts n : ts <> [] -> Forall has_fields ts -> has_fields (DStruct ns ts n).
Proof. intros H F. cbn [has_fields]. split; [exact H|]. clear H. induction F; [exact I|split; assumption]. Qed.
Lemma projected_fields ns (ts : list dtype) n (p : list Layout.field) idxs (ns' : list nat) : p <> [] -> length ns <= length ts -> Forall2 (picks ns) p idxs -> Forall has_fields ts -> has_fields (DStruct ns' (map (fun i => nth i ts DNull) idxs) n).
Proof.
  intros NE LT P F. apply has_fields_cols.
  - destruct P; [contradiction NE; reflexivity|discriminate].
  - apply Forall_forall. intros t Ht. apply in_map_iff in Ht. destruct Ht as (i & <- & Hi). rewrite Forall_forall in F. apply F. apply nth_In.
    assert (i < length ns); [|lia]. clear -P Hi. induction P as [|fd j p idxs H _ IH]; [destruct Hi|]. destruct Hi as [->|Hi]; [eapply picks_lt; exact H|auto].
Qed.
Lemma pick_map (g : value -> value) l idx : Forall (fun i => i < length l) idx -> pick (map g l) idx = map g (pick l idx).
Proof.
  intros F. unfold pick. rewrite map_map. apply map_ext_in. intros i Hi. rewrite Forall_forall in F. rewrite (nth_indep (map g l) VNull (g VNull)) by (rewrite map_length; auto). apply map_nth.
Qed.
Lemma picks_index ns out idxs : Forall2 (picks ns) (map FIndex out) idxs -> idxs = out.
Proof. revert idxs. induction out as [|k out IH]; intros idxs H; inversion H as [|? j ? ? P H']; subst; [reflexivity|]. destruct P as [-> _]. f_equal. auto. Qed.
Lemma canon_struct_ok f a ns ts nl c : wf f a -> ArrWf.fc f = true -> adtype a = DStruct ns ts nl -> canon a = Ok c -> logical c = logical a /\ adtype c = DStruct ns ts nl /\ wf (cf f) c.
Proof.
  intros W C D E. destruct (canonical_is_lossless f a W C) as [K _]. destruct (K c E) as (_ & L & _ & _ & T & Wc). rewrite D in T. auto.
Qed.

Lemma take_batch_ok lossy f a ns ts nl out idx b : wf f a -> ArrWf.fc f = true -> ft f = true -> adtype a = DStruct ns ts nl -> length ns = length ts -> Forall has_fields ts -> out <> [] ->
  Forall (fun i => i < length (logical a)) idx -> (Z.of_nat (length idx) <= pmax U64)%Z -> take_batch lossy (map FIndex out) a idx = Ok b ->
  rlogical b = map (proj_row out) (pick (logical a) idx) /\ ~ In VNull (pick (logical a) idx).
Proof.
  intros W C T D LT HF NE IB LI E. unfold take_batch in E. destruct (canon a) as [c| |] eqn:EC; cbn [bind] in E; try discriminate E.
  destruct (canon_struct_ok f a ns ts nl c W C D EC) as (Lc & Dc & Wc).
  assert ((do q <- project (map FIndex out) c; do b <- take q U64 idx; to_record_batch lossy b) = Ok b) as E' by (destruct c; try discriminate E; exact E). clear E.
  destruct (project _ c) as [q| |] eqn:PQ; cbn [bind] in E'; try discriminate E'. destruct (project_selects_the_columns _ _ _ _ _ _ _ Wc Dc PQ) as (idxs & P & Dq & Lq & Wq).
  destruct (take q U64 idx) as [t| |] eqn:TQ; cbn [bind] in E'; try discriminate E'.
  assert (Forall (fun i => i < length (logical q)) idx) as IB' by (rewrite Lq, map_length, Lc; exact IB).
  destruct (take_commutes_with_decoding (cf f) q U64 idx Wq C T eq_refl LI IB') as [TK _]. destruct (TK t TQ) as (T1 & _ & T3 & _ & Wt).
  rewrite spec_take_pick in T1 by exact IB'. injection T1 as T1.
  assert (has_fields (adtype t)) as HT. { apply (has_fields_derase _ _ T3). rewrite Dq. apply (projected_fields ns ts nl (map FIndex out) idxs); auto; [|lia]. destruct out; [contradiction NE; reflexivity|discriminate]. }
  destruct (record_batch_export lossy _ t b Wt (eq_trans (pf_fc (cf f)) C) HT E') as (_ & R2 & R3 & _).
  apply picks_index in P. subst idxs. assert (logical t = map (proj_row out) (pick (logical a) idx)) as LTt by (rewrite <- T1, Lq, Lc; apply pick_map; exact IB).
  split; [rewrite R2; exact LTt|]. intros H. apply R3. rewrite LTt. change VNull with (proj_row out VNull). apply in_map, H.
Qed.

(** * Filtered scans *)
(** Chunks of a table: StructArrays without null rows. [covered]: the filter's columns and literals have flat types, without NaN and -0.0. *)
Definition chunk_ok (f : flags) (ns : list nat) (ts : list dtype) (e : expr Layout.field) (a : array) : Prop :=
  wf f a /\ ~ In VNull (logical a) /\ (Z.of_nat (length (logical a)) <= pmax U64)%Z /\
  exists fls n v, a = AStruct ns fls n v /\ map adtype fls = ts /\ covered ns fls e.
(** The columns a filter refers to, in any order. *)
Definition filter_columns (e : expr Layout.field) (p : list Layout.field) : Prop := forall c, In c p <-> In c (refs e).

Lemma convert_names d e : convert d = Ok e -> forall c, In c (refs e) -> exists n, c = FName n.
Proof.
  revert e. induction d as [n|t x|o l IHl r IHr|n]; intros e H c Hc; cbn [convert] in H; try discriminate H.
  - injection H as <-. destruct Hc as [<-|[]]. eauto.
  - destruct (df_scalar t x) as [[dd y]| |]; cbn [bind] in H; try discriminate H. injection H as <-. destruct Hc.
  - destruct (convert l) as [l'| |]; cbn [bind] in H; try discriminate H. destruct (convert r) as [r'| |]; cbn [bind] in H; try discriminate H.
    destruct o; try discriminate H; injection H as <-; cbn [refs] in Hc; apply in_app_or in Hc; destruct Hc as [Hc|Hc]; eauto.
Qed.
Lemma no_nulls_value ty row d : no_nulls ty row d -> df_eval ty row d <> VNull.
Proof.
  induction d as [n|t x|o l IHl r IHr|n]; cbn [no_nulls df_eval]; auto. destruct o as [c| | |k]; try contradiction.
  - intros [N1 N2]. unfold spec_cmp. destruct (df_eval ty row l) eqn:El; [contradiction (IHl N1); reflexivity|..]; destruct (df_eval ty row r) eqn:Er; try (contradiction (IHr N2); reflexivity); cbn; discriminate.
  - intros (_ & _ & [a ->] & [b ->]). destruct a, b; discriminate.
  - intros (_ & _ & [a ->] & [b ->]). destruct a, b; discriminate.
Qed.
Lemma spec_filter_len {A} (l : list A) m : length l = length m -> length (spec_filter l m) = count id m.
Proof. revert m; induction l as [|x l IH]; intros [|b m] H; try discriminate H; [reflexivity|]. injection H as H. unfold count in *. destruct b; cbn [spec_filter filter id length]; rewrite ?IH by exact H; reflexivity. Qed.
Lemma spec_filter_In {A} (l : list A) m x : In x (spec_filter l m) -> In x l.
Proof. revert m; induction l as [|y l IH]; intros [|b m] H; cbn in H; try destruct H. destruct b; [destruct H as [->|H]; [left; reflexivity|]|]; right; eapply IH; exact H. Qed.
Lemma struct_rows ns fls n v : ~ In VNull (logical (AStruct ns fls n v)) -> logical (AStruct ns fls n v) = tab n (fun i => VStruct (map (fun l => nth i l VNull) (map logical fls))).
Proof.
  intros H. cbn [logical] in *. apply tab_ext. intros i Hi. destruct (vvalid v i) eqn:V; [reflexivity|]. contradiction H. apply In_tab. exists i. rewrite V. auto.
Qed.

(** What a filtered scan returns: chunk by chunk, the chosen columns of the rows of a mask. On a row where nothing the filter uses is null the mask is
    the filter; and no row that passes a conjunction is left out. *)
Theorem filtered_scan_selects_rows :
  forall lossy f table d e p out bs ns ts, ArrWf.fc f = true -> fC f = true -> fv f = true -> ft f = true ->
  convert d = Ok e -> filter_columns e p -> Forall (chunk_ok f ns ts e) table -> Forall has_fields ts -> filtered_scan lossy table e p out = Ok bs ->
  exists masks,
    Forall2 (fun a m => length m = length (logical a) /\ forall i r, nth_error (logical a) i = Some r ->
      (no_nulls (named DNull ns ts) (cells ns r) d -> nth i m false = df_passes (named DNull ns ts) d (cells ns r)) /\
      (conjunction d = true -> df_passes (named DNull ns ts) d (cells ns r) = true -> nth i m false = true)) table masks /\
    Forall2 (fun am b => rlogical b = map (proj_row out) (spec_filter (logical (fst am)) (snd am))) (combine table masks) bs.
Proof.
  intros lossy f table d e p out bs ns ts C1 C2 C3 C4 CV FP CO HF E. unfold filtered_scan in E. destruct (mapM _ table) as [sels| |] eqn:M; cbn [bind] in E; try discriminate E.
  apply mapM_inv in M.
  assert (exists masks, sels = map set_indices masks /\ Forall2 (fun a m => length m = length (logical a) /\ forall i r, nth_error (logical a) i = Some r ->
      (no_nulls (named DNull ns ts) (cells ns r) d -> nth i m false = df_passes (named DNull ns ts) d (cells ns r)) /\
      (conjunction d = true -> df_passes (named DNull ns ts) d (cells ns r) = true -> nth i m false = true)) table masks) as (masks & -> & MK).
  { clear E bs. induction M as [|a idx table sels H _ IH]; [exists []; repeat constructor|]. inversion CO as [|? ? CO1 CO2]; subst. destruct (IH CO2) as (masks & -> & MK).
    destruct CO1 as (W & NN & _ & fls & n & v & -> & TS & CVR).
    destruct (row_indices_ok f ns fls n v e p idx W C1 C2 C3 CVR) as (m & -> & Lm & Vm); [intros c Hc; apply (convert_names d e CV), FP, Hc|intros c Hc; apply FP, Hc|exact H|].
    exists (m :: masks). split; [reflexivity|]. constructor; [|exact MK]. split; [rewrite Lm; symmetry; rewrite logical_length; reflexivity|].
    intros i r Hr. assert (i < n) as Hi. { assert (nth_error (logical (AStruct ns fls n v)) i <> None) as X by congruence. apply nth_error_Some in X. rewrite logical_length in X. exact X. }
    rewrite (struct_rows _ _ _ _ NN) in Hr. apply nth_error_nth with (d := VNull) in Hr. rewrite nth_tab in Hr by exact Hi. subst r. cbn [cells].
    apply wf_struct_iff in W. destruct W as (LF & _ & _). set (row := named VNull ns (map (fun l => nth i l VNull) (map logical fls))). set (ty := named DNull ns ts).
    assert (eval_row (col_type ns fls) (row_at ns fls i) e = eval_row (by_name DNull ty) (by_name VNull row) e) as EQ.
    { apply eval_row_ext. intros c Hc. destruct (convert_names d e CV c Hc) as [k ->]. cbn [by_name]. subst ty row. rewrite <- TS. rewrite (named_col adtype DNull ns fls k LF).
      rewrite map_map. rewrite (named_col (fun a => nth i (logical a) VNull) VNull ns fls k LF). split; reflexivity. }
    destruct (conversion_keeps_meaning ty row d e CV) as (_ & K2 & K3). cbv zeta in K2, K3. specialize (Vm i Hi). rewrite EQ in Vm. split.
    - intros NU. pose proof (no_nulls_value _ _ _ NU) as NV. rewrite <- (K3 NU) in NV. destruct Vm as [Vm|Vm]; [contradiction NV; exact Vm|].
      unfold df_passes. rewrite <- (K3 NU), Vm. destruct (nth i m false); reflexivity.
    - intros CJ PA. unfold df_passes in PA. assert (df_eval ty row d = VBool true) as PT by (destruct (df_eval ty row d) as [|[]| | |]; try discriminate PA; reflexivity).
      apply (K2 CJ) in PT. destruct Vm as [Vm|Vm]; congruence. }
  exists masks. split; [exact MK|].
  assert (Forall2 (fun a m => length m = length (logical a)) table masks) as LM by (clear -MK; induction MK as [|? ? ? ? [H _]]; constructor; auto). clear MK M.
  assert (forall pre t ms bs, Forall2 (fun a m => length m = length (logical a)) t ms -> Forall (chunk_ok f ns ts e) t -> (out = [] \/ pre = length table - length t) -> (exists q, table = q ++ t /\ (out = [] \/ length q = pre)) ->
    take_rows lossy (map FIndex out) table pre (map set_indices ms) = Ok bs ->
    Forall2 (fun am b => rlogical b = map (proj_row out) (spec_filter (logical (fst am)) (snd am))) (combine t ms) bs) as G.
  { clear bs E LM CO masks. intros pre t ms bs L. revert pre bs. induction L as [|a m t ms Lm _ IH]; intros pre bs CO PRE (q & QT & QL) E; cbn [map take_rows] in E; [injection E as <-; constructor|].
    pose proof (Forall_inv CO) as CO1. pose proof (Forall_inv_tail CO) as CO2. destruct (length table <? pre); try discriminate E. cbn [combine]. destruct CO1 as (W & NN & BZ & fls & n & v & EA & TS & CVR).
    destruct out as [|o0 out'].
    - cbn [map] in E. destruct (take_rows _ _ _ _ _) as [rs| |] eqn:TR; cbn [bind] in E; try discriminate E. injection E as <-. constructor.
      + cbn [fst snd rlogical map ok_at]. rewrite set_indices_length, <- (spec_filter_len (logical a) m) by (symmetry; exact Lm).
        assert (Forall (fun r => proj_row [] r = VStruct []) (spec_filter (logical a) m)) as FA.
        { apply Forall_forall. intros r Hr. apply spec_filter_In in Hr. rewrite EA, (struct_rows ns fls n v) in Hr by (rewrite <- EA; exact NN). apply In_tab in Hr. destruct Hr as (i & _ & ->). reflexivity. }
        clear -FA. induction FA as [|r l H _ IHl]; [reflexivity|]. cbn [length map]. rewrite H, <- IHl. unfold tab. cbn [seq map]. f_equal. rewrite <- seq_shift, map_map. reflexivity.
      + apply (IH pre); [exact CO2|left; reflexivity| |exact TR]. exists (q ++ [a]). rewrite <- app_assoc. split; [exact QT|left; reflexivity].
    - destruct QL as [QL|QL]; [discriminate QL|]. cbn [map] in E. assert (nth_error table pre = Some a) as NE by (rewrite QT, nth_error_app2, QL, Nat.sub_diag by lia; reflexivity). rewrite NE in E.
      destruct (take_batch _ _ _ _) as [b| |] eqn:TB; cbn [bind] in E; try discriminate E. destruct (take_rows _ _ _ _ _) as [rs| |] eqn:TR; cbn [bind] in E; try discriminate E. injection E as <-. constructor.
      + cbn [fst snd]. assert (length ns = length ts) as LN. { rewrite EA in W. apply wf_struct_iff in W. destruct W as (LF & _). rewrite <- TS, map_length. exact LF. }
        rewrite OpsBase.spec_filter_pick by (symmetry; exact Lm).
        apply (take_batch_ok lossy f a ns ts (vnullable v) (o0 :: out') (set_indices m) b W C1 C4); auto; [rewrite EA; cbn [adtype]; rewrite TS; reflexivity|discriminate|rewrite <- Lm; apply set_indices_lt|].
        rewrite set_indices_length. pose proof (count_id_le m). lia.
      + apply (IH (S pre)); [exact CO2| | |exact TR].
        * right. apply (f_equal (@length array)) in QT. rewrite app_length in QT. cbn [length] in QT. lia.
        * exists (q ++ [a]). rewrite <- app_assoc. split; [exact QT|right]. rewrite app_length. cbn [length]. lia. }
  apply (G 0 table masks bs LM CO); [right; lia|exists []; split; [reflexivity|right; reflexivity]|exact E].
Qed.
Print Assumptions filtered_scan_selects_rows.

(** If nothing the filter uses is null, the query returns exactly the rows that pass, in order. *)
Theorem filtered_scan_is_the_query :
  forall lossy f table d e p out bs ns ts, ArrWf.fc f = true -> fC f = true -> fv f = true -> ft f = true ->
  convert d = Ok e -> filter_columns e p -> Forall (chunk_ok f ns ts e) table -> Forall has_fields ts ->
  (forall r, In r (concat (map logical table)) -> no_nulls (named DNull ns ts) (cells ns r) d) -> filtered_scan lossy table e p out = Ok bs ->
  concat (map rlogical bs) = map (proj_row out) (filter (fun r => df_passes (named DNull ns ts) d (cells ns r)) (concat (map logical table))).
Proof.
  intros lossy f table d e p out bs ns ts C1 C2 C3 C4 CV FP CO HF NU E.
  destruct (filtered_scan_selects_rows lossy f table d e p out bs ns ts C1 C2 C3 C4 CV FP CO HF E) as (masks & MK & BS). clear E CO.
  revert bs BS. induction MK as [|a m table masks [Lm Vm] _ IH]; intros bs BS; cbn [combine] in BS; inversion BS as [|? b ? bs' B1 BS']; subst; [reflexivity|].
  cbn [map concat fst snd] in *. rewrite filter_app, map_app. rewrite (IH (fun r Hr => NU r (in_or_app _ _ _ (or_intror Hr))) bs' BS'). f_equal. rewrite B1. f_equal.
  assert (forall i r, nth_error (logical a) i = Some r -> nth i m false = df_passes (named DNull ns ts) d (cells ns r)) as V.
  { intros i r Hr. apply Vm; [exact Hr|]. apply NU. apply in_or_app. left. eapply nth_error_In; exact Hr. }
  clear -Lm V. revert m Lm V. induction (logical a) as [|x l IHl]; intros [|b m] L V; try discriminate L; [reflexivity|]. injection L as L. cbn [spec_filter filter].
  rewrite <- (V 0 x eq_refl). cbn [nth]. rewrite (IHl m L (fun i r H => V (S i) r H)). reflexivity.
Qed.
Print Assumptions filtered_scan_is_the_query.

(** Without a filter: the chosen columns of all rows, whatever the encoding of the chunks. *)
Theorem full_scan_is_the_query :
  forall lossy f table out bs ns ts nl, ArrWf.fc f = true -> out <> [] -> length ns = length ts -> Forall has_fields ts ->
  Forall (fun a => wf f a /\ adtype a = DStruct ns ts nl) table -> full_scan lossy table out = Ok bs ->
  concat (map rlogical bs) = map (proj_row out) (concat (map logical table)) /\ ~ In VNull (concat (map logical table)).
Proof.
  intros lossy f table out bs ns ts nl C NE LT HF CO E. unfold full_scan in E. apply mapM_inv in E. induction E as [|a b table bs H _ IH]; [cbn; auto|].
  inversion CO as [|? ? [W D] CO2]; subst. destruct (IH CO2) as [I1 I2]. cbn [map concat]. rewrite map_app, I1.
  destruct (canon a) as [c| |] eqn:EC; cbn [bind] in H; try discriminate H. destruct (canon_struct_ok f a ns ts nl c W C D EC) as (Lc & Dc & Wc).
  assert ((do q <- project (map FIndex out) c; to_record_batch lossy q) = Ok b) as E' by (destruct c; try discriminate H; exact H). clear H.
  destruct (project _ c) as [q| |] eqn:PQ; cbn [bind] in E'; try discriminate E'. destruct (project_selects_the_columns _ _ _ _ _ _ _ Wc Dc PQ) as (idxs & P & Dq & Lq & Wq).
  assert (has_fields (adtype q)) as HT. { rewrite Dq. apply (projected_fields ns ts nl (map FIndex out) idxs); auto; [|lia]. destruct out; [contradiction NE; reflexivity|discriminate]. }
  destruct (record_batch_export lossy _ q b Wq C HT E') as (_ & R2 & R3 & _). apply picks_index in P. subst idxs.
  split; [f_equal; rewrite R2, Lq, Lc; reflexivity|]. intros H. apply in_app_or in H. destruct H as [H|H]; [|exact (I2 H)]. apply R3. rewrite Lq, Lc. change VNull with (proj_row out VNull). apply in_map, H.
Qed.
Print Assumptions full_scan_is_the_query.

(** * What it does not do *)
(** Null [or] true is true for DataFusion and null for Vortex. *)
Theorem or_of_null_refuted :
  ~ (forall ty row e e', convert e = Ok e' -> eval_row (by_name DNull ty) (by_name VNull row) e' = df_eval ty row e).
Proof.
  intros H. specialize (H (fun _ => DBool true) (fun n => if n =? 1 then VNull else VBool true) (FBin OpOr (FCol 1) (FCol 2)) _ eq_refl). discriminate H.
Qed.
Print Assumptions or_of_null_refuted.

(** A nullable column of integers, another of booleans; the bits under the nulls are 5 and 7. *)
Definition chunk1 : array := AStruct [1; 2] [APrim I32 [5; 7; 5; 9]%Z (VBits [false; true; true; false]); ABool 0 [false; true; true; false] 4 VNonNull] 4 VNonNull.
Definition f_q : flags := Flags false false true true true true false false false false.
Definition is_five : dfexpr := FBin (OpCmp CEq) (FCol 1) (FLit (TPrim I32) (VInt 5)).
Definition cols1 : list dtype := [DPrim I32 true; DBool false].
Definition as_e (d : dfexpr) : expr Layout.field := match convert d with Ok e => e | _ => EIdentity end.
Lemma chunk1_ok : chunk_ok f_q [1; 2] cols1 (as_e is_five) chunk1.
Proof.
  split; [unfold chunk1, f_q; wf_tac|]. split; [cbn; intuition discriminate|]. split; [vm_compute; discriminate|].
  do 3 eexists. split; [reflexivity|]. split; [reflexivity|]. cbn [as_e convert is_five df_scalar from_arrow_type bind covered].
  split; [|split; [|right; right; left; eexists; split; [reflexivity|exact I]]].
  - intros a [= <-]. split; [reflexivity|]. unfold plain. apply Forall_forall. intros x _. destruct x; try exact I; intros F; discriminate F.
  - split; [cbn; unfold in_range; cbn; lia|]. split; [reflexivity|]. split; [discriminate|intros F; discriminate F].
Qed.
(** A filter is handed to Vortex whole (Exact pushdown), but rows on which it is null may be returned: the stored bits decide. *)
Theorem null_rows_are_not_returned_refuted :
  ~ (forall lossy f table d e p out bs ns ts, ArrWf.fc f = true -> fC f = true -> fv f = true -> ft f = true ->
     convert d = Ok e -> filter_columns e p -> Forall (chunk_ok f ns ts e) table -> Forall has_fields ts -> filtered_scan lossy table e p out = Ok bs ->
     concat (map rlogical bs) = map (proj_row out) (filter (fun r => df_passes (named DNull ns ts) d (cells ns r)) (concat (map logical table)))).
Proof.
  intros H. specialize (H (fun s => s) f_q [chunk1] is_five (as_e is_five) [FName 1] [0; 1]).
  assert (filtered_scan (fun s => s) [chunk1] (as_e is_five) [FName 1] [0; 1] =
    Ok [RStruct [1; 2] [true; false] [RPrim I32 [5; 5]%Z (Some [false; true]); RBool 0 [false; true] 2 None] 2 None]) as R by (vm_compute; reflexivity).
  assert (filter_columns (as_e is_five) [FName 1]) as FP by (intros c; cbn; tauto).
  assert (Forall has_fields cols1) as HF by (repeat constructor).
  specialize (H _ [1; 2] cols1 eq_refl eq_refl eq_refl eq_refl eq_refl FP (Forall_cons _ chunk1_ok (Forall_nil _)) HF R). vm_compute in H. discriminate H.
Qed.
Print Assumptions null_rows_are_not_returned_refuted.
(** A filter accepted for pushdown can fail: the type of a null literal is lost. *)
Theorem accepted_filters_run_refuted :
  ~ (forall lossy sch d e table ns ts f, can_be_pushed_down sch d = true -> convert d = Ok e -> Forall (chunk_ok f ns ts (as_e is_five)) table -> exists bs, filtered_scan lossy table e (refs e) [0] = Ok bs).
Proof.
  intros H. destruct (H (fun s => s) [(1, TPrim I32)] (FBin (OpCmp CEq) (FCol 1) (FLit (TPrim I32) VNull)) _ [chunk1] [1; 2] cols1 f_q eq_refl eq_refl (Forall_cons _ chunk1_ok (Forall_nil _))) as [bs E].
  vm_compute in E. discriminate E.
Qed.
Print Assumptions accepted_filters_run_refuted.
(** Counting the rows of a table without a filter: the batches have no columns and no rows. *)
Theorem full_scan_counts_rows_refuted :
  ~ (forall lossy f table bs ns ts nl, ArrWf.fc f = true -> length ns = length ts -> Forall (fun a => wf f a /\ adtype a = DStruct ns ts nl) table ->
     full_scan lossy table [] = Ok bs -> list_sum (map rlen bs) = list_sum (map alen table)).
Proof.
  intros H. specialize (H (fun s => s) f_q [chunk1] [RStruct [] [] [] 0 None] [1; 2] cols1 false eq_refl eq_refl).
  discriminate H; [|vm_compute; reflexivity]. constructor; [split; [apply chunk1_ok|reflexivity]|constructor].
Qed.
Print Assumptions full_scan_counts_rows_refuted.

(** * Concrete cases *)
(** Two chunks without nulls, the second in other encodings; the query c1 >= 7 and c2, output columns c2, c1. *)
Definition table2 : list array :=
  [AStruct [1; 2] [APrim I32 [5; 7; 9]%Z VNonNull; ABool 0 [true; true; false] 3 VNonNull] 3 VNonNull;
   AStruct [1; 2] [AZigZag (APrim U32 [20; 2; 18]%Z VNonNull); AByteBool [1; 0; 1]%Z VNonNull] 3 VNonNull].
Definition cols2 : list dtype := [DPrim I32 false; DBool false].
Definition query : dfexpr := FBin OpAnd (FBin (OpCmp CGe) (FCol 1) (FLit (TPrim I32) (VInt 7))) (FBin (OpCmp CEq) (FCol 2) (FLit TBool (VBool true))).
Example query_hypotheses :
  can_be_pushed_down [(1, TPrim I32); (2, TBool)] query = true /\ convert query = Ok (as_e query) /\ filter_columns (as_e query) [FName 2; FName 1] /\
  Forall (chunk_ok f_q [1; 2] cols2 (as_e query)) table2 /\ Forall has_fields cols2 /\
  (forall r, In r (concat (map logical table2)) -> no_nulls (named DNull [1; 2] cols2) (cells [1; 2] r) query) /\
  filtered_scan (fun s => s) table2 (as_e query) [FName 2; FName 1] [1; 0] =
    Ok [RStruct [2; 1] [false; false] [RBool 0 [true] 1 None; RPrim I32 [7]%Z None] 1 None; RStruct [2; 1] [true; false] [RBool 0 [true; true] 2 None; RPrim I32 [10; 9]%Z None] 2 None].
Proof.
  assert (HF : Forall has_fields cols2) by (repeat constructor).
  assert (HC : Forall (chunk_ok f_q [1; 2] cols2 (as_e query)) table2).
  { apply Forall_forall. intros a Ha. destruct Ha as [<-|[<-|[]]].
    all: split; [unfold f_q; wf_tac; do 2 eexists; split; reflexivity|]; split; [cbn; intuition discriminate|]; split; [vm_compute; discriminate|].
    all: do 3 eexists; split; [reflexivity|]; split; [reflexivity|]; cbn [as_e convert query df_scalar from_arrow_type bind covered].
    all: split; (split; [intros a [= <-]; split; [reflexivity|]; unfold plain; apply Forall_forall; intros x _; destruct x; try exact I; intros F; discriminate F|]).
    all: split; [split; [first [exact I|reflexivity|cbn; unfold in_range; cbn; lia]|]; split; [reflexivity|]; split; [discriminate|first [exact I|intros F; discriminate F]]|left; reflexivity]. }
  split; [reflexivity|]. split; [reflexivity|]. split; [intros c; cbn; tauto|]. split; [exact HC|]. split; [exact HF|]. split; [|vm_compute; reflexivity].
  intros r Hr. cbn in Hr. repeat (destruct Hr as [<-|Hr]; [cbn; repeat split; try discriminate; eexists; reflexivity|]). destruct Hr.
Qed.
(** The rows passing are what the theorem says. *)
Example query_result :
  map (proj_row [1; 0]) (filter (fun r => df_passes (named DNull [1; 2] cols2) query (cells [1; 2] r)) (concat (map logical table2))) =
  [VStruct [VBool true; VInt 7]; VStruct [VBool true; VInt 10]; VStruct [VBool true; VInt 9]].
Proof. vm_compute. reflexivity. Qed.
Example full_scan_case :
  full_scan (fun s => s) table2 [1] = Ok [RStruct [2] [false] [RBool 0 [true; true; false] 3 None] 3 None; RStruct [2] [false] [RBool 0 [true; false; true] 3 None] 3 None].
Proof. vm_compute. reflexivity. Qed.
