(** C50: columns of struct arrays and projections. *)
From Verif Require Import Base Spec Arr ArrRead ArrWf ArrReadProofs ArrSlice ArrSliceProofs ArrOps OpsBase OpsCanon OpsCanon2 OpsFlat PropOps DateTime PropIntEnc Layout PropLayout PropFile StructOps PropIter PropOpsX.

(** * Specification *)
(** [picks ns fd i] (PropLayout): field [fd] is the first of its name, or the [i]-th, in [ns]; [proj_row idxs] keeps the columns [idxs]. *)
(** No struct constant is null. *)
Fixpoint no_null_const (a : array) : Prop :=
  match a with
  | AConst _ x _ => x <> VNull
  | AChunked _ cs => (fix go l := match l with [] => True | c :: q => no_null_const c /\ go q end) cs
  | _ => True
  end.

(** * Lemmas *)
Lemma nth_error_map_ {A B} (f : A -> B) l i : nth_error (map f l) i = option_map f (nth_error l i).
Proof. revert i; induction l as [|x l IH]; intros [|i]; cbn; auto. Qed.
Lemma picks_of_resolve ns fd i m : resolve_field ns fd = Ok i -> nth_error ns i = Some m -> picks ns fd i.
Proof.
  destruct fd as [n|k]; cbn [resolve_field picks]; intros R N.
  - destruct (position ns n) as [j|] eqn:P; [|discriminate R]. assert (j = i) as -> by congruence. apply position_spec. exact P.
  - split; [congruence|]. apply nth_error_Some. congruence.
Qed.
Lemma struct_project_inv ns ts p ns' ts' : struct_project ns ts p = Ok (ns', ts') ->
  exists idxs, Forall2 (picks ns) p idxs /\ Forall (fun i => i < length ts) idxs /\ ns' = map (fun i => nth i ns 0) idxs /\ ts' = map (fun i => nth i ts DNull) idxs.
Proof.
  unfold struct_project. revert ns' ts'. induction p as [|fd p IH]; intros ns' ts' E; cbn [mapM] in E.
  - injection E as <- <-. exists []. repeat constructor.
  - destruct (field_info ns ts fd) as [[[i n] t]| |] eqn:F; cbn [bind] in E; try discriminate E. destruct (mapM (field_info ns ts) p) as [l| |]; cbn [bind] in E; try discriminate E.
    injection E as <- <-. destruct (IH _ _ eq_refl) as (idxs & P & T & -> & ->). destruct (field_lookup_sound _ _ _ _ _ _ F) as (P1 & N1 & N2).
    exists (i :: idxs). split; [constructor; assumption|]. split; [constructor; [apply nth_error_Some; congruence|exact T]|].
    cbn [map fst snd]. rewrite (nth_error_nth _ _ 0 N1), (nth_error_nth _ _ DNull N2). split; reflexivity.
Qed.
Lemma struct_project_ok ns ts p idxs : length ns = length ts -> Forall2 (picks ns) p idxs ->
  struct_project ns ts p = Ok (map (fun i => nth i ns 0) idxs, map (fun i => nth i ts DNull) idxs).
Proof.
  intros L H. pose proof (field_lookup_agrees ns ts false p idxs L H) as (S1 & _). cbn [schema_project] in S1.
  destruct (struct_project ns ts p) as [[a b]| |]; cbn [bind] in S1; try discriminate S1. congruence.
Qed.
Lemma Forall2_picks_fun ns p l1 : Forall2 (picks ns) p l1 -> forall l2, Forall2 (picks ns) p l2 -> l1 = l2.
Proof.
  induction 1 as [|fd i p l1 P _ IH]; intros l2 H2; inversion H2 as [|? j ? ? Q H2']; subst; [reflexivity|]. f_equal; [|auto].
  apply resolve_ok in P. apply resolve_ok in Q. congruence.
Qed.
Lemma vstruct_typed ns ts n vs : vtyped (DStruct ns ts n) (VStruct vs) <-> Forall2 vtyped ts vs.
Proof.
  cbn [vtyped]. revert ts. induction vs as [|v vs IH]; intros [|t ts]; cbn; split; try tauto; try (intros H; inversion H; fail); auto.
  - intros [H1 H2]. constructor; [exact H1|apply IH; exact H2].
  - intros H. inversion H; subst. split; [assumption|apply IH; assumption].
Qed.
Lemma Forall2_nth_ {A B} (R : A -> B -> Prop) l r i da db : Forall2 R l r -> i < length l -> R (nth i l da) (nth i r db).
Proof. intros H; revert i; induction H; intros [|i] Hi; cbn in *; try lia; auto. apply IHForall2; lia. Qed.
Lemma Forall2_len {A B} (R : A -> B -> Prop) l r : Forall2 R l r -> length l = length r.
Proof. induction 1; cbn; congruence. Qed.

(** [project] of a constant's value. *)
Lemma scalar_project_inv ns ts nl x p ns' ts' y : vtyped (DStruct ns ts nl) x -> scalar_project ns ts x p = Ok (ns', ts', y) ->
  exists idxs, Forall2 (picks ns) p idxs /\ ns' = map (fun i => nth i ns 0) idxs /\ ts' = map (fun i => nth i ts DNull) idxs /\ y = proj_row idxs x /\ vtyped (DStruct ns' ts' nl) y.
Proof.
  intros T E. destruct x as [| | | |vs]; cbn [vtyped] in T; try contradiction T; cbn [scalar_project] in E.
  - destruct (struct_project ns ts p) as [[a b]| |] eqn:SP; cbn [bind] in E; try discriminate E. injection E as <- <- <-.
    destruct (struct_project_inv _ _ _ _ _ SP) as (idxs & P & _ & -> & ->). exists idxs. repeat split; auto.
  - destruct (struct_project ns ts p) as [[a b]| |] eqn:SP; cbn [bind] in E; try discriminate E.
    destruct (mapM _ p) as [ys| |] eqn:M; cbn [bind] in E; try discriminate E. injection E as <- <- <-.
    destruct (struct_project_inv _ _ _ _ _ SP) as (idxs & P & B & -> & ->). exists idxs. split; [exact P|]. split; [reflexivity|]. split; [reflexivity|].
    apply (proj1 (vstruct_typed ns ts nl vs)) in T.
    assert (ys = map (fun i => nth i vs VNull) idxs) as ->.
    { clear -M P. revert ys M. induction P as [|fd i p idxs Pf _ IH]; intros ys M; cbn [mapM] in M; [injection M as <-; reflexivity|].
      rewrite (resolve_ok _ _ _ Pf) in M. cbn [expect bind] in M. destruct (nth_error vs i) as [z|] eqn:N; cbn [bind] in M; try discriminate M.
      destruct (mapM _ p) as [zs| |]; cbn [bind] in M; try discriminate M. injection M as <-. cbn [map]. rewrite (IH _ eq_refl), (nth_error_nth _ _ VNull N). reflexivity. }
    split; [reflexivity|]. apply vstruct_typed. clear -T B. induction B as [|i idxs Hi _ IH]; cbn [map]; constructor; [|exact IH]. apply Forall2_nth_; assumption.
Qed.
Lemma proj_row_null idxs : proj_row idxs VNull = VNull. Proof. reflexivity. Qed.
Lemma mapM_id_inv {A B} (g : A -> result B) l r : mapM (fun x => x) (map g l) = Ok r -> Forall2 (fun x y => g x = Ok y) l r.
Proof.
  revert r; induction l as [|x l IH]; intros r E; cbn [map mapM] in E; [injection E as <-; constructor|].
  destruct (g x) as [y| |] eqn:G; cbn [bind] in E; try discriminate E. destruct (mapM _ _) as [ys| |]; cbn [bind] in E; try discriminate E. injection E as <-. constructor; auto.
Qed.

(** * Projection *)
(** Projecting keeps the chosen columns, in the chosen order, of every row that is not null; names, types and nullability follow. *)
Theorem project_selects_the_columns :
  forall f a p r ns ts n, wf f a -> adtype a = DStruct ns ts n -> project p a = Ok r ->
  exists idxs, Forall2 (picks ns) p idxs /\
    adtype r = DStruct (map (fun i => nth i ns 0) idxs) (map (fun i => nth i ts DNull) idxs) n /\
    logical r = map (proj_row idxs) (logical a) /\ wf f r.
Proof.
  intros f. apply (array_ind_p (fun a => forall p r ns ts n, wf f a -> adtype a = DStruct ns ts n -> project p a = Ok r ->
    exists idxs, Forall2 (picks ns) p idxs /\ adtype r = DStruct (map (fun i => nth i ns 0) idxs) (map (fun i => nth i ts DNull) idxs) n /\
    logical r = map (proj_row idxs) (logical a) /\ wf f r)); try (intros; match goal with H : project _ _ = Ok _ |- _ => discriminate H end).
  - intros ns0 fls n0 v _ p r ns ts n W T E. cbn [adtype] in T. injection T as -> <- <-. apply wf_struct_iff in W. destruct W as (L & V & F). cbn [project] in E.
    destruct (mapM _ p) as [l| |] eqn:M; cbn [bind] in E; try discriminate E.
    assert (exists idxs, Forall2 (picks ns) p idxs /\ map fst l = map (fun i => nth i ns 0) idxs /\ map snd l = map (fun i => nth i fls (ANull 0)) idxs) as (idxs & P & N & C).
    { clear -M. revert l M. induction p as [|fd p IH]; intros l M; cbn [mapM] in M; [injection M as <-; exists []; repeat constructor|].
      destruct (resolve_field ns fd) as [i| |] eqn:R; cbn [bind] in M; try discriminate M. destruct (nth_error ns i) as [m|] eqn:N; cbn [bind] in M; try discriminate M.
      destruct (nth_error fls i) as [c|] eqn:C; cbn [bind] in M; try discriminate M. destruct (mapM _ p) as [q| |]; cbn [bind] in M; try discriminate M. injection M as <-.
      destruct (IH _ eq_refl) as (idxs & P & E1 & E2). exists (i :: idxs). split; [constructor; [exact (picks_of_resolve _ _ _ _ R N)|exact P]|].
      cbn [map fst snd]. rewrite E1, E2, (nth_error_nth _ _ 0 N), (nth_error_nth _ _ (ANull 0) C). split; reflexivity. }
    assert (Forall (fun i => i < length fls) idxs) as B. { rewrite <- L. clear -P. induction P; constructor; auto. eapply picks_lt; eassumption. }
    rewrite N, C in E. unfold try_struct in E. rewrite !map_length, Nat.eqb_refl in E. cbn [negb] in E.
    destruct (forallb _ _) eqn:FL; cbn [negb] in E; try discriminate E. destruct (vfits v n0); cbn [negb] in E; try discriminate E. injection E as <-.
    exists idxs. split; [exact P|]. split; [|split].
    + cbn [adtype]. f_equal. rewrite !map_map. apply map_ext_in. intros i Hi. rewrite Forall_forall in B. rewrite (map_nth_lt _ _ (ANull 0)) by (apply B; exact Hi). reflexivity.
    + cbn [logical]. rewrite map_tab. apply tab_ext. intros j Hj. destruct (vvalid v j); [|reflexivity]. cbn [proj_row]. f_equal. rewrite !map_map. apply map_ext_in. intros i Hi. rewrite Forall_forall in B.
      rewrite (map_nth_lt (fun x => nth j (logical x) VNull) _ (ANull 0)) by (apply B; exact Hi). reflexivity.
    + apply wf_struct_iff. rewrite !map_length. split; [reflexivity|]. split; [exact V|]. apply Forall_map. eapply Forall_impl; [|exact B]. intros i Hi. rewrite Forall_forall in F. apply F, nth_In, Hi.
  - intros d x k p r ns ts n W T E. cbn [adtype] in T. subst d. cbn [project] in E. destruct W as [Tx Fl].
    destruct (scalar_project ns ts x p) as [[[ns' ts'] y]| |] eqn:SP; cbn [bind] in E; try discriminate E. injection E as <-.
    destruct (scalar_project_inv _ _ _ _ _ _ _ _ Tx SP) as (idxs & P & -> & -> & -> & Ty). exists idxs. split; [exact P|]. split; [reflexivity|]. split.
    + cbn [logical]. clear. induction k as [|k IH]; cbn [repeat map]; congruence.
    + split; [exact Ty|]. intros CC. destruct (Fl CC) as [FF _]. discriminate FF.
  - intros i vs o k fl _ _ p r ns ts n W T E. exfalso. destruct W as (_ & _ & _ & _ & _ & _ & _ & _ & _ & Fl & _). cbn [adtype] in T. rewrite T in Fl. discriminate Fl.
  - intros d cs IH p r ns ts n W T E. cbn [adtype] in T. subst d. cbn [project] in E. pose proof W as W0. cbn [wf] in W. destruct W as (Wc & W1 & W2 & W3 & W4 & W5 & W6 & W7). apply wf_chunks_iff in Wc.
    destruct (mapM _ _) as [l| |] eqn:M; cbn [bind] in E; try discriminate E. apply mapM_id_inv in M.
    destruct (struct_project ns ts p) as [[ns' ts']| |] eqn:SP; cbn [bind] in E; try discriminate E. unfold try_chunked in E. destruct (forallb _ l) eqn:FL; try discriminate E. injection E as <-.
    destruct (struct_project_inv _ _ _ _ _ SP) as (idxs & P & B & -> & ->). exists idxs. split; [exact P|]. split; [reflexivity|].
    assert (Forall2 (fun c y => logical y = map (proj_row idxs) (logical c) /\ wf f y /\ alen y = alen c) cs l) as X.
    { clear -IH M Wc P. induction M as [|c y cs l E _ IHM]; constructor.
      - inversion IH as [|? ? IHc _]; subst. inversion Wc as [|? ? [Hc Dc] _]; subst. destruct (IHc p y ns ts n Hc Dc E) as (idxs' & P' & _ & Lg & Wy).
        rewrite (Forall2_picks_fun _ _ _ P' _ P) in Lg. split; [exact Lg|]. split; [exact Wy|]. rewrite <- !logical_length, Lg, map_length. reflexivity.
      - inversion IH; subst. inversion Wc; subst. auto. }
    split.
    + cbn [logical]. clear -X. induction X as [|c y cs l (L & _) _ IH]; cbn [map concat]; [reflexivity|]. rewrite map_app, L, IH. reflexivity.
    + cbn [wf]. split; [|split; [|split; [exact W2|split; [|split; [|split; [|split]]]]]].
      * apply wf_chunks_iff. apply Forall_forall. intros y Hy. split.
        -- clear -X Hy. induction X as [|c z cs l (_ & Wz & _) _ IH]; [destruct Hy|destruct Hy as [->|Hy]; auto].
        -- apply dtype_eqb_eq. exact (proj1 (forallb_forall _ _) FL y Hy).
      * intros S1 ->. apply (W1 S1). inversion X. reflexivity.
      * exact W3.
      * exact W4.
      * intros C. destruct (W5 C) as [H|[_ H]]; [left; exact H|discriminate H].
      * intros N. specialize (W6 N). assert (map alen l = map alen cs) as -> by (clear -X; induction X as [|c z cs l (_ & _ & A) _ IH]; cbn [map]; congruence). exact W6.
      * intros CC. rewrite !map_length. reflexivity.
Qed.
Print Assumptions project_selects_the_columns.
(** It succeeds whenever every field is found. *)
Theorem project_succeeds :
  forall f a p idxs ns ts n, wf f a -> adtype a = DStruct ns ts n -> length ns = length ts -> Forall2 (picks ns) p idxs -> exists r, project p a = Ok r.
Proof.
  intros f a p idxs ns ts n W T L P. revert W T. revert a.
  apply (array_ind_p (fun a => wf f a -> adtype a = DStruct ns ts n -> exists r, project p a = Ok r)); try (intros; match goal with H : adtype _ = DStruct _ _ _ |- _ => discriminate H end).
  - intros u w b v _ T. destruct u; discriminate T.
  - intros u o b v _ _ T. destruct u; discriminate T.
  - intros ns0 fls k v _ W T. cbn [adtype] in T. injection T as -> E2 _. apply wf_struct_iff in W. destruct W as (Ln & V & F). cbn [project].
    assert (mapM (fun fd => do i <- resolve_field ns fd; match nth_error ns i with None => Panic | Some m => match nth_error fls i with Some c => Ok (m, c) | None => Err end end) p =
      Ok (map (fun i => (nth i ns 0, nth i fls (ANull 0))) idxs)) as ->.
    { clear -P Ln. induction P as [|fd i p idxs H _ IH]; [reflexivity|]. cbn [mapM map]. rewrite (resolve_ok _ _ _ H). cbn [bind]. pose proof (picks_lt _ _ _ H).
      rewrite (nth_error_nth' ns 0), (nth_error_nth' fls (ANull 0)) by lia. cbn [bind]. rewrite IH. reflexivity. }
    cbn [bind]. unfold try_struct. rewrite !map_length, Nat.eqb_refl. cbn [negb].
    assert (forallb (fun x => alen x =? k) (map snd (map (fun i => (nth i ns 0, nth i fls (ANull 0))) idxs)) = true) as ->.
    { apply forallb_forall. intros x Hx. rewrite map_map in Hx. apply in_map_iff in Hx. destruct Hx as (i & <- & Hi). cbn [snd]. apply Nat.eqb_eq. rewrite Forall_forall in F. apply F, nth_In.
      clear -P Ln Hi. induction P as [|fd j p idxs H _ IH]; [destruct Hi|destruct Hi as [->|Hi]; auto]. rewrite <- Ln. eapply picks_lt; eassumption. }
    rewrite (proj2 (vfits_vwf v k) V). cbn [negb]. eauto.
  - intros d x k W T. cbn [adtype] in T. subst d. cbn [project]. destruct W as [Tx _]. destruct x as [| | | |vs]; try contradiction Tx; cbn [scalar_project]; rewrite (struct_project_ok ns ts p idxs L P); cbn [bind].
    + eauto.
    + apply (proj1 (vstruct_typed ns ts n vs)) in Tx. pose proof (Forall2_len _ _ _ Tx) as LT.
      assert (mapM (fun fd => do i <- expect (resolve_field ns fd); match nth_error vs i with Some y => Ok y | None => Panic end) p = Ok (map (fun i => nth i vs VNull) idxs)) as ->.
      { clear -P L LT. induction P as [|fd i p idxs H _ IH]; [reflexivity|]. cbn [mapM map]. rewrite (resolve_ok _ _ _ H). cbn [expect bind]. pose proof (picks_lt _ _ _ H).
        rewrite (nth_error_nth' vs VNull) by lia. cbn [bind]. rewrite IH. reflexivity. }
      cbn [bind]. eauto.
  - intros i vs o k fl _ _ W T. exfalso. destruct W as (_ & _ & _ & _ & _ & _ & _ & _ & _ & Fl & _). cbn [adtype] in T. rewrite T in Fl. discriminate Fl.
  - intros d cs IH W T. cbn [adtype] in T. subst d. cbn [project]. cbn [wf] in W. destruct W as (Wc & _). apply wf_chunks_iff in Wc.
    assert (exists l, mapM (fun r => r) (map (project p) cs) = Ok l) as [l E].
    { clear -IH Wc. induction cs as [|c cs IHc]; [exists []; reflexivity|]. inversion IH as [|? ? Hc IH']; subst. inversion Wc as [|? ? [W1 T1] Wc']; subst. destruct (Hc W1 T1) as [r R]. destruct (IHc IH' Wc') as [l E].
      exists (r :: l). cbn [map mapM]. rewrite R. cbn [bind]. rewrite E. reflexivity. }
    rewrite E. cbn [bind]. rewrite (struct_project_ok ns ts p idxs L P). cbn [bind]. unfold try_chunked.
    rewrite (proj2 (forallb_forall _ _)); [eauto|]. intros y Hy. apply dtype_eqb_eq. apply mapM_id_inv in E. clear -E Hy Wc P.
    induction E as [|c z cs l R _ IHE]; [destruct Hy|]. inversion Wc as [|? ? [W1 T1] Wc']; subst. destruct Hy as [->|Hy]; [|apply IHE; assumption].
    destruct (project_selects_the_columns f c p y ns ts n W1 T1 R) as (idxs' & P' & D & _). rewrite (Forall2_picks_fun _ _ _ P' _ P) in D. exact D.
  - intros c v _ _ W T. exfalso. cbn [adtype] in T. destruct W as (_ & _ & _ & _ & Fl & _). rewrite T in Fl. discriminate Fl.
  - intros e v vd o k _ _ W T. exfalso. cbn [adtype] in T. destruct W as (_ & _ & _ & _ & _ & _ & _ & _ & _ & Fl & _). rewrite T in Fl. discriminate Fl.
  - intros e _ (_ & (q & m & De & _) & _) T. cbn [adtype] in T. rewrite De in T. discriminate T.
Qed.
Print Assumptions project_succeeds.

(** A sparse struct array ([wf] has sparse arrays of flat types only). *)
Lemma try_sparse_shape idx vals len off fill r : try_sparse idx vals len off fill = Ok r -> r = ASparse idx vals off len fill.
Proof.
  unfold try_sparse. intros E. repeat match type of E with (if ?b then _ else _) = _ => destruct b; try discriminate E end; try (injection E as <-; reflexivity).
  destruct (scalar_at _ _) as [x| |]; cbn [bind] in E; try discriminate E. destruct (to_usize x) as [k| |]; cbn [bind] in E; try discriminate E.
  repeat match type of E with (if ?b then _ else _) = _ => destruct b; try discriminate E end. injection E as <-; reflexivity.
Qed.
Theorem project_selects_the_columns_sparse :
  forall f idx vals off len fill p r ns ts n, wf f vals -> adtype vals = DStruct ns ts n -> vtyped (adtype vals) fill ->
  project p (ASparse idx vals off len fill) = Ok r ->
  exists idxs, Forall2 (picks ns) p idxs /\
    adtype r = DStruct (map (fun i => nth i ns 0) idxs) (map (fun i => nth i ts DNull) idxs) n /\
    logical r = map (proj_row idxs) (logical (ASparse idx vals off len fill)).
Proof.
  intros f idx vals off len fill p r ns ts n W T F E. cbn [project] in E. rewrite T in *.
  destruct (project p vals) as [c| |] eqn:PV; cbn [bind] in E; try discriminate E.
  destruct (scalar_project ns ts fill p) as [[[ns' ts'] y]| |] eqn:SP; cbn [bind] in E; try discriminate E.
  apply try_sparse_shape in E. subst r.
  destruct (project_selects_the_columns _ _ _ _ _ _ _ W T PV) as (idxs & P & D & L & _). destruct (scalar_project_inv _ _ _ _ _ _ _ _ F SP) as (idxs' & P' & _ & _ & -> & _).
  rewrite (Forall2_picks_fun _ _ _ P' _ P). exists idxs. split; [exact P|]. split; [exact D|].
  cbn [logical]. rewrite map_tab. apply tab_ext. intros j Hj. rewrite L. destruct (pos_of _ _) as [k|]; [|reflexivity].
  rewrite <- (proj_row_null idxs) at 1. apply (map_nth (proj_row idxs)).
Qed.
Print Assumptions project_selects_the_columns_sparse.

(** * Columns *)
(** The [i]-th component of a row; the column of a row that is null is arbitrary. *)
Definition column_of (i : nat) (row x : value) : Prop := match row with VStruct vs => nth_error vs i = Some x | _ => True end.

Lemma all_some_inv {A B} (g : A -> result (option B)) l r : all_some (map g l) = Ok (Some r) -> Forall2 (fun x y => g x = Ok (Some y)) l r.
Proof.
  revert r; induction l as [|x l IH]; intros r E; cbn [map all_some] in E; [injection E as <-; constructor|]. unfold and_then in E.
  destruct (g x) as [[y|]| |] eqn:G; cbn [bind] in E; try discriminate E. destruct (all_some _) as [[ys|]| |]; cbn [bind] in E; try discriminate E. injection E as <-. constructor; auto.
Qed.
Lemma Forall2_tab {A B} (R : A -> B -> Prop) n (f : nat -> A) (g : nat -> B) : (forall i, i < n -> R (f i) (g i)) -> Forall2 R (tab n f) (tab n g).
Proof.
  unfold tab. intros H. assert (forall i, In i (seq 0 n) -> R (f i) (g i)) as H' by (intros i Hi; apply H; apply in_seq in Hi; lia). clear H.
  induction (seq 0 n) as [|k l IH]; cbn [map]; constructor; [apply H'; left; reflexivity|]. apply IH. intros i Hi. apply H'. right. exact Hi.
Qed.
Theorem field_is_a_column :
  forall f a i c ns ts n, wf f a -> adtype a = DStruct ns ts n -> field a i = Ok (Some c) ->
  nth_error ts i = Some (adtype c) /\ Forall2 (column_of i) (logical a) (logical c) /\ (ArrWf.fC f = false -> wf f c).
Proof.
  intros f. apply (array_ind_p (fun a => forall i c ns ts n, wf f a -> adtype a = DStruct ns ts n -> field a i = Ok (Some c) ->
    nth_error ts i = Some (adtype c) /\ Forall2 (column_of i) (logical a) (logical c) /\ (ArrWf.fC f = false -> wf f c)));
    try (intros; match goal with H : field _ _ = Ok _ |- _ => discriminate H end).
  - intros ns0 fls k v _ i c ns ts n W T E. cbn [adtype] in T. injection T as -> <- <-. apply wf_struct_iff in W. destruct W as (L & V & F). cbn [field] in E.
    assert (nth_error fls i = Some c) as N by congruence. rewrite Forall_forall in F. destruct (F c (nth_error_In _ _ N)) as [Wc Lc].
    split; [rewrite nth_error_map_; rewrite N; reflexivity|]. split; [|intros _; exact Wc].
    assert (logical c = tab k (fun j => nth j (logical c) VNull)) as -> by (rewrite <- Lc, <- logical_length; apply list_tab).
    cbn [logical]. apply Forall2_tab. intros j Hj. destruct (vvalid v j); [|exact I]. cbn [column_of]. rewrite !nth_error_map_, N. reflexivity.
  - intros d x k i c ns ts n W T E. cbn [adtype] in T. subst d. cbn [field] in E. destruct W as [Tx Fl]. unfold and_then in E.
    destruct x as [| | | |vs]; cbn [scalar_field] in E; try discriminate E.
    destruct (nth_error vs i) as [y|] eqn:Nv; cbn [bind] in E; try discriminate E. destruct (nth_error ts i) as [t|] eqn:Nt; cbn [bind] in E; try discriminate E. injection E as <-.
    split; [reflexivity|]. split.
    + cbn [logical]. clear -Nv. induction k as [|k IH]; cbn [repeat]; constructor; [exact Nv|exact IH].
    + intros CC. split; [|congruence]. apply (proj1 (vstruct_typed ns ts n vs)) in Tx. pose proof (Forall2_nth_ _ _ _ i DNull VNull Tx) as H.
      rewrite (nth_error_nth _ _ DNull Nt), (nth_error_nth _ _ VNull Nv) in H. apply H, nth_error_Some. congruence.
  - intros ix vs o k fl _ _ i c ns ts n W T E. exfalso. destruct W as (_ & _ & _ & _ & _ & _ & _ & _ & _ & Fl & _). cbn [adtype] in T. rewrite T in Fl. discriminate Fl.
  - intros d cs IH i c ns ts n W T E. cbn [adtype] in T. subst d. cbn [field] in E. cbn [wf] in W. destruct W as (Wc & W1 & W2 & W3 & W4 & W5 & W6 & W7). apply wf_chunks_iff in Wc.
    unfold and_then in E. destruct (all_some _) as [[l|]| |] eqn:M; cbn [bind] in E; try discriminate E. apply all_some_inv in M.
    destruct (nth_error ts i) as [t|] eqn:Nt; try discriminate E. unfold try_chunked in E. destruct (forallb _ l) eqn:FL; cbn [expect bind] in E; try discriminate E. injection E as <-.
    assert (Forall2 (fun x y => Forall2 (column_of i) (logical x) (logical y) /\ (ArrWf.fC f = false -> wf f y)) cs l) as X.
    { clear -IH M Wc. induction M as [|c y cs l E _ IHM]; constructor.
      - inversion IH as [|? ? IHc _]; subst. inversion Wc as [|? ? [Hc Dc] _]; subst. exact (proj2 (IHc i y ns ts n Hc Dc E)).
      - inversion IH; subst. inversion Wc; subst. auto. }
    split; [reflexivity|]. split.
    + cbn [logical]. clear -X. induction X as [|c y cs l (L & _) _ IH]; cbn [map concat]; [constructor|]. apply Forall2_app; assumption.
    + intros CC. cbn [wf]. split; [|split; [|split; [exact W2|split; [|split; [|split; [|split]]]]]].
      * apply wf_chunks_iff. apply Forall_forall. intros y Hy. split.
        -- clear -X Hy CC. induction X as [|c z cs l (_ & Wz) _ IH]; [destruct Hy|destruct Hy as [->|Hy]; auto].
        -- apply dtype_eqb_eq. exact (proj1 (forallb_forall _ _) FL y Hy).
      * intros S1 ->. apply (W1 S1). inversion X. reflexivity.
      * intros N. destruct (W3 N) as [H|H]; [left; exact H|discriminate H].
      * intros N. destruct (W4 N) as [[H|H] H2]; [split; [left; exact H|exact H2]|discriminate H].
      * intros C. destruct (W5 C) as [H|[_ H]]; [left; exact H|discriminate H].
      * intros N. specialize (W6 N). assert (map alen l = map alen cs) as ->; [|exact W6].
        clear -X. induction X as [|c z cs l (A & _) _ IH]; cbn [map]; [reflexivity|]. rewrite IH, <- !logical_length, (Forall2_len _ _ _ A). reflexivity.
      * intros C. congruence.
Qed.
Print Assumptions field_is_a_column.
Theorem field_is_a_column_sparse :
  forall f idx vals off len fill i c ns ts n, wf f vals -> adtype vals = DStruct ns ts n -> vtyped (adtype vals) fill ->
  field (ASparse idx vals off len fill) i = Ok (Some c) ->
  nth_error ts i = Some (adtype c) /\ Forall2 (column_of i) (logical (ASparse idx vals off len fill)) (logical c).
Proof.
  intros f idx vals off len fill i c ns ts n W T F E. cbn [field] in E. rewrite T in *. unfold and_then in E.
  destruct (field vals i) as [[y|]| |] eqn:FV; cbn [bind] in E; try discriminate E. destruct fill as [| | | |vs]; cbn [scalar_field] in E; try discriminate E.
  destruct (nth_error vs i) as [z|] eqn:Nv; cbn [bind] in E; try discriminate E. destruct (nth_error ts i) as [t|] eqn:Nt; cbn [bind] in E; try discriminate E.
  unfold ok_or_none in E. destruct (try_sparse _ _ _ _ _) as [r| |] eqn:TS; try discriminate E. assert (r = c) as -> by congruence. apply try_sparse_shape in TS. subst c.
  destruct (field_is_a_column _ _ _ _ _ _ _ W T FV) as (D & L & _). split; [cbn [adtype]; congruence|].
  cbn [logical]. apply Forall2_tab. intros j Hj. destruct (pos_of _ _) as [k|]; [|exact Nv].
  destruct (Nat.lt_ge_cases k (length (logical vals))) as [H|H]; [apply Forall2_nth_; assumption|]. rewrite (nth_overflow (logical vals)) by exact H. exact I.
Qed.
Print Assumptions field_is_a_column_sparse.
(** Every column is found, in arrays in which no struct constant is null; beyond the last there is none. *)
Lemma no_null_const_chunks d cs : no_null_const (AChunked d cs) <-> Forall no_null_const cs.
Proof.
  cbn [no_null_const]. induction cs as [|c cs IH]; split; intros H.
  - constructor.
  - exact I.
  - destruct H as [H1 H2]. constructor; [exact H1|apply IH; exact H2].
  - inversion H as [|? ? H1 H2]; subst. split; [exact H1|apply IH; exact H2].
Qed.
Theorem every_column_is_found :
  forall f a i ns ts n, wf f a -> adtype a = DStruct ns ts n ->
  (length ts <= i -> field a i = Ok None) /\ (i < length ts -> no_null_const a -> exists c, field a i = Ok (Some c)).
Proof.
  intros f a i ns ts n. revert a.
  apply (array_ind_p (fun a => wf f a -> adtype a = DStruct ns ts n -> (length ts <= i -> field a i = Ok None) /\ (i < length ts -> no_null_const a -> exists c, field a i = Ok (Some c))));
    try (intros; match goal with H : adtype _ = DStruct _ _ _ |- _ => discriminate H end).
  - intros u w b v _ T. destruct u; discriminate T.
  - intros u o b v _ _ T. destruct u; discriminate T.
  - intros ns0 fls k v _ W T. cbn [adtype] in T. injection T as -> <- _. rewrite map_length. cbn [field]. split.
    + intros H. f_equal. apply nth_error_None. exact H.
    + intros H _. destruct (nth_error fls i) as [c|] eqn:N; [eauto|]. apply nth_error_None in N. lia.
  - intros d x k W T. cbn [adtype] in T. subst d. destruct W as [Tx _]. cbn [field]. unfold and_then. destruct x as [| | | |vs]; try contradiction Tx; cbn [scalar_field].
    + split; [reflexivity|]. intros _ H. contradiction (H eq_refl).
    + apply (proj1 (vstruct_typed ns ts n vs)) in Tx. pose proof (Forall2_len _ _ _ Tx) as L. split.
      * intros H. rewrite (proj2 (nth_error_None vs i)) by lia. reflexivity.
      * intros H _. rewrite (nth_error_nth' vs VNull), (nth_error_nth' ts DNull) by lia. cbn [bind]. eauto.
  - intros ix vs o k fl _ _ W T. exfalso. destruct W as (_ & _ & _ & _ & _ & _ & _ & _ & _ & Fl & _). cbn [adtype] in T. rewrite T in Fl. discriminate Fl.
  - intros d cs IH W T. cbn [adtype] in T. subst d. cbn [wf] in W. destruct W as (Wc & _). apply wf_chunks_iff in Wc. cbn [field]. unfold and_then. split.
    + intros H. destruct cs as [|c cs]; cbn [map all_some bind]; [rewrite (proj2 (nth_error_None ts i)) by lia; reflexivity|].
      inversion IH as [|? ? Hc _]; subst. inversion Wc as [|? ? [W1 T1] _]; subst. destruct (Hc W1 T1) as [N _]. unfold and_then. rewrite (N H). reflexivity.
    + intros H NN. apply no_null_const_chunks in NN.
      assert (exists l, all_some (map (fun c => field c i) cs) = Ok (Some l)) as [l E].
      { clear -IH Wc H NN. induction cs as [|c cs IHc]; [exists []; reflexivity|]. inversion IH as [|? ? Hc IH']; subst. inversion Wc as [|? ? [W1 T1] Wc']; subst. inversion NN as [|? ? N1 N2]; subst.
        destruct (Hc W1 T1) as [_ [r R]]; [exact H|exact N1|]. destruct (IHc IH' Wc' N2) as [l E]. exists (r :: l). cbn [map all_some]. unfold and_then. rewrite R. cbn [bind]. rewrite E. reflexivity. }
      rewrite E. cbn [bind]. rewrite (nth_error_nth' ts DNull) by exact H. unfold try_chunked. rewrite (proj2 (forallb_forall _ _)); [cbn [expect bind]; eauto|].
      intros y Hy. apply dtype_eqb_eq. apply all_some_inv in E. clear -E Hy Wc H.
      induction E as [|c z cs l R _ IHE]; [destruct Hy|]. inversion Wc as [|? ? [W1 T1] Wc']; subst. destruct Hy as [->|Hy]; [|apply IHE; assumption].
      destruct (field_is_a_column f c i y ns ts n W1 T1 R) as (D & _). symmetry. apply (nth_error_nth _ _ DNull D).
  - intros c v _ _ W T. exfalso. cbn [adtype] in T. destruct W as (_ & _ & _ & _ & Fl & _). rewrite T in Fl. discriminate Fl.
  - intros e v vd o k _ _ W T. exfalso. cbn [adtype] in T. destruct W as (_ & _ & _ & _ & _ & _ & _ & _ & _ & Fl & _). rewrite T in Fl. discriminate Fl.
  - intros e _ (_ & (q & m & De & _) & _) T. cbn [adtype] in T. rewrite De in T. discriminate T.
Qed.
Print Assumptions every_column_is_found.
(** By name: the first column of that name. *)
Theorem field_by_name_is_the_first_of_its_name :
  forall a ns ts n m, adtype a = DStruct ns ts n ->
  (forall i, nth_error ns i = Some m -> (forall j, j < i -> nth_error ns j <> Some m) -> field_by_name a m = field a i) /\
  (~ In m ns -> field_by_name a m = Ok None).
Proof.
  intros a ns ts n m T. unfold field_by_name. rewrite T. split.
  - intros i H1 H2. rewrite (proj2 (position_spec ns m i) (conj H1 H2)). reflexivity.
  - intros H. destruct (position ns m) as [i|] eqn:P; [|reflexivity]. apply position_spec in P. contradiction (H (nth_error_In _ _ (proj1 P))).
Qed.
Print Assumptions field_by_name_is_the_first_of_its_name.
(** A projection naming a column that does not exist fails. *)
Theorem project_rejects_unknown_columns :
  forall f a p r ns ts n m, wf f a -> adtype a = DStruct ns ts n -> project p a = Ok r -> In (FName m) p -> In m ns.
Proof.
  intros f a p r ns ts n m W T E H. destruct (project_selects_the_columns _ _ _ _ _ _ _ W T E) as (idxs & P & _). clear -P H.
  induction P as [|fd i p idxs F _ IH]; [destruct H|destruct H as [->|H]; auto]. exact (nth_error_In _ _ (proj1 F)).
Qed.
Print Assumptions project_rejects_unknown_columns.

(** * What it does not do *)
Definition two_cols : dtype := DStruct [1; 2] [DPrim U8 true; DBool true] true.
(** The columns of a constant null struct cannot be had, although its type has them. *)
Theorem null_constant_has_no_columns_refuted :
  ~ (forall f a i ns ts n, wf f a -> adtype a = DStruct ns ts n -> i < length ts -> exists c, field a i = Ok (Some c)).
Proof.
  intros H. assert (wf f0 (AConst two_cols VNull 3)) as W by (split; [reflexivity|discriminate]).
  destruct (H f0 _ 0 _ _ _ W eq_refl) as [c E]; [cbn; lia|]. discriminate E.
Qed.
Print Assumptions null_constant_has_no_columns_refuted.
(** Projecting by an index out of range panics; a name out of range is an error. *)
Theorem project_index_is_an_error_refuted :
  ~ (forall f a k ns ts n, wf f a -> adtype a = DStruct ns ts n -> length ns <= k -> project [FIndex k] a = Err).
Proof.
  intros H. specialize (H f0 (AStruct [1] [APrim U8 [7%Z] VNonNull] 1 VNonNull) 1 [1] [DPrim U8 false] false).
  assert (project [FIndex 1] (AStruct [1] [APrim U8 [7%Z] VNonNull] 1 VNonNull) = Panic) as E by reflexivity. rewrite E in H. discriminate H; [|reflexivity|cbn; lia].
  wf_tac.
Qed.
Print Assumptions project_index_is_an_error_refuted.

(** * Concrete cases *)
Definition table : array :=
  AChunked two_cols [AStruct [1; 2] [APrim U8 [7; 8]%Z (VBits [true; false]); ABool 0 [true; false] 2 VAllValid] 2 (VBits [true; true]); AConst two_cols (VStruct [VInt 9; VNull]) 2].
Example table_wf : wf f0 table /\ adtype table = two_cols /\ no_null_const table.
Proof. split; [|split; [reflexivity|cbn; repeat split; discriminate]]. wf_tac. Qed.
Example table_projection : Forall2 (picks [1; 2]) [FName 2; FIndex 0; FName 2] [1; 0; 1] /\
  rmap logical (project [FName 2; FIndex 0; FName 2] table) =
  Ok [VStruct [VBool true; VInt 7; VBool true]; VStruct [VBool false; VNull; VBool false]; VStruct [VNull; VInt 9; VNull]; VStruct [VNull; VInt 9; VNull]].
Proof. split; [|reflexivity]. repeat constructor; cbn; try lia; intros j Hj; assert (j = 0) as -> by lia; discriminate. Qed.
Example table_column : rmap (fun o => match o with Some c => logical c | None => [] end) (field table 1) = Ok [VBool true; VBool false; VNull; VNull].
Proof. reflexivity. Qed.
Example sparse_struct : let vals := AStruct [1; 2] [APrim U8 [7%Z] VAllValid; ABool 0 [true] 1 VAllValid] 1 VAllValid in
  wf f0 vals /\ adtype vals = two_cols /\ vtyped two_cols (VStruct [VNull; VBool false]) /\
  rmap logical (project [FName 2] (ASparse (APrim U64 [5%Z] VNonNull) vals 4 3 (VStruct [VNull; VBool false]))) = Ok [VStruct [VBool false]; VStruct [VBool true]; VStruct [VBool false]].
Proof. cbn zeta. split; [wf_tac|]. split; [reflexivity|]. split; [cbn; tauto|reflexivity]. Qed.
