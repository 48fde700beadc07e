(** into_canonical of chunked arrays. *)
From Verif Require Import Base Spec SearchModel SearchProofs Arr ArrRead ArrWf ArrReadProofs ArrSearchProofs ArrSlice ArrSliceProofs ArrSliceMain
  ValidityModel PropValidity IntEnc PropIntEnc RunEnc PropRunEnc PropUnary PropDict ArrOps OpsBase OpsFlat OpsCanon OpsCanon2.

Lemma logical_elem_typed f a i : wf f a -> i < alen a -> vtyped (adtype a) (nth i (logical a) VNull).
Proof. intros W H. apply Forall_nth_lt; [eapply vtyped_logical; eauto|rewrite logical_length; exact H]. Qed.

Lemma vtyped_struct_nth ns ts nl vs : vtyped (DStruct ns ts nl) (VStruct vs) ->
  length vs = length ts /\ forall k t x, nth_error ts k = Some t -> nth_error vs k = Some x -> vtyped t x.
Proof.
  cbn [vtyped]. revert ts; induction vs as [|v vs IH]; intros [|t ts]; try contradiction; [split; [reflexivity|intros [|k]; discriminate]|].
  intros [H1 H2]. destruct (IH ts H2) as [L N]. split; [cbn; lia|]. intros [|k] t' x; cbn.
  - intros [= <-] [= <-]. exact H1.
  - apply N.
Qed.

(** The [k]-th field of the rows of [a] that are not null. *)
Definition field_post (f : flags) (a : array) (t : dtype) (k : nat) (y : array) : Prop :=
  wf (cf f) y /\ alen y = alen a /\ adtype y = t /\
  forall i vs, i < alen a -> nth i (logical a) VNull = VStruct vs -> nth k vs VNull = nth i (logical y) VNull.
Definition field_opost (f : flags) (a : array) (t : dtype) (k : nat) (x : option array) : Prop :=
  match x with None => fC f = false | Some y => field_post f a t k y end.

Lemma mapM_map_ {A B C} (g : A -> B) (h : B -> result C) l : mapM h (map g l) = mapM (fun x => h (g x)) l.
Proof. induction l as [|x l IH]; [reflexivity|]. cbn [map mapM]. rewrite IH. reflexivity. Qed.

Lemma Forall2_nth {A B} (R : A -> B -> Prop) l l' a b i : Forall2 R l l' -> i < length l -> R (nth i l a) (nth i l' b).
Proof. intros H; revert i; induction H; intros i Hi; [cbn in Hi; lia|]. destruct i; [assumption|]. apply IHForall2. cbn in Hi. lia. Qed.

(** Two concatenations with pieces of the same lengths, related pointwise. *)
Lemma concat_pointwise {A B} (R : A -> B -> Prop) a b ls ms :
  Forall2 (fun l m => length l = length m /\ forall i, i < length l -> R (nth i l a) (nth i m b)) ls ms ->
  forall i, i < length (concat ls) -> R (nth i (concat ls) a) (nth i (concat ms) b).
Proof.
  induction 1 as [|l m ls ms [HL HR] H IH]; intros i Hi; [cbn in Hi; lia|]. cbn [concat] in *. rewrite app_length in Hi.
  destruct (Nat.lt_ge_cases i (length l)).
  - rewrite !app_nth1 by lia. auto.
  - rewrite !app_nth2 by lia. rewrite <- HL. apply IH. lia.
Qed.

Lemma chunked_cf f t ys : fc f = true -> fv f = true -> Forall (fun y => wf (cf f) y /\ adtype y = t) ys -> wf (cf f) (AChunked t ys).
Proof.
  intros C V H. cbn [wf]. rewrite wf_chunks_iff. split; [exact H|]. cbn. split; [discriminate|]. split; [reflexivity|]. split; [discriminate|].
  split; [discriminate|]. split; [auto|]. split; discriminate.
Qed.

Lemma fields_collect f t k cs ys : Forall2 (fun c y => field_post f c t k y) cs ys -> fc f = true -> fv f = true ->
  wf (cf f) (AChunked t ys) /\ list_sum (map alen ys) = list_sum (map alen cs) /\ forallb (fun c => dtype_eqb (adtype c) t) ys = true /\
  forall i vs, i < list_sum (map alen cs) -> nth i (concat (map logical cs)) VNull = VStruct vs -> nth k vs VNull = nth i (concat (map logical ys)) VNull.
Proof.
  intros H C V. split; [apply chunked_cf; auto; clear - H; induction H as [|c y cs ys Hc H IH]; constructor; auto; destruct Hc as (? & ? & ? & ?); auto|].
  split; [clear - H; induction H as [|c y cs ys (_ & Hc & _) H IH]; [reflexivity|]; cbn [map]; change (list_sum (alen y :: map alen ys)) with (alen y + list_sum (map alen ys));
     change (list_sum (alen c :: map alen cs)) with (alen c + list_sum (map alen cs)); lia|].
  split; [apply forallb_forall; intros y Hy; apply dtype_eqb_eq; clear - H Hy; induction H as [|c y' cs ys (_ & _ & Hc & _) H IH]; [destruct Hy|]; destruct Hy as [->|Hy]; auto|].
  intros i vs Hi E.
  pose proof (concat_pointwise (fun x y => forall vs, x = VStruct vs -> nth k vs VNull = y) VNull VNull (map logical cs) (map logical ys)) as P.
  apply (fun X Y => P X i Y vs E).
  - clear - H. induction H as [|c y cs ys (_ & Hl & _ & Hc) H IH]; constructor; [|exact IH]. rewrite !logical_length. split; [lia|]. intros i Hi vs E. apply Hc; assumption.
  - rewrite concat_length_sum, map_map. erewrite map_ext; [exact Hi|]. intros; apply logical_length.
Qed.

Lemma filter_map_somes {A} (l : list A) : filter_map id (map Some l) = l.
Proof. induction l as [|x l IH]; [reflexivity|]. cbn [map filter_map]. unfold id at 1. rewrite IH. reflexivity. Qed.
Lemma somes {A} (xs : list (option A)) : existsb (fun x => match x with None => true | Some _ => false end) xs = false -> exists ys, xs = map Some ys.
Proof.
  induction xs as [|[x|] xs IH]; intros H; [exists []; reflexivity| |discriminate]. destruct IH as (ys & ->); [exact H|]. exists (x :: ys). reflexivity.
Qed.

Lemma field_ok a : forall f ns ts nl k t, wf f a -> fc f = true -> adtype a = DStruct ns ts nl -> nth_error ts k = Some t ->
  outc (fC f = true) (field a k) (field_opost f a t k).
Proof.
  induction a as [n|o b n v|p l v|u w b v|u o b v IHo|ns' fls n v IHf|id st IHst|d x n|ix vs o n fl IHi IHv|d cs IHc
    |c vs IHc IHv|e vs v o n IHe IHv|p e r sh IHe|e IHe|p l bw o n v q IHq|l v] using array_ind'; intros f ns ts nl k t W C D T; cbn [adtype] in D; try discriminate.
  - destruct u; discriminate.
  - destruct u; discriminate.
  - injection D as <- <- <-. cbn [field]. apply outc_ok. rewrite nth_error_map in T. destruct (nth_error fls k) as [y|] eqn:E; [|discriminate]. injection T as <-.
    apply wf_struct_iff in W. destruct W as (W1 & W2 & W3). pose proof (proj1 (Forall_forall _ _) W3 y (nth_error_In _ _ E)) as [Wy Ly].
    split; [eapply wf_fle; [apply fle_cf|exact Wy]|]. split; [cbn [alen]; exact Ly|]. split; [reflexivity|]. intros i vs Hi. cbn [alen] in Hi.
    cbn [logical]. rewrite nth_tab by exact Hi. destruct (vvalid v i); [|discriminate]. intros [= <-].
    rewrite map_map. apply nth_error_nth. rewrite nth_error_map, E. reflexivity.
  - subst d. cbn [wf] in W. destruct W as [W1 W2]. cbn [field].
    assert (fC f = false) as NC by (destruct (fC f); [destruct (W2 eq_refl); discriminate|reflexivity]).
    destruct x as [|b|z|s|vs]; try (apply outc_ok; exact NC). destruct (vtyped_struct_nth _ _ _ _ W1) as [L N].
    destruct (nth_error vs k) as [x|] eqn:E; [|apply outc_ok; exact NC]. rewrite T. apply outc_ok.
    split; [cbn [wf cf fC]; split; [eapply N; eauto|discriminate]|]. split; [reflexivity|]. split; [reflexivity|]. cbn [alen logical]. intros i us Hi.
    rewrite !nth_repeat_lt by exact Hi. intros [= <-]. apply nth_error_nth, E.
  - cbn [wf] in W. destruct W as (_ & _ & _ & _ & _ & _ & _ & _ & _ & W & _). rewrite D in W. discriminate.
  - subst d. cbn [wf] in W. destruct W as (W & _ & _ & _ & _ & W6 & _). apply wf_chunks_iff in W.
    assert (fv f = true) as V by (destruct (W6 C) as [|[_ H]]; [assumption|discriminate]).
    cbn [field]. rewrite mapM_map_. eapply outc_bind; [apply (mapM_outc _ _ (fun c x => field_opost f c t k x))|].
    { intros c Hc. rewrite Forall_forall in IHc, W. destruct (W c Hc) as [Wc Dc]. eapply (IHc c Hc); eauto. }
    intros xs _ F. destruct (existsb _ xs) eqn:E.
    + apply outc_ok. clear - F E. induction F as [|c x cs xs Hx F IH]; [discriminate|]. destruct x; [apply IH; exact E|exact Hx].
    + destruct (somes xs E) as (ys & ->). rewrite T, filter_map_somes.
      assert (Forall2 (fun c y => field_post f c t k y) cs ys) as F2.
      { clear - F. remember (map Some ys) as xs eqn:Ex. revert ys Ex. induction F as [|c x cs xs Hx F IH]; intros [|y ys] Ex; try discriminate; [constructor|].
        injection Ex as -> ->. constructor; [exact Hx|]. apply IH. reflexivity. }
      destruct (fields_collect f t k cs ys F2 C V) as (G1 & G2 & G3 & G4).
      unfold try_chunked. rewrite G3. cbn [expect bind]. apply outc_ok. split; [exact G1|]. split; [exact G2|]. split; [reflexivity|]. exact G4.
  - cbn [wf] in W. destruct W as (_ & _ & _ & _ & W & _). rewrite D in W. discriminate.
  - cbn [wf] in W. destruct W as (_ & _ & _ & _ & _ & _ & _ & _ & _ & W & _). rewrite D in W. discriminate.
  - cbn [wf] in W. destruct W as (_ & (p & n & De & _) & _). rewrite De in D. discriminate.
Qed.

(** Views of several chunks in one array. *)
Definition vb (bufs : list (list Z)) (w : view) : value := VBytes (view_bytes bufs w).
Lemma view_ok_app B X w : view_ok B w -> view_ok (B ++ X) w /\ vb (B ++ X) w = vb B w.
Proof.
  destruct w as [s|size pre b off]; cbn [view_ok]; [auto|]. intros (H1 & H2 & H3 & H4). unfold vb. cbn [view_bytes]. rewrite !app_nth1 by exact H2.
  rewrite app_length. repeat split; auto; lia.
Qed.
Lemma view_ok_shift B bs w : view_ok bs w -> view_ok (B ++ bs) (shift_view (length B) w) /\ vb (B ++ bs) (shift_view (length B) w) = vb bs w.
Proof.
  destruct w as [s|size pre b off]; cbn [view_ok shift_view]; [auto|]. intros (H1 & H2 & H3 & H4). unfold vb. cbn [view_bytes].
  rewrite !app_nth2 by lia. replace (length B + b - length B) with b by lia. rewrite app_length. repeat split; auto; lia.
Qed.
Lemma raw_impl {B C} (i : B -> value) (j : C -> value) (g : B -> C) l r : raw i l r -> (forall x, In x r -> i x = j (g x)) -> raw j l (map g r).
Proof.
  unfold raw. intros H. induction H as [|x y l r Hx H IH]; intros E; [constructor|]. cbn [map]. constructor.
  - destruct Hx as [->|Hx]; [left; reflexivity|]. right. rewrite <- E by (left; reflexivity). exact Hx.
  - apply IH. intros; apply E; right; assumption.
Qed.
Lemma pack_views_ok : forall Ls cs L V B V' B', pack_views V B cs = (V', B') ->
  raw (vb B) L V -> Forall (view_ok B) V ->
  Forall2 (fun Lc c => raw (vb (snd c)) Lc (fst c) /\ Forall (view_ok (snd c)) (fst c)) Ls cs ->
  raw (vb B') (L ++ concat Ls) V' /\ Forall (view_ok B') V'.
Proof.
  intros Ls cs. revert Ls. induction cs as [|[vs bs] cs IH]; intros Ls L V B V' B' E R O F; inversion F as [|Lc c Ls' cs' [R1 O1] F']; subst; cbn [pack_views] in E.
  - injection E as <- <-. cbn [concat]. rewrite app_nil_r. auto.
  - cbn [fst snd] in *. cbn [concat]. rewrite app_assoc. eapply IH; [exact E| | |exact F'].
    + apply Forall2_app.
      * rewrite <- (map_id V). eapply raw_impl; [exact R|]. intros x Hx. symmetry. apply view_ok_app. rewrite Forall_forall in O. auto.
      * eapply raw_impl; [exact R1|]. intros x Hx. symmetry. apply view_ok_shift. rewrite Forall_forall in O1. auto.
    + apply Forall_app. split.
      * eapply Forall_impl; [|exact O]. intros w Hw. apply view_ok_app, Hw.
      * apply Forall_map. eapply Forall_impl; [|exact O1]. intros w Hw. apply view_ok_shift, Hw.
Qed.

Lemma Forall2_fst {A B} (R : A -> B -> Prop) (cs : list A) ys : Forall2 R cs ys -> forall (P : A -> Prop), Forall P cs -> Forall2 (fun c y => P c /\ R c y) cs ys.
Proof. induction 1; intros P F; [constructor|]. inversion F; subst. constructor; auto. Qed.
Lemma Forall2_map_r {A B C} (g : B -> C) (R : A -> C -> Prop) l r : Forall2 (fun x y => R x (g y)) l r -> Forall2 R l (map g r).
Proof. induction 1; constructor; auto. Qed.
Lemma Forall2_map_l {A B C} (g : A -> C) (R : C -> B -> Prop) l r : Forall2 (fun x y => R (g x) y) l r -> Forall2 R (map g l) r.
Proof. induction 1; constructor; auto. Qed.
Lemma Forall2_impl_ {A B} (R S : A -> B -> Prop) l r : (forall x y, R x y -> S x y) -> Forall2 R l r -> Forall2 S l r.
Proof. intros H. induction 1; constructor; auto. Qed.

Section Step.
  Variable rec : array -> ops_t.
  Variable M : nat.
  Hypothesis Hrec : forall b, depth b < M -> ops_good (rec b) b.
  Local Notation canon_ok := (canon_ok rec).

  Lemma canon_chunked d cs : depth (AChunked d cs) <= M -> canon_ok (AChunked d cs).
  Proof.
    intros D f W C. pose proof (lval_chunked rec M Hrec d cs D f W C) as LV. cbn [ops_step o_lval] in LV. cbn [ops_step o_canon]. cbn [depth] in D.
    pose proof W as W0. cbn [wf] in W. destruct W as (W & W2 & W3 & W4 & W5 & W6 & W7 & W8). apply wf_chunks_iff in W. specialize (W6 C).
    set (A := AChunked d cs) in *. set (n := list_sum (map alen cs)). assert (alen A = n) as An by reflexivity.
    assert (Forall (fun c => outc (fC f = true) (o_canon (rec c)) (canon_post f c)) cs) as HC.
    { apply Forall_forall. intros c Hc. assert (depth c < M) as Dc.
      { pose proof (proj1 (list_max_le (map depth cs) _) (le_n _)) as F. rewrite Forall_forall in F. specialize (F _ (in_map depth cs c Hc)). lia. }
      rewrite Forall_forall in W. apply (g_canon _ _ (Hrec c Dc) f); [apply W, Hc|exact C]. }
    eapply outc_bind with (P := fun v => vwf v n /\ vnullable v = nullable d /\ forall i, i < n -> vvalid v i = nonnull (nth i (logical A) VNull)).
    { destruct (nullable d) eqn:N.
      - unfold rmap. eapply outc_bind; [exact LV|]. intros l _ (H1 & H2). apply outc_ok. destruct W6 as [V|[V _]]; [|congruence].
        rewrite An in H1. specialize (H2 V N). destruct (validity_into_validity l) as [H3 H4]. rewrite H1 in *. split; [exact H3|]. split; [destruct l; reflexivity|].
        intros i Hi. rewrite <- (nth_vbits (into_validity l) n i false) by exact Hi. rewrite H4, H2. rewrite (map_nth_lt nonnull _ VNull) by (rewrite logical_length; lia). reflexivity.
      - apply outc_ok. split; [exact I|]. split; [reflexivity|]. intros i Hi. cbn [vvalid].
        pose proof (fun H => Forall_nth_lt _ _ VNull i (nonnull_logical f A W0 N) H) as X. rewrite logical_length in X. specialize (X ltac:(lia)). cbv beta in X.
        unfold nonnull. destruct (nth i (logical A) VNull); try reflexivity. congruence. }
    intros v _ (V1 & V2 & V3). unfold chunked_canon. rewrite map_map. cbn [fst]. change (list_sum (map (fun x : array => alen x) cs)) with n. cbv zeta.
    assert (forallb (fun c => dtype_eqb (adtype (fst c)) d) (map (fun c => (c, o_canon (rec c))) cs) = true) as ->.
    { apply forallb_forall. intros x Hx. apply in_map_iff in Hx. destruct Hx as (c & <- & Hc). cbn [fst]. rewrite Forall_forall in W. apply dtype_eqb_eq, W, Hc. }
    cbn [negb].
    assert (length (logical A) = n) as LA by (rewrite logical_length; exact An).
    assert (vfits v n = true) as VF by (destruct v; cbn in *; auto; apply Nat.eqb_eq; exact V1).
    destruct d as [|nl|p nl|nl|nl|ns ts nl|id nl]; try rewrite mapM_map_; cbn [snd].
    - apply outc_ok. split; [reflexivity|]. split; [|split; [reflexivity|split; [reflexivity|exact I]]].
      change (logical (ANull n)) with (repeat VNull n). symmetry. apply (nth_ext_len _ _ VNull); [rewrite repeat_length; exact LA|].
      rewrite LA. intros i Hi. rewrite nth_repeat_lt by exact Hi. pose proof (logical_elem_typed f A i W0 ltac:(lia)) as T.
      destruct (nth i (logical A) VNull); cbn in T; try contradiction. reflexivity.
    - eapply outc_bind; [apply (mapM_outc _ _ (fun c x => raw VBool (logical c) (fst x)))|].
      { intros c Hc. rewrite Forall_forall in HC, W. eapply outc_impl; [apply (into_bool_ok f c _ nl (HC c Hc)); apply W, Hc|].
        intros [bs w] (B1 & B2 & B3 & B4). cbn [fst snd] in *. rewrite B4. apply (raw_tab VBool false). }
      intros bs _ F. cbv zeta. assert (raw VBool (logical A) (concat (map fst bs))) as R.
      { apply raw_concat. apply Forall2_map_l, Forall2_map_r. exact F. }
      pose proof (Forall2_length _ _ _ R) as LR. rewrite LA in LR. rewrite <- LR. rewrite try_bool_0 by exact VF. apply outc_ok.
      split; [reflexivity|]. split; [|cbn [adtype]; rewrite V2; split; [reflexivity|split; [reflexivity|cbn [wf]; split; [lia|split; [lia|exact V1]]]]].
      rewrite (raw_logical VBool false _ _ v R) by (rewrite LA; exact V3). rewrite <- LR. reflexivity.
    - eapply outc_bind; [apply (mapM_outc _ _ (fun c l => raw VInt (logical c) l /\ Forall (in_range p) l))|].
      { intros c Hc. rewrite Forall_forall in HC, W. eapply outc_bind; [apply (into_prim_ok_n f c _ p nl (HC c Hc)); apply W, Hc|].
        intros x _ (l & w & -> & B1 & B2 & B3 & B4 & B5). cbv beta iota. rewrite (proj2 (ptype_eqb_eq p p) eq_refl). apply outc_ok. split; [|exact B2].
        rewrite <- B5. apply (raw_tab VInt 0%Z). }
      intros ls _ F. assert (raw VInt (logical A) (concat ls)) as R.
      { apply raw_concat. apply Forall2_map_l. eapply Forall2_impl_; [|exact F]. intros ? ? [H _]; exact H. }
      assert (Forall (in_range p) (concat ls)) as RR.
      { clear - F. induction F as [|c l cs ls [_ H] F IH]; [constructor|]. cbn [concat]. apply Forall_app. auto. }
      pose proof (Forall2_length _ _ _ R) as LR. rewrite LA in LR. unfold try_prim. rewrite <- LR, VF. cbn [expect]. apply outc_ok.
      split; [reflexivity|]. split; [|cbn [adtype]; rewrite V2; split; [reflexivity|split; [reflexivity|cbn [wf]; split; [exact RR|rewrite <- LR; exact V1]]]].
      rewrite (raw_logical VInt 0%Z _ _ v R) by (rewrite LA; exact V3). reflexivity.
    - eapply outc_bind; [apply (mapM_outc _ _ (fun c x => raw (vb (snd x)) (logical c) (fst x) /\ Forall (view_ok (snd x)) (fst x)))|].
      { intros c Hc. rewrite Forall_forall in HC, W. unfold into_view. eapply outc_bind; [apply (HC c Hc)|]. intros x _ (B1 & B2 & B3 & B4 & B5).
        destruct (canon_view x B1) as (u & vs & bufs & w & ->); [rewrite (erase_str _ _ B3); rewrite (proj2 (W c Hc)); reflexivity|].
        apply outc_ok. cbn [fst snd]. split; [|apply B5]. rewrite <- B2. apply (raw_tab (vb bufs) (VInl [])). }
      intros vs _ F. destruct (pack_views [] [] vs) as [views bufs] eqn:E.
      destruct (pack_views_ok (map logical cs) vs [] [] [] views bufs E) as [R O]; [constructor|constructor|apply Forall2_map_l; exact F|].
      cbn [app] in R. change (concat (map logical cs)) with (logical A) in R. pose proof (Forall2_length _ _ _ R) as LR. rewrite LA in LR.
      unfold try_view. rewrite <- LR, VF. cbn [negb]. apply outc_ok.
      assert (logical (AView true views bufs v) = logical A) as L by (rewrite (raw_logical (vb bufs) (VInl []) _ _ v R) by (rewrite LA; exact V3); reflexivity).
      split; [reflexivity|]. split; [exact L|]. cbn [adtype]. rewrite V2. split; [reflexivity|]. split; [reflexivity|].
      apply wf_view_intro; [exact O|rewrite <- LR; exact V1| |discriminate]. intros _ s Hs. rewrite L in Hs.
      pose proof (vtyped_logical A f W0) as T. rewrite Forall_forall in T. apply (T _ Hs).
    - eapply outc_bind; [apply (mapM_outc _ _ (fun c x => raw (vb (snd x)) (logical c) (fst x) /\ Forall (view_ok (snd x)) (fst x)))|].
      { intros c Hc. rewrite Forall_forall in HC, W. unfold into_view. eapply outc_bind; [apply (HC c Hc)|]. intros x _ (B1 & B2 & B3 & B4 & B5).
        destruct (canon_view x B1) as (u & vs & bufs & w & ->); [rewrite (erase_str _ _ B3); rewrite (proj2 (W c Hc)); reflexivity|].
        apply outc_ok. cbn [fst snd]. split; [|apply B5]. rewrite <- B2. apply (raw_tab (vb bufs) (VInl [])). }
      intros vs _ F. destruct (pack_views [] [] vs) as [views bufs] eqn:E.
      destruct (pack_views_ok (map logical cs) vs [] [] [] views bufs E) as [R O]; [constructor|constructor|apply Forall2_map_l; exact F|].
      cbn [app] in R. change (concat (map logical cs)) with (logical A) in R. pose proof (Forall2_length _ _ _ R) as LR. rewrite LA in LR.
      unfold try_view. rewrite <- LR, VF. cbn [negb]. apply outc_ok.
      assert (logical (AView false views bufs v) = logical A) as L by (rewrite (raw_logical (vb bufs) (VInl []) _ _ v R) by (rewrite LA; exact V3); reflexivity).
      split; [reflexivity|]. split; [exact L|]. cbn [adtype]. rewrite V2. split; [reflexivity|]. split; [reflexivity|].
      apply wf_view_intro; [exact O|rewrite <- LR; exact V1|discriminate|discriminate].
    - assert (fv f = true) as V by (destruct W6 as [|[_ H]]; [assumption|discriminate]).
      eapply outc_bind; [apply (mapM_outc _ _ (fun kt y => wf (cf f) y /\ alen y = n /\ adtype y = snd kt /\
          forall i us, i < n -> nth i (logical A) VNull = VStruct us -> nth (fst kt) us VNull = nth i (logical y) VNull))|].
      { intros [k t] Hk. cbn [fst snd].
        assert (nth_error ts k = Some t) as T.
        { apply (In_nth_error) in Hk. destruct Hk as (j & Hj).
          assert (j < length ts) as Hjl by (assert (nth_error (combine (seq 0 (length ts)) ts) j <> None) as X by congruence; apply nth_error_Some in X; rewrite combine_length, seq_length in X; lia).
          rewrite (nth_error_nth' _ (0, DNull)) in Hj by (rewrite combine_length, seq_length; lia). rewrite combine_nth in Hj by apply seq_length.
          rewrite seq_nth in Hj by exact Hjl. injection Hj as <- <-. apply nth_error_nth'. exact Hjl. }
        rewrite mapM_map_. cbn [fst]. eapply outc_bind; [apply (mapM_outc _ _ (fun c y => field_post f c t k y))|].
        { intros c Hc. rewrite Forall_forall in W. destruct (W c Hc) as [Wc Dc]. eapply outc_bind; [apply (field_ok c f ns ts nl k t Wc C Dc T)|].
          intros [y|] _ P; [apply outc_ok; exact P|]. cbn. cbn in P. congruence. }
        intros ys _ F. destruct (fields_collect f t k cs ys F C V) as (G1 & G2 & G3 & G4). unfold try_chunked. rewrite G3. apply outc_ok.
        split; [exact G1|]. split; [exact G2|]. split; [reflexivity|]. exact G4. }
      intros fls _ F. pose proof (Forall2_length _ _ _ F) as LF. rewrite combine_length, seq_length, Nat.min_id in LF.
      unfold try_struct. destruct (Nat.eqb_spec (length ns) (length fls)) as [EL|EL]; cbn [negb].
      2:{ cbn. intros HCt. specialize (W8 HCt). cbn in W8. lia. }
      assert (forall y, In y fls -> wf (cf f) y /\ alen y = n) as Fy.
      { clear - F. induction F as [|kt y l fls (H1 & H2 & _) F IH]; [intros y []|]. intros y' [<-|H]; auto. }
      rewrite (proj2 (forallb_forall _ _)) by (intros y Hy; apply Nat.eqb_eq, Fy, Hy). rewrite VF. cbn [negb]. apply outc_ok.
      assert (map adtype fls = ts) as ET.
      { clear - F. assert (forall (s : nat), Forall2 (fun kt y => adtype y = snd kt) (combine (seq s (length ts)) ts) fls -> map adtype fls = ts) as X.
        { revert fls F. induction ts as [|t ts IH]; intros fls F s H; cbn in H; inversion H; subst; [reflexivity|]. cbn [map].
          f_equal; [assumption|]. clear F. match goal with H1 : Forall2 _ _ ?l |- map _ ?l = _ => revert H1; generalize (S s) end.
          clear IH H. revert l'. induction ts as [|t' ts IH]; intros l' k H; cbn in H; inversion H; subst; [reflexivity|]. cbn [map]. f_equal; [assumption|]. eapply IH. eassumption. }
        apply (X 0). eapply Forall2_impl_; [|exact F]. cbv beta. tauto. }
      split; [reflexivity|]. split.
      { change (logical (AStruct ns fls n v)) with (tab n (fun i => if vvalid v i then VStruct (map (fun l => nth i l VNull) (map logical fls)) else VNull)).
        symmetry. apply (nth_ext_len _ _ VNull); [rewrite tab_length; exact LA|]. rewrite LA. intros i Hi. rewrite nth_tab by exact Hi. rewrite V3 by exact Hi.
        pose proof (logical_elem_typed f A i W0 ltac:(lia)) as T. change (adtype A) with (DStruct ns ts nl) in T.
        destruct (nth i (logical A) VNull) as [|b|z|s|us] eqn:E; try (cbn in T; contradiction); [reflexivity|]. cbn [nonnull is_null negb].
        f_equal. rewrite map_map. destruct (vtyped_struct_nth _ _ _ _ T) as [LU _].
        apply (nth_ext_len _ _ VNull); [rewrite map_length; lia|]. intros k Hk.
        rewrite (map_nth_lt (fun x => nth i (logical x) VNull) fls (ANull 0)) by lia.
        pose proof (Forall2_nth _ _ _ (0, DNull) (ANull 0) k F ltac:(rewrite combine_length, seq_length; lia)) as (_ & _ & _ & X).
        specialize (X i us Hi E). rewrite combine_nth in X by apply seq_length. cbn [fst] in X. rewrite seq_nth in X by lia. exact X. }
      cbn [adtype]. rewrite ET, V2. split; [reflexivity|]. split; [reflexivity|].
      apply wf_struct_iff. split; [exact EL|]. split; [exact V1|]. apply Forall_forall. exact Fy.
    - eapply outc_weaken with (T := False); [|intros HCt; specialize (W8 HCt); exact W8|intros b _ H; exact H].
      assert (fv f = true) as V by (destruct W6 as [|[_ H]]; [assumption|discriminate]).
      eapply outc_bind; [apply (mapM_outc _ _ (fun c st => wf (cf f) st /\ logical st = logical c /\ nullable (adtype st) = nl))|].
      { intros c Hc. rewrite Forall_forall in HC, W. unfold into_ext. eapply outc_bind; [eapply outc_weaken; [apply (HC c Hc)|contradiction|intros b _ H; exact H]|].
        intros x _ (B1 & B2 & B3 & B4 & B5). destruct (W c Hc) as [Wc Dc]. rewrite Dc in *. specialize (B4 (or_intror eq_refl)).
        destruct x as [|? ? ? ?|? ? ?|u ? ? ?| | |id' st| | | | | | | | |]; try (cbn; tauto). apply outc_ok. cbn [adtype] in B4. injection B4 as -> <-.
        destruct B5 as [B5 _]. auto. }
      intros sts _ F. destruct sts as [|s0 sts]; [cbn; tauto|]. unfold try_chunked.
      destruct (forallb (fun c => dtype_eqb (adtype c) (adtype s0)) (s0 :: sts)) eqn:E; [|cbn; tauto]. cbn [bind]. apply outc_ok.
      assert (wf (cf f) (AChunked (adtype s0) (s0 :: sts))) as WW.
      { apply chunked_cf; auto. apply Forall_forall. intros y Hy. split; [|apply dtype_eqb_eq; apply (proj1 (forallb_forall _ _) E y Hy)].
        clear - F Hy. revert Hy. generalize (s0 :: sts) F. clear. intros l F. induction F as [|c y' cs ys (H & _) F IH]; intros Hy; [destruct Hy|]. destruct Hy as [<-|Hy]; auto. }
      split; [reflexivity|]. split.
      { change (concat (map logical (s0 :: sts)) = concat (map logical cs)). f_equal. revert F. generalize (s0 :: sts). clear. intros l F. induction F as [|c y cs ys (_ & H & _) F IH]; [reflexivity|]. cbn [map]. congruence. }
      cbn [adtype]. assert (nullable (adtype s0) = nl) as -> by (inversion F as [|? ? ? ? (_ & _ & H) ?]; exact H).
      split; [reflexivity|]. split; [reflexivity|]. split; [exact WW|reflexivity].
  Qed.
End Step.
