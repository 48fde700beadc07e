(** Comparisons and boolean operators: proofs. *)
From Verif Require Import Base Spec CmpSpec Arr ArrRead ArrWf ArrSlice ArrReadProofs ArrSliceProofs ArrSliceMain ValidityModel PropValidity ArrOps OpsBase OpsFlat OpsCanon OpsVarBin OpsMain IntEnc PropIntEnc PropUnary PropOps Compare.

(** * Slices keep the depth and the shape *)
Fixpoint no_const (a : array) : Prop :=
  match a with
  | AConst _ _ _ => False
  | AChunked _ cs => (fix go (l : list array) : Prop := match l with [] => True | x :: r => no_const x /\ go r end) cs
  | _ => True
  end.
Lemma no_const_chunks d cs : no_const (AChunked d cs) <-> Forall no_const cs.
Proof. cbn [no_const]. induction cs as [|x r IH]; [split; [constructor|auto]|]. split; [intros [A B]; constructor; [exact A|apply IH, B]|intros H; inversion H; subst; split; [assumption|apply IH; assumption]]. Qed.
(** Offsets that Arrow's 32-bit string arrays can hold. *)
Fixpoint small_strings (a : array) : Prop :=
  match a with
  | AVarBin _ offs bytes _ => adtype offs <> DPrim U64 false /\ adtype offs <> DPrim I64 false /\ (Z.of_nat (length bytes) <= pmax I32)%Z
  | AChunked _ cs => (fix go (l : list array) : Prop := match l with [] => True | x :: r => small_strings x /\ go r end) cs
  | _ => True
  end.
Lemma small_chunks d cs : small_strings (AChunked d cs) <-> Forall small_strings cs.
Proof. cbn [small_strings]. induction cs as [|x r IH]; [split; [constructor|auto]|]. split; [intros [A B]; constructor; [exact A|apply IH, B]|intros H; inversion H; subst; split; [assumption|apply IH; assumption]]. Qed.

Ltac inv_bind H :=
  repeat match type of H with
  | bind ?r _ = Ok _ => let E := fresh "E" in destruct r eqn:E; cbn [bind] in H; try discriminate H
  | (if ?c then _ else _) = Ok _ => let E := fresh "C" in destruct c eqn:E; try discriminate H
  end.

Definition shape_ok (a b : array) : Prop := depth b <= depth a /\ (no_const a -> no_const b) /\ (small_strings a -> small_strings b).
Lemma list_max_in l x : In x l -> x <= list_max l.
Proof. intros H. pose proof (proj1 (list_max_le l (list_max l)) (le_n _)) as F. rewrite Forall_forall in F. apply F, H. Qed.
Lemma chunked_shape d cs xs d' : (forall x, In x xs -> exists c, In c cs /\ shape_ok c x) -> shape_ok (AChunked d cs) (AChunked d' xs).
Proof.
  intros H. split; [|split].
  - cbn [depth]. apply le_n_S. apply list_max_le. apply Forall_map. apply Forall_forall. intros x Hx. destruct (H x Hx) as (c & Hc & D & _). eapply Nat.le_trans; [exact D|]. apply list_max_in, in_map, Hc.
  - intros N. apply no_const_chunks in N. apply no_const_chunks. apply Forall_forall. intros x Hx. destruct (H x Hx) as (c & Hc & _ & D & _). apply D. rewrite Forall_forall in N. apply N, Hc.
  - intros N. apply small_chunks in N. apply small_chunks. apply Forall_forall. intros x Hx. destruct (H x Hx) as (c & Hc & _ & _ & D). apply D. rewrite Forall_forall in N. apply N, Hc.
Qed.
Lemma removelast_in {A} (l : list A) x : In x (removelast l) -> In x l.
Proof. induction l as [|a l IH]; [auto|]. destruct l as [|b l]; [intros []|]. change (removelast (a :: b :: l)) with (a :: removelast (b :: l)). intros [H|H]; [left; exact H|right; apply IH, H]. Qed.
Lemma lslice_in {A} (l : list A) i j x : In x (lslice l i j) -> In x l.
Proof. intros H. eapply In_lslice. exact H. Qed.
Lemma combine_map_in {A B} (l : list A) (g : A -> B) c : In c (combine l (map g l)) -> In (fst c) l /\ snd c = g (fst c).
Proof. induction l as [|a l IH]; cbn; [tauto|]. intros [<-|H]; [cbn; auto|]. destruct (IH H). auto. Qed.
Lemma vslice_nullable v i j v' : vslice v i j = Ok v' -> vnullable v' = vnullable v.
Proof. destruct v as [| | |l]; cbn [vslice]; intros H; [| | |destruct (slice_bad (length l) i j); [discriminate|]]; inversion H; reflexivity. Qed.

Definition slice_keeps (a : array) : Prop := forall i j b, slice a i j = Ok b -> shape_ok a b /\ adtype b = adtype a.
Lemma shape_refl a : shape_ok a a.
Proof. repeat split; auto. Qed.
Lemma chunked_keeps d cs : Forall slice_keeps cs -> slice_keeps (AChunked d cs).
Proof.
  intros IH i j b H. cbn [slice] in H. destruct (slice_bad _ i j); [discriminate H|]. unfold chunked_slice, slicer in H. set (cc := combine cs (map slice cs)) in *.
  assert (forall c, In c cc -> In (fst c) cs /\ forall u w y, snd c u w = Ok y -> shape_ok (fst c) y) as HC.
  { intros c Hc. apply combine_map_in in Hc. destruct Hc as [Hc E]. split; [exact Hc|]. intros u w y Hy. rewrite E in Hy. rewrite Forall_forall in IH. apply (IH _ Hc u w y Hy). }
  clearbody cc. destruct (find_chunk_idx _ i) as [s| |] eqn:Es; cbn [bind] in H; try discriminate H. destruct (find_chunk_idx _ j) as [e| |] eqn:Ee; cbn [bind] in H; try discriminate H. clear Es Ee.
  assert (forall xs, try_chunked xs d = Ok b -> (forall x, In x xs -> exists c, In c cs /\ shape_ok c x) -> shape_ok (AChunked d cs) b /\ adtype b = d) as FIN.
  { intros xs T X. unfold try_chunked in T. destruct (forallb _ xs); [|discriminate T]. injection T as <-. split; [apply chunked_shape, X|reflexivity]. }
  change (adtype (AChunked d cs)) with d. destruct (fst e =? fst s).
  - destruct (nth_error cc (fst s)) as [c|] eqn:EN; [|discriminate H]. apply nth_error_In in EN. destruct (snd c (snd s) (snd e)) as [x| |] eqn:EX; cbn [bind] in H; try discriminate H.
    apply (FIN [x] H). intros y [<-|[]]. exists (fst c). destruct (HC c EN) as [A B]. split; [exact A|apply (B _ _ _ EX)].
  - destruct (lslice cc (fst s) (fst e + 1)) as [|c0 rest] eqn:EL; [apply (FIN [] H); intros y []|].
    assert (forall c, In c (c0 :: rest) -> In c cc) as SUB by (intros c Hc; rewrite <- EL in Hc; apply lslice_in in Hc; exact Hc).
    destruct (snd c0 (snd s) (alen (fst c0))) as [x0| |] eqn:E0; cbn [bind] in H; try discriminate H.
    assert (exists c, In c cs /\ shape_ok c x0) as X0 by (destruct (HC c0 (SUB c0 (or_introl eq_refl))) as [A B]; exists (fst c0); split; [exact A|apply (B _ _ _ E0)]).
    assert (forall y, In y (map fst (removelast rest)) -> exists c, In c cs /\ shape_ok c y) as XM.
    { intros y Hy. apply in_map_iff in Hy. destruct Hy as (c & <- & Hc). apply removelast_in in Hc. destruct (HC c (SUB c (or_intror Hc))) as [A _]. exists (fst c). split; [exact A|apply shape_refl]. }
    destruct (snd e =? 0).
    + apply (FIN _ H). intros y [<-|Hy]; [exact X0|apply XM, Hy].
    + destruct (rev rest) as [|cl rr] eqn:ER.
      * destruct (snd c0 0 (snd e)) as [x1| |] eqn:E1; cbn [bind] in H; try discriminate H. apply (FIN _ H). intros y [<-|[]]. destruct (HC c0 (SUB c0 (or_introl eq_refl))) as [A B]. exists (fst c0). split; [exact A|apply (B _ _ _ E1)].
      * assert (In cl rest) as Hcl by (apply in_rev; rewrite ER; left; reflexivity). destruct (snd cl 0 (snd e)) as [xl| |] eqn:E1; cbn [bind] in H; try discriminate H. apply (FIN _ H).
        intros y [<-|Hy]; [exact X0|]. apply in_app_or in Hy. destruct Hy as [Hy|[<-|[]]]; [apply XM, Hy|]. destruct (HC cl (SUB cl (or_intror Hcl))) as [A B]. exists (fst cl). split; [exact A|apply (B _ _ _ E1)].
Qed.
Lemma mapM_in {A B} (g : A -> result B) l r : mapM g l = Ok r -> Forall2 (fun x y => g x = Ok y) l r.
Proof.
  revert r. induction l as [|x l IH]; intros r H; cbn [mapM] in H; [assert (r = []) as -> by congruence; constructor|].
  destruct (g x) as [y| |] eqn:E; cbn [bind] in H; try discriminate H. destruct (mapM g l) as [ys| |] eqn:EM; cbn [bind] in H; try discriminate H. assert (r = y :: ys) as -> by congruence. constructor; auto.
Qed.
Lemma slice_shape : forall a, slice_keeps a.
Proof.
  apply array_ind'; try (apply chunked_keeps; assumption).
  - intros n i j b H. cbn [slice] in H. inv_bind H. injection H as <-. split; [repeat split; auto|reflexivity].
  - intros o u n v i j b H. cbn [slice] in H. inv_bind H. unfold try_bool in H. inv_bind H. injection H as <-. split; [repeat split; auto|]. cbn [adtype]. rewrite (vslice_nullable _ _ _ _ E). reflexivity.
  - intros p l v i j b H. cbn [slice] in H. inv_bind H. unfold try_prim in H. inv_bind H. injection H as <-. split; [repeat split; auto|]. cbn [adtype]. rewrite (vslice_nullable _ _ _ _ E). reflexivity.
  - intros u w bf v i j b H. cbn [slice] in H. inv_bind H. unfold try_view in H. inv_bind H. injection H as <-. split; [repeat split; auto|]. cbn [adtype]. rewrite (vslice_nullable _ _ _ _ E). reflexivity.
  - intros u o bf v IH i j b H. cbn [slice] in H. inv_bind H. unfold try_varbin in H. inv_bind H. injection H as <-. destruct (IH _ _ _ E) as [(D & _) T]. split; [split; [cbn [depth]; lia|split; [auto|]]|].
    + intros (A & B & C3). cbn [small_strings]. rewrite T. auto.
    + cbn [adtype]. rewrite (vslice_nullable _ _ _ _ E0). reflexivity.
  - intros ns fls n v IH i j b H. cbn [slice] in H. inv_bind H. unfold try_struct in H. inv_bind H. injection H as <-. rewrite mapM_map in E. apply mapM_in in E.
    assert (list_max (map depth a) <= list_max (map depth fls) /\ map adtype a = map adtype fls) as [D T].
    { clear - IH E. induction E as [|x y l r E1 E2 IH2]; [split; reflexivity|]. inversion IH as [|? ? I1 I2]; subst. destruct (I1 _ _ _ E1) as [(D & _) T]. destruct (IH2 I2) as [D2 T2]. split; [cbn [map]; change (list_max (?u :: ?w)) with (max u (list_max w)); cbn [list_max fold_right] in *; fold (list_max (map depth r)); fold (list_max (map depth l)); lia|cbn [map]; congruence]. }
    split; [split; [cbn [depth]; lia|auto]|]. cbn [adtype]. rewrite (vslice_nullable _ _ _ _ E0), T. reflexivity.
  - intros id st IH i j b H. cbn [slice] in H. inv_bind H. injection H as <-. destruct (IH _ _ _ E) as [(D & _) T]. split; [split; [cbn [depth]; lia|auto]|]. cbn [adtype]. rewrite T. reflexivity.
  - intros d x n i j b H. cbn [slice] in H. inv_bind H. injection H as <-. split; [repeat split; auto|reflexivity].
  - intros ix vs o n fl IH1 IH2 i j b H. cbn [slice] in H. inv_bind H. unfold try_sparse in H. inv_bind H; injection H as <-; destruct (IH1 _ _ _ E1) as [(D1 & _) T1]; destruct (IH2 _ _ _ E2) as [(D2 & _) T2]; (split; [split; [cbn [depth]; lia|auto]|]; cbn [adtype]; rewrite T2; reflexivity).
  - intros c v IH1 IH2 i j b H. cbn [slice] in H. inv_bind H. unfold try_dict in H. inv_bind H. injection H as <-. destruct (IH1 _ _ _ E) as [(D1 & _) T1]. split; [split; [cbn [depth]; lia|auto]|]. reflexivity.
  - intros e v vd o n IH1 IH2 i j b H. cbn [slice] in H. inv_bind H. unfold try_runend in H. inv_bind H; injection H as <-; destruct (IH1 _ _ _ E1) as [(D1 & _) T1]; destruct (IH2 _ _ _ E2) as [(D2 & _) T2]; (split; [split; [cbn [depth]; lia|auto]|]; cbn [adtype]; exact T2).
  - intros p e r s IH i j b H. cbn [slice] in H. inv_bind H. injection H as <-. destruct (IH _ _ _ E) as [(D & _) T]. split; [split; [cbn [depth]; lia|auto]|]. cbn [adtype]. rewrite T. reflexivity.
  - intros e IH i j b H. cbn [slice] in H. inv_bind H. unfold try_zigzag in H. inv_bind H. injection H as <-. destruct (IH _ _ _ E) as [(D & _) T]. split; [split; [cbn [depth]; lia|auto]|]. cbn [adtype]. rewrite T. reflexivity.
  - intros p l bw o n v q IH i j b H. cbn [slice] in H. cbv zeta in H. inv_bind H. destruct q as [q|].
    + inv_bind E0. destruct (IH _ _ _ E1) as [(D & _) T].
      assert (forall x, a0 = Some x -> depth x <= depth q) as DX. { destruct a1; try discriminate. destruct (alen a1_1 =? 0); injection E0 as <-; intros x Hx; [discriminate|injection Hx as <-; exact D]. }
      unfold try_bitpacked in H. inv_bind H.
      assert (exists pk off len, b = ABitPacked p pk bw off len a a0) as (pk & off & len & ->).
      { destruct a0 as [x|]; inv_bind H; [destruct x; try discriminate H; inv_bind H|]; injection H as <-; eexists _, _, _; reflexivity. }
      split; [split; [cbn [depth]; destruct a0 as [x|]; [specialize (DX _ eq_refl); lia|lia]|auto]|]. cbn [adtype]. rewrite (vslice_nullable _ _ _ _ E). reflexivity.
    + injection E0 as <-. unfold try_bitpacked in H. inv_bind H. injection H as <-. split; [split; [cbn [depth]; lia|auto]|]. cbn [adtype]. rewrite (vslice_nullable _ _ _ _ E). reflexivity.
  - intros l v i j b H. cbn [slice] in H. inv_bind H. unfold try_bytebool in H. inv_bind H. injection H as <-. split; [repeat split; auto|]. cbn [adtype]. rewrite (vslice_nullable _ _ _ _ E). reflexivity.
Qed.

(** * map2 *)
Lemma map2_length {A B C} (g : A -> B -> C) l r : length l = length r -> length (map2 g l r) = length l.
Proof. revert r. induction l as [|x l IH]; intros [|y r] H; cbn in *; try discriminate; [reflexivity|]. f_equal. apply IH. lia. Qed.
Lemma nth_map2 {A B C} (g : A -> B -> C) l r i dl dr dc : length l = length r -> i < length l -> nth i (map2 g l r) dc = g (nth i l dl) (nth i r dr).
Proof. revert r i. induction l as [|x l IH]; intros [|y r] i H Hi; cbn in *; try discriminate; [lia|]. destruct i as [|i]; [reflexivity|]. apply IH; lia. Qed.
Lemma map2_tab {A B C} (g : A -> B -> C) n (f : nat -> A) (h : nat -> B) : map2 g (tab n f) (tab n h) = tab n (fun i => g (f i) (h i)).
Proof. unfold tab. generalize (seq 0 n). induction l as [|x l IH]; cbn; [reflexivity|]. f_equal. exact IH. Qed.
Lemma map2_as_tab {A B C} (g : A -> B -> C) l r da db : length l = length r -> map2 g l r = tab (length l) (fun i => g (nth i l da) (nth i r db)).
Proof.
  intros H. destruct (map2 g l r) as [|c0 rest] eqn:E; [|rewrite <- E].
  - destruct l, r; try discriminate; reflexivity.
  - apply nth_ext_len with (d := c0); [rewrite map2_length, tab_length by exact H; reflexivity|]. intros i Hi. rewrite map2_length in Hi by exact H. rewrite nth_tab by exact Hi. apply nth_map2; assumption.
Qed.
Lemma map2_app {A B C} (g : A -> B -> C) l r l' r' : length l = length r -> map2 g (l ++ l') (r ++ r') = map2 g l r ++ map2 g l' r'.
Proof. revert r. induction l as [|x l IH]; intros [|y r] H; cbn in *; try discriminate; [reflexivity|]. f_equal. apply IH. lia. Qed.
Lemma map2_flip {A B C} (g : A -> B -> C) l r : map2 g l r = map2 (fun y x => g x y) r l.
Proof. revert r. induction l as [|x l IH]; intros [|y r]; cbn; try reflexivity. f_equal. apply IH. Qed.
Lemma map2_ext_in {A B C} (g h : A -> B -> C) l r : (forall x y, In x l -> In y r -> g x y = h x y) -> map2 g l r = map2 h l r.
Proof. revert r. induction l as [|x l IH]; intros [|y r] H; cbn; try reflexivity. f_equal; [apply H; left; reflexivity|]. apply IH. intros; apply H; right; assumption. Qed.
Lemma map2_repeat_r {A B C} (g : A -> B -> C) l y n : n = length l -> map2 g l (repeat y n) = map (fun x => g x y) l.
Proof. intros ->. induction l as [|x l IH]; cbn; [reflexivity|]. f_equal. exact IH. Qed.

(** * The orders *)
Definition rev_cmp (c : option comparison) : option comparison := match c with Some c => Some (CompOpp c) | None => None end.
Lemma rel_swap op c : rel (cop_swap op) (rev_cmp c) = rel op c.
Proof. destruct op, c as [[]|]; reflexivity. Qed.
Lemma rel_inverse op c : c <> None -> rel (cop_inverse op) c = negb (rel op c).
Proof. destruct op, c as [[]|]; intros; try reflexivity; congruence. Qed.
Lemma lex_rev a b : lex b a = CompOpp (lex a b).
Proof. revert b. induction a as [|x a IH]; intros [|y b]; cbn; try reflexivity. rewrite (Z.compare_antisym x y). destruct (x ?= y)%Z; cbn; auto. Qed.
Lemma value_cmp_rev d x y : value_cmp d y x = rev_cmp (value_cmp d x y).
Proof.
  destruct x as [|a|a|a|a], y as [|b|b|b|b]; try reflexivity.
  - cbn. destruct a, b; reflexivity.
  - cbn. destruct d; try reflexivity. destruct (is_float p); cbn; [|rewrite Z.compare_antisym; reflexivity]. unfold ieee_cmp. rewrite orb_comm. destruct (is_nan p a || is_nan p b); cbn; [reflexivity|]. rewrite Z.compare_antisym. reflexivity.
  - cbn. rewrite lex_rev. reflexivity.
Qed.
Lemma value_cmp_erase d d' x y : erase d = erase d' -> value_cmp d x y = value_cmp d' x y.
Proof. intros E. destruct x, y; try reflexivity. cbn. destruct d, d'; try discriminate; try reflexivity. cbn in E. injection E as <-. reflexivity. Qed.
Lemma spec_cmp_erase d d' op x y : erase d = erase d' -> spec_cmp d op x y = spec_cmp d' op x y.
Proof. intros E. unfold spec_cmp. rewrite (value_cmp_erase d d' x y E). reflexivity. Qed.
Lemma spec_cmp_swap d op x y : spec_cmp d (cop_swap op) y x = spec_cmp d op x y.
Proof. unfold spec_cmp. rewrite (orb_comm (is_null y)). destruct (is_null x || is_null y); [reflexivity|]. rewrite value_cmp_rev, rel_swap. reflexivity. Qed.

(** Values whose Arrow/total order is the IEEE one: no NaN, no negative zero. *)
Definition plain_value (d : dtype) (x : value) : Prop :=
  match d, x with DPrim p _, VInt z => is_float p = true -> plain_float p z | _, _ => True end.
Definition plain (a : array) : Prop := Forall (plain_value (adtype a)) (logical a).
Lemma total_is_ieee p x y : is_float p = true -> in_range p x -> in_range p y -> plain_float p x -> plain_float p y -> Some (total_key p x ?= total_key p y)%Z = ieee_cmp p x y.
Proof.
  intros F Rx Ry [Nx Zx] [Ny Zy]. unfold ieee_cmp. rewrite Nx, Ny. cbn [orb]. f_equal. unfold total_key, float_key, magnitude, is_neg.
  assert (0 <= x /\ 0 <= y)%Z as [X Y] by (destruct p; try discriminate; unfold in_range in *; cbn in *; lia).
  destruct (Z.leb_spec (sign_bit p) x), (Z.leb_spec (sign_bit p) y); symmetry.
  - destruct (Z.compare_spec (- (x - sign_bit p)) (- (y - sign_bit p))); symmetry; [apply Z.compare_eq_iff|apply Z.compare_lt_iff|apply Z.compare_gt_iff]; lia.
  - rewrite (proj2 (Z.compare_lt_iff _ _)) by lia. symmetry. apply Z.compare_lt_iff. lia.
  - rewrite (proj2 (Z.compare_gt_iff _ _)) by lia. symmetry. apply Z.compare_gt_iff. lia.
  - reflexivity.
Qed.
Lemma sv_cmp_value d x y : flat d = true -> vtyped d x -> vtyped d y -> x <> VNull -> y <> VNull -> plain_value d x -> plain_value d y -> sv_cmp (erase d) x y = value_cmp d x y.
Proof.
  intros F Tx Ty Nx Ny Px Py. destruct d, x, y; try contradiction; try congruence; try discriminate; try reflexivity.
  cbn in *. unfold total_cmp. destruct (is_float p) eqn:EF; [|reflexivity]. apply total_is_ieee; auto.
Qed.
Lemma sv_cmp_erase d d' x y : flat d = true -> erase d = erase d' -> sv_cmp d x y = sv_cmp d' x y.
Proof. intros F E. destruct d, d'; try discriminate; cbn in E; destruct x, y; try reflexivity. injection E as <-. reflexivity. Qed.

(** * Arrow kernels *)
Definition masked (l : list value) (v : validity) : list value := tab (length l) (fun i => if vvalid v i then nth i l VNull else VNull).
Lemma arrow_side_spec v n : vwf v n -> match arrow_side v n with None => forall i, i < n -> vvalid v i = true | Some b => b = vbits v n end.
Proof.
  intros W. unfold arrow_side. pose proof (null_buffer_spec v n W) as H. destruct (to_null_buffer (to_logical v n)) as [b|]; [|exact H]. subst b.
  pose proof (drop_nulls_spec (vbits v n)) as D. destruct (drop_nulls (vbits v n)); [exact D|]. intros i Hi. rewrite vbits_length in D. specialize (D i Hi). rewrite nth_vbits in D by exact Hi. exact D.
Qed.
Lemma union_nulls_ok v w n : vwf v n -> vwf w n ->
  exists u, arrow_nulls (union_nulls (arrow_side v n) (arrow_side w n)) true = Ok u /\ vwf u n /\ vnullable u = true /\ forall i, i < n -> vvalid u i = vvalid v i && vvalid w i.
Proof.
  intros Wv Ww. pose proof (arrow_side_spec v n Wv) as Sv. pose proof (arrow_side_spec w n Ww) as Sw.
  destruct (arrow_nulls_ok (union_nulls (arrow_side v n) (arrow_side w n)) true (tab n (fun i => vvalid v i && vvalid w i))) as (u & H1 & H2 & H3 & H4).
  - rewrite tab_length. destruct (arrow_side v n) as [bv|], (arrow_side w n) as [bw|]; cbn [union_nulls]; subst.
    + unfold vbits. apply map2_tab.
    + unfold vbits. apply tab_ext. intros i Hi. rewrite (Sw i Hi), andb_true_r. reflexivity.
    + unfold vbits. apply tab_ext. intros i Hi. rewrite (Sv i Hi). reflexivity.
    + intros k Hk. rewrite nth_tab by exact Hk. rewrite (Sv k Hk), (Sw k Hk). reflexivity.
  - discriminate.
  - rewrite tab_length in H2, H4. exists u. repeat split; auto. intros i Hi. rewrite (H4 i Hi), nth_tab by exact Hi. reflexivity.
Qed.
Lemma bool_result buf n u g : length buf = n -> vwf u n -> vnullable u = true -> (forall i, i < n -> (if vvalid u i then VBool (nth i buf false) else VNull) = g i) ->
  logical (ABool 0 buf n u) = tab n g /\ adtype (ABool 0 buf n u) = DBool true /\ forall f, wf f (ABool 0 buf n u).
Proof.
  intros L V N G. split; [|split; [cbn [adtype]; rewrite N; reflexivity|intros f; cbn [wf]; rewrite L; repeat split; [lia|lia|exact V]]].
  cbn [logical]. apply tab_ext. intros i Hi. rewrite <- (G i Hi). rewrite Nat.add_0_l. reflexivity.
Qed.
Definition fr : flags := Flags false false true true true false false false false false.
Definition cmp_good (d : dtype) (op : cop) (la lb : list value) (r : array) : Prop :=
  logical r = map2 (spec_cmp d op) la lb /\ adtype r = DBool true /\ wf fr r.
Definition side_ok (d : dtype) (la : list value) (l : list value) (v : validity) : Prop :=
  la = masked l v /\ vwf v (length l) /\ (forall i, i < length l -> vvalid v i = true -> nth i l VNull <> VNull) /\ Forall (vtyped d) la /\ Forall (plain_value d) la.
Lemma masked_length l v : length (masked l v) = length l.
Proof. apply tab_length. Qed.
Lemma side_nth d la l v i : side_ok d la l v -> i < length l -> nth i la VNull = if vvalid v i then nth i l VNull else VNull.
Proof. intros (-> & _) Hi. unfold masked. rewrite nth_tab by exact Hi. reflexivity. Qed.
Lemma side_elem d la l v i : side_ok d la l v -> i < length l -> vvalid v i = true -> nth i l VNull <> VNull /\ vtyped d (nth i l VNull) /\ plain_value d (nth i l VNull).
Proof.
  intros H Hi V. pose proof (side_nth d la l v i H Hi) as E. rewrite V in E. destruct H as (HA & _ & N & T & P). split; [apply N; assumption|].
  assert (In (nth i l VNull) la) as I by (rewrite <- E; apply nth_In; rewrite HA, masked_length; exact Hi). rewrite Forall_forall in T, P. split; auto.
Qed.
Lemma kernel_ok d op la lb l v r w e : flat d = true -> erase d = erase e -> length l = length r -> side_ok d la l v -> side_ok e lb r w ->
  outc True (arrow_kernel (erase d) op l v r w) (cmp_good d op la lb).
Proof.
  intros F EE EL HL HR. unfold arrow_kernel. pose proof HL as (HA & Wv & _). pose proof HR as (HB & Ww & _). rewrite <- EL in Ww.
  destruct (union_nulls_ok v w (length l) Wv Ww) as (u & -> & Vu & Nu & Bu). cbn [bind]. apply outc_ok. unfold cmp_good.
  assert (length la = length l) as La by (rewrite HA; apply masked_length). assert (length lb = length l) as Lb by (rewrite HB, masked_length; auto).
  rewrite (map2_as_tab (spec_cmp d op) la lb VNull VNull) by congruence. rewrite La.
  destruct (bool_result (map2 (fun x y => rel op (sv_cmp (erase d) x y)) l r) (length l) u (fun i => spec_cmp d op (nth i la VNull) (nth i lb VNull))) as (G1 & G2 & G3).
  - apply map2_length. exact EL.
  - exact Vu.
  - exact Nu.
  - intros i Hi. rewrite (Bu i Hi). rewrite (side_nth _ _ _ _ i HL Hi). assert (i < length r) as Hr by (rewrite <- EL; exact Hi). rewrite (side_nth _ _ _ _ i HR Hr).
    destruct (vvalid v i) eqn:EV; [|reflexivity]. destruct (vvalid w i) eqn:EW; [|cbn [andb]; unfold spec_cmp; rewrite orb_true_r; reflexivity]. cbn [andb].
    destruct (side_elem _ _ _ _ i HL Hi EV) as (N1 & T1 & P1). destruct (side_elem _ _ _ _ i HR Hr EW) as (N2 & T2 & P2).
    rewrite (nth_map2 _ l r i VNull VNull) by assumption. unfold spec_cmp.
    assert (is_null (nth i l VNull) = false) as -> by (destruct (nth i l VNull); try reflexivity; congruence).
    assert (is_null (nth i r VNull) = false) as -> by (destruct (nth i r VNull); try reflexivity; congruence). cbn [orb]. do 2 f_equal.
    apply sv_cmp_value; auto.
    + clear - T2 EE F N2. destruct d, e; try discriminate; destruct (nth i r VNull); cbn in *; try congruence; auto.
    + clear - P2 EE. destruct d, e; try discriminate; try exact I. cbn in EE. injection EE as <-. exact P2.
  - split; [exact G1|]. split; [exact G2|apply G3].
Qed.

(** The Arrow form of a canonical array. *)
Lemma arrow_form_ok g c : wf g c -> is_canon c = true -> flat (adtype c) = true ->
  exists l v, arrow_form c = Some (erase (adtype c), l, v) /\ length l = alen c /\ (forall d, Forall (vtyped d) (logical c) -> Forall (plain_value d) (logical c) -> side_ok d (logical c) l v).
Proof.
  intros W C F. destruct c as [n|o b n v|p l v|u vs bufs v| |ns fls n v|id st| | | | | | | | |]; try discriminate C; try discriminate F.
  - exists (repeat VNull n), VAllInvalid. cbn [arrow_form adtype erase alen]. split; [reflexivity|]. split; [apply repeat_length|]. intros d T P. split; [|split; [exact I|split; [discriminate|split; assumption]]].
    unfold masked. rewrite repeat_length. cbn [logical vvalid]. rewrite tab_const. reflexivity.
  - destruct W as (W1 & W2 & W3). exists (map VBool (lslice b o (o + n))), v. assert (length (lslice b o (o + n)) = n) as L by (rewrite lslice_length; lia).
    cbn [arrow_form adtype erase alen]. split; [reflexivity|]. rewrite map_length, L. split; [reflexivity|]. intros d T P. unfold side_ok. unfold masked. rewrite map_length, L. split; [|split; [exact W3|split; [|split; assumption]]].
    + cbn [logical]. apply tab_ext. intros i Hi. destruct (vvalid v i); [|reflexivity]. rewrite (map_nth_lt VBool _ false VNull i) by lia. rewrite nth_lslice by lia. reflexivity.
    + intros i Hi _. rewrite (map_nth_lt VBool _ false VNull i) by lia. discriminate.
  - destruct W as (W1 & W2). exists (map VInt l), v. cbn [arrow_form adtype erase alen]. split; [reflexivity|]. rewrite map_length. split; [reflexivity|]. intros d T P. unfold side_ok. unfold masked. rewrite map_length. split; [|split; [exact W2|split; [|split; assumption]]].
    + cbn [logical]. apply tab_ext. intros i Hi. destruct (vvalid v i); [|reflexivity]. rewrite (map_nth_lt VInt _ 0%Z VNull i) by lia. reflexivity.
    + intros i Hi _. rewrite (map_nth_lt VInt _ 0%Z VNull i) by lia. discriminate.
  - destruct W as (W1 & W2 & _). exists (map (fun w => VBytes (view_bytes bufs w)) vs), v. split; [cbn [arrow_form adtype]; destruct u; reflexivity|]. cbn [alen]. rewrite map_length. split; [reflexivity|]. intros d T P. unfold side_ok. unfold masked. rewrite map_length. split; [|split; [exact W2|split; [|split; assumption]]].
    + cbn [logical]. apply tab_ext. intros i Hi. destruct (vvalid v i); [|reflexivity]. rewrite (map_nth_lt _ _ (VInl []) VNull i) by lia. reflexivity.
    + intros i Hi _. rewrite (map_nth_lt _ _ (VInl []) VNull i) by lia. discriminate.
Qed.

(** * The encodings' own comparisons *)
Lemma typed_prim_nn p n x : vtyped (DPrim p n) x -> x <> VNull -> exists z, x = VInt z.
Proof. destruct x; cbn; try contradiction; try congruence; eauto. Qed.
Lemma prim_compare_ok p l v r w op : vwf v (length l) -> vwf w (length r) -> length l = length r ->
  outc True (prim_compare p l v p r w op) (cmp_good (DPrim p (vnullable v)) op (logical (APrim p l v)) (logical (APrim p r w))).
Proof.
  intros Wv Ww EL. unfold prim_compare. rewrite <- EL in Ww. destruct (validity_and v w (length l) Wv Ww) as (u & -> & Vu & _ & Bu). cbn [bind].
  assert (vwf (into_nullable u) (length l)) as Vu' by (destruct u; auto). assert (forall i, vvalid (into_nullable u) i = vvalid u i) as Iu by (intros i; destruct u; reflexivity).
  rewrite try_bool_0 by (apply vfits_vwf; exact Vu'). apply outc_ok. unfold cmp_good. cbn [logical]. rewrite <- EL, map2_tab.
  destruct (bool_result (map2 (fun x y => rel op (native_cmp p x y)) l r) (length l) (into_nullable u)
    (fun i => spec_cmp (DPrim p (vnullable v)) op (if vvalid v i then VInt (nth i l 0%Z) else VNull) (if vvalid w i then VInt (nth i r 0%Z) else VNull))) as (G1 & G2 & G3).
  - apply map2_length, EL.
  - exact Vu'.
  - destruct u; reflexivity.
  - intros i Hi. rewrite Iu, (Bu i Hi). destruct (vvalid v i); [|reflexivity]. destruct (vvalid w i); [|reflexivity]. cbn [andb]. rewrite (nth_map2 _ l r i 0%Z 0%Z) by assumption. reflexivity.
  - split; [exact G1|]. split; [exact G2|apply G3].
Qed.
Lemma prim_const_compare_ok p l v x op e : vwf v (length l) -> vtyped e x -> erase e = DPrim p false ->
  outc (x <> VNull) (prim_const_compare p l v x op) (cmp_good (DPrim p (vnullable v)) op (logical (APrim p l v)) (repeat x (length l))).
Proof.
  intros Wv T EE. destruct e; try discriminate. cbn in EE. injection EE as ->. destruct x as [|b|z|s|vs]; try contradiction; [cbn; congruence|].
  assert (vwf (into_nullable v) (length l)) as Vu' by (destruct v; auto).
  unfold prim_const_compare. rewrite try_bool_0 by (apply vfits_vwf; exact Vu'). apply outc_ok. unfold cmp_good. rewrite map2_repeat_r by (cbn [logical]; rewrite tab_length; reflexivity).
  replace (map (fun x => spec_cmp (DPrim p (vnullable v)) op x (VInt z)) (logical (APrim p l v))) with (tab (length l) (fun i => spec_cmp (DPrim p (vnullable v)) op (if vvalid v i then VInt (nth i l 0%Z) else VNull) (VInt z))) by (cbn [logical]; unfold tab; rewrite map_map; reflexivity).
  destruct (bool_result (map (fun y => rel op (native_cmp p y z)) l) (length l) (into_nullable v)
    (fun i => spec_cmp (DPrim p (vnullable v)) op (if vvalid v i then VInt (nth i l 0%Z) else VNull) (VInt z))) as (G1 & G2 & G3).
  - apply map_length.
  - exact Vu'.
  - destruct v; reflexivity.
  - intros i Hi. assert (vvalid (into_nullable v) i = vvalid v i) as -> by (destruct v; reflexivity). destruct (vvalid v i); [|reflexivity].
    rewrite (map_nth_lt _ l 0%Z false i) by exact Hi. reflexivity.
  - split; [exact G1|]. split; [exact G2|apply G3].
Qed.
(** A constant as the right side of an Arrow comparison. *)
Lemma const_side d x n : vtyped d x -> plain_value d x -> side_ok d (repeat x n) (repeat x n) (if is_null x then VAllInvalid else VNonNull).
Proof.
  intros T P. unfold side_ok, masked. rewrite repeat_length. split; [|split; [destruct (is_null x); exact I|split; [|split; apply Forall_forall; intros y Hy; apply repeat_spec in Hy; subst; assumption]]].
  - rewrite <- (tab_const n x). apply tab_ext. intros i Hi. rewrite tab_const. destruct x; cbn [is_null vvalid]; try reflexivity; rewrite nth_repeat_lt by exact Hi; reflexivity.
  - intros i Hi. rewrite nth_repeat_lt by exact Hi. destruct x; cbn; congruence.
Qed.
Lemma scalar_kernel_ok d op la l v e x : flat d = true -> erase d = erase e -> side_ok d la l v -> vtyped e x -> plain_value e x ->
  outc True (arrow_cmp_scalar op (erase d) l v x) (cmp_good d op la (repeat x (length l))).
Proof.
  intros F EE HL T P. unfold arrow_cmp_scalar. apply (kernel_ok d op la _ l v _ _ e F EE); [rewrite repeat_length; reflexivity|exact HL|]. apply const_side; assumption.
Qed.
Lemma canon_pl f a : wf f a -> fc f = true -> outc (fC f = true) (canon a) (canon_post f a).
Proof. intros W C. exact (g_canon _ _ (ops_correct (depth a) a (le_n _)) f W C). Qed.
Lemma canon_form f a c : wf f a -> flat (adtype a) = true -> plain a -> canon_post f a c ->
  exists l v, arrow_form c = Some (erase (adtype a), l, v) /\ length l = alen a /\ side_ok (adtype a) (logical a) l v.
Proof.
  intros W F P (C1 & C2 & C3 & _ & C5). destruct (arrow_form_ok _ c C5 C1) as (l & v & A & L & S1); [rewrite (erase_flat _ _ C3); exact F|].
  exists l, v. rewrite C3 in A. split; [exact A|]. split; [rewrite L, <- !logical_length, C2; reflexivity|]. rewrite <- C2. apply S1; rewrite C2; [eapply vtyped_logical; exact W|exact P].
Qed.
Lemma fallback_ok f a b op : wf f a -> wf f b -> fc f = true -> flat (adtype a) = true -> erase (adtype a) = erase (adtype b) -> alen a = alen b -> plain a -> plain b ->
  outc (fC f = true) (do x <- canon a; do y <- canon b; arrow_cmp op x y) (cmp_good (adtype a) op (logical a) (logical b)).
Proof.
  intros Wa Wb C F E L Pa Pb. eapply outc_bind; [apply canon_pl; eassumption|]. intros x _ Px. eapply outc_bind; [apply canon_pl; eassumption|]. intros y _ Py.
  destruct (canon_form f a x Wa F Pa Px) as (l & v & A & La & Sa). destruct (canon_form f b y Wb) as (r & w & B & Lb & Sb); [rewrite <- (erase_flat _ _ E); exact F|exact Pb|exact Py|].
  unfold arrow_cmp. rewrite A, B, E, dtype_eqb_refl, <- E. eapply outc_weaken; [apply (kernel_ok (adtype a) op (logical a) (logical b) l v r w (adtype b) F E); [congruence|exact Sa|exact Sb]|auto|auto].
Qed.
Lemma varbin_const_ok f u o bts v x e op : let a := AVarBin u o bts v in
  wf f a -> fc f = true -> erase (adtype a) = erase e -> vtyped e x ->
  outc (fC f = true /\ small_strings a) (varbin_const_compare u (canon o) bts v x op) (cmp_good (adtype a) op (logical a) (repeat x (alen a))).
Proof.
  intros a W C E T. pose proof W as W0. cbn [wf a] in W. destruct W as (W1 & (p & Wp & Wi) & W3 & W4 & W5 & W6 & _).
  unfold varbin_const_compare. eapply outc_bind; [eapply outc_weaken; [apply (into_prim_ok f o _ p (canon_pl f o W1 C) Wp)|tauto|intros b _ Hb; exact Hb]|].
  intros [[q ol] vv] _ Hq. assert (q = p /\ ol = ints (logical o)) as [-> ->] by (split; congruence). clear Hq vv. set (ol := ints (logical o)) in *.
  assert (length ol = alen o) as Lol by (unfold ol, ints; rewrite map_length, logical_length; reflexivity).
  assert (flat (adtype a) = true) as F by (unfold a; cbn [adtype]; destruct u; reflexivity).
  assert (p <> I64 -> p <> U64 -> outc (fC f = true /\ small_strings a)
    (if negb (forallb (in_rangeb I32) ol) then Err else do vals <- mapM (vb_bytes ol bts) (seq 0 (length ol - 1)); arrow_cmp_scalar op (if u then DUtf8 false else DBinary false) (map VBytes vals) v x)
    (cmp_good (adtype a) op (logical a) (repeat x (alen a)))) as G.
  { intros _ _. destruct (forallb (in_rangeb I32) ol) eqn:ER; cbn [negb].
    2:{ cbn [outc]. intros (_ & _ & _ & SZ). apply Bool.not_true_iff_false in ER. apply ER. apply forallb_forall. intros z Hz. apply in_rangeb_spec. rewrite Forall_forall in W5. specialize (W5 z Hz). unfold in_range. change (pmin I32) with (-2147483648)%Z. lia. }
    rewrite (mapM_ok_map (vb_bytes ol bts) (vb_str ol bts)) by (intros i Hi; apply in_seq in Hi; apply vb_bytes_ok; auto; lia). cbn [bind].
    replace (if u then DUtf8 false else DBinary false) with (erase (adtype a)) by (unfold a; cbn [adtype]; destruct u; reflexivity).
    assert (alen a = length ol - 1) as La by (unfold a; cbn [alen]; rewrite Lol; reflexivity).
    eapply outc_weaken; [apply (scalar_kernel_ok (adtype a) op (logical a) _ v e x F E)| |].
    - unfold side_ok, masked. rewrite !map_length, seq_length. split; [|split; [rewrite Lol; exact W6|split; [|split; [eapply vtyped_logical; exact W0|]]]].
      + unfold a. cbn [logical]. fold ol. unfold nats. rewrite map_length. apply tab_ext. intros i Hi. destruct (vvalid v i); [|reflexivity].
        rewrite map_map. rewrite (map_nth_lt _ (seq 0 (length ol - 1)) 0 VNull i) by (rewrite seq_length; exact Hi). rewrite seq_nth by exact Hi. unfold vb_str. cbn [Nat.add].
        rewrite !(map_nth_lt Z.to_nat ol 0%Z 0) by lia. try rewrite Nat.add_1_r. reflexivity.
      + intros i Hi _. rewrite map_map. rewrite (map_nth_lt _ (seq 0 (length ol - 1)) 0 VNull i) by (rewrite seq_length; exact Hi). discriminate.
      + apply Forall_forall. intros y _. unfold a. cbn [adtype]. destruct u; exact I.
    - exact T.
    - clear - E. unfold a in E. cbn [adtype] in E. destruct u, e; try discriminate; exact I.
    - auto.
    - intros r _ Hr. rewrite !map_length, seq_length in Hr. rewrite La. exact Hr. }
  destruct p; try discriminate Wi; try (apply G; discriminate); cbn [outc]; intros (_ & S1 & S2 & _); congruence.
Qed.

(** * compare *)
Definition chunked_cmp (k : nat) (cs : list array) (b : array) (op : cop) : result array :=
  do (_, rs) <- foldM (fun (st : nat * list array) c =>
                      do s <- slice b (fst st) (fst st + alen c);
                      do r <- compare_ k c s op;
                      Ok (fst st + alen c, snd st ++ [r])) (0, []) cs;
  try_chunked rs (DBool true).
(** An encoding's own comparison; [None] when it has none for this right side. *)
Definition own (k : nat) (a b : array) (op : cop) : option (result array) :=
  match a with
  | AConst d x len =>
      match b with
      | AConst e y m => Some (if m =? 0 then Panic else Ok (AConst (DBool true) (scalar_cmp d x e y op) len))
      | _ => None
      end
  | APrim p l v =>
      match b with
      | AConst _ x _ => Some (prim_const_compare p l v x op)
      | APrim q r w => Some (prim_compare p l v q r w op)
      | _ => None
      end
  | AVarBin u offs bytes v =>
      match b with AConst _ x _ => Some (varbin_const_compare u (canon offs) bytes v x op) | _ => None end
  | AView u vs bufs v =>
      match b with
      | AConst _ x _ => Some (do c <- canon a; match arrow_form c with Some (d, l, w) => arrow_cmp_scalar op d l w x | None => Err end)
      | _ => None
      end
  | AExt _ st =>
      match b with
      | AConst _ x m => Some (compare_ k st (AConst (adtype st) x m) op)
      | AExt _ st' => Some (compare_ k st st' op)
      | _ => None
      end
  | AChunked _ cs => Some (chunked_cmp k cs b op)
  | _ => None
  end.
Lemma compare_S k a b op : compare_ (S k) a b op =
  if negb (alen a =? alen b) then Err
  else if negb (dtype_eqb (erase (adtype a)) (erase (adtype b))) then Err
  else if is_const a && negb (is_const b) then compare_ k b a (cop_swap op)
  else match own k a b op with
       | Some r => r
       | None => match own k b a (cop_swap op) with Some r => r | None => do x <- canon a; do y <- canon b; arrow_cmp op x y end
       end.
Proof. reflexivity. Qed.

Lemma lex_eq a b : lex a b = Eq <-> a = b.
Proof. revert b. induction a as [|x a IH]; intros [|y b]; cbn; try (split; congruence). destruct (Z.compare_spec x y) as [->|H|H]; [rewrite IH; split; congruence|split; [discriminate|intros [= -> ->]; lia]|split; [discriminate|intros [= -> ->]; lia]]. Qed.
Lemma scalar_cmp_ok d x e y op : flat d = true -> erase d = erase e -> vtyped d x -> vtyped e y -> plain_value d x -> plain_value e y -> (d = e \/ (op <> CEq /\ op <> CNe)) ->
  scalar_cmp d x e y op = spec_cmp d op x y.
Proof.
  intros F E Tx Ty Px Py O. unfold scalar_cmp, spec_cmp. destruct (is_null x || is_null y) eqn:EN; [reflexivity|]. apply orb_false_iff in EN. destruct EN as [Nx Ny]. f_equal.
  assert (x <> VNull) as Nx' by (intros ->; discriminate). assert (y <> VNull) as Ny' by (intros ->; discriminate).
  assert (d = e -> scalar_eq d x e y = rel CEq (value_cmp d x y)) as EQ.
  { intros <-. unfold scalar_eq. rewrite dtype_eqb_refl. cbn [andb]. destruct d, x, y; try contradiction; try congruence; try discriminate; cbn [sv_eq value_cmp].
    - destruct b, b0; reflexivity.
    - cbn. unfold native_cmp. destruct (is_float p); reflexivity.
    - destruct (list_eq_dec Z.eq_dec s s0) as [->|N]; [rewrite (proj2 (lex_eq s0 s0) eq_refl); reflexivity|]. destruct (lex s s0) eqn:EL; try reflexivity. apply lex_eq in EL. contradiction.
    - destruct (list_eq_dec Z.eq_dec s s0) as [->|N]; [rewrite (proj2 (lex_eq s0 s0) eq_refl); reflexivity|]. destruct (lex s s0) eqn:EL; try reflexivity. apply lex_eq in EL. contradiction. }
  assert (forall c, rel CNe c = negb (rel CEq c)) as NE by (intros [[]|]; reflexivity).
  assert (rel op (scalar_partial_cmp d x e y) = rel op (value_cmp d x y)) as ORD.
  { unfold scalar_partial_cmp. rewrite E, dtype_eqb_refl. f_equal. rewrite (sv_cmp_erase d (erase d)) by (auto; destruct d; reflexivity). apply sv_cmp_value; auto.
    - clear - Ty E F Ny'. destruct d, e; try discriminate; destruct y; cbn in *; try congruence; auto.
    - clear - Py E. destruct d, e; try discriminate; try exact I. cbn in E. injection E as <-. exact Py. }
  destruct O as [O|[O1 O2]]; [|destruct op; try congruence; exact ORD].
  destruct op; try exact ORD; rewrite ?NE, (EQ O); reflexivity.
Qed.

Definition is_chunked (a : array) : bool := match a with AChunked _ _ => true | _ => false end.
(** A constant that is not null. *)
Definition const_nn (a : array) : Prop := match a with AConst _ x _ => x <> VNull | _ => False end.
(** Equality of two constants also compares nullability: exclude pairs of constants of different nullability. *)
Definition eq_fits (a b : array) (op : cop) : Prop := adtype a = adtype b \/ (op <> CEq /\ op <> CNe) \/ no_const a \/ no_const b.
Definition sides_fit (a b : array) : Prop :=
  (no_const a /\ no_const b) \/ (const_nn a /\ no_const b /\ small_strings b) \/ (const_nn b /\ no_const a /\ small_strings a) \/
  (is_const a = true /\ is_const b = true /\ 0 < alen a).
Definition comparable (f : flags) (a b : array) : Prop :=
  fC f = true /\ (fs f = true \/ (is_chunked a = false /\ is_chunked b = false)) /\ sides_fit a b.
Definition need (a b : array) : nat := 2 * (depth a + depth b) + (if is_const a && negb (is_const b) then 2 else 1).
Definition cmp_ok (k : nat) (f : flags) (a b : array) (op : cop) : Prop :=
  wf f a -> wf f b -> fc f = true -> flat (adtype a) = true -> plain a -> plain b -> eq_fits a b op ->
  outc (alen a = alen b /\ erase (adtype a) = erase (adtype b) /\ comparable f a b /\ need a b <= k) (compare_ k a b op)
       (fun r => alen a = alen b /\ erase (adtype a) = erase (adtype b) /\ cmp_good (adtype a) op (logical a) (logical b) r).
Lemma eq_fits_swap a b op : eq_fits a b op -> eq_fits b a (cop_swap op).
Proof. unfold eq_fits. intros [H|[[H1 H2]|[H|H]]]; auto. right. left. destruct op; cbn [cop_swap]; split; congruence. Qed.
Lemma sides_swap a b : alen a = alen b -> sides_fit a b -> sides_fit b a.
Proof. intros L [H|[H|[H|(H1 & H2 & H3)]]]; unfold sides_fit; [tauto|tauto|tauto|]. right. right. right. rewrite <- L. auto. Qed.
Lemma good_swap d e op la lb r : erase d = erase e -> cmp_good e (cop_swap op) lb la r -> cmp_good d op la lb r.
Proof.
  intros E (G1 & G2 & G3). split; [|split; assumption]. rewrite G1, map2_flip. apply map2_ext_in. intros x y _ _. rewrite (spec_cmp_erase e d) by (symmetry; exact E). apply spec_cmp_swap.
Qed.
Lemma const_nn_slice a i j s : const_nn a -> slice a i j = Ok s -> const_nn s.
Proof. destruct a; try contradiction. intros H E. cbn [slice] in E. inv_bind E. injection E as <-. exact H. Qed.
Lemma plain_lslice d l i j : Forall (plain_value d) l -> Forall (plain_value d) (lslice l i j).
Proof. apply Forall_lslice. Qed.
Lemma firstn_lslice {A} (l : list A) p q : p <= q -> firstn q l = firstn p l ++ lslice l p q.
Proof. intros H. unfold lslice. rewrite <- (firstn_skipn p (firstn q l)) at 1. rewrite firstn_firstn, Nat.min_l by exact H. f_equal. rewrite skipn_firstn_comm. reflexivity. Qed.
Lemma chunked_cmp_ok k f d cs b op : (forall a b op, cmp_ok k f a b op) ->
  let a := AChunked d cs in
  wf f a -> wf f b -> fc f = true -> flat d = true -> plain a -> plain b -> eq_fits a b op -> alen a = alen b -> erase d = erase (adtype b) ->
  outc (comparable f a b /\ need a b <= S k) (chunked_cmp k cs b op) (cmp_good d op (logical a) (logical b)).
Proof.
  intros IH a Wa Wb C F Pa Pb EF L E. unfold chunked_cmp.
  assert (Forall (fun x => wf f x /\ adtype x = d) cs) as WC by (destruct Wa as [W _]; apply wf_chunks_iff in W; exact W).
  set (T := comparable f a b /\ need a b <= S k).
  eapply outc_bind with (P := fun st => fst st = list_sum (map alen cs) /\ Forall (fun r => adtype r = DBool true /\ wf fr r) (snd st) /\
      concat (map logical (snd st)) = map2 (spec_cmp d op) (concat (map logical cs)) (firstn (list_sum (map alen cs)) (logical b))).
  - apply (foldM_outc T _ (fun pre st => fst st = list_sum (map alen pre) /\ Forall (fun r => adtype r = DBool true /\ wf fr r) (snd st) /\
      concat (map logical (snd st)) = map2 (spec_cmp d op) (concat (map logical pre)) (firstn (list_sum (map alen pre)) (logical b)))).
    + cbn. repeat split; constructor.
    + intros pre c post [pos rs] EC (I1 & I2 & I3). cbn [fst snd] in *.
      assert (In c cs) as Hc by (rewrite EC; apply in_or_app; right; left; reflexivity).
      rewrite Forall_forall in WC. destruct (WC c Hc) as [Wc Dc].
      assert (alen a = list_sum (map alen cs)) as La by reflexivity.
      assert (pos + alen c <= alen b) as Hle. { rewrite <- L, La, EC, map_app, list_sum_app. cbn [map]. change (list_sum (alen c :: map alen post)) with (alen c + list_sum (map alen post)). lia. }
      eapply outc_bind with (P := fun s => slice_post f b pos (pos + alen c) s).
      * pose proof (slice_correct b f pos (pos + alen c) Wb ltac:(lia) Hle) as SC. eapply outc_weaken; [exact SC| |auto].
        intros [(H1 & [H2|[H2 _]] & _) _]; [left; exact H2|discriminate H2].
      * intros s ES (Ws & Ls & Ds & _). destruct (slice_shape b pos (pos + alen c) s ES) as [(SD & SN & SS) _].
        assert (alen s = alen c) as Lsc by (rewrite <- logical_length, Ls, lslice_length; [lia|rewrite logical_length; exact Hle]).
        assert (In c cs -> plain c) as Pc. { intros _. unfold plain in *. rewrite Dc. rewrite Forall_forall in Pa |- *. intros x Hx. apply (Pa x). unfold a. cbn [logical]. apply in_concat. exists (logical c). split; [apply in_map; exact Hc|exact Hx]. }
        assert (plain s) as Ps by (unfold plain; rewrite Ds, Ls; apply plain_lslice, Pb).
        eapply outc_bind; [eapply outc_weaken; [apply (IH c s op)| |intros r _ Hr; exact Hr]|]; auto; [rewrite Dc; exact F| | |].
        -- unfold eq_fits. rewrite Dc, Ds. destruct EF as [EF|[EF|[EF|EF]]]; auto. right. right. left. apply no_const_chunks in EF. rewrite Forall_forall in EF. auto.
        -- intros [(H1 & H2 & H3) HN]. split; [auto|]. split; [rewrite Dc, Ds; exact E|]. split; [split; [exact H1|split]|].
           ++ left. destruct H2 as [H2|[H2 _]]; [exact H2|discriminate H2].
           ++ destruct H3 as [(N1 & N2)|[(N1 & _)|[(N1 & N2 & N3)|(N1 & _)]]]; [|contradiction N1| |discriminate N1].
              ** left. apply no_const_chunks in N1. rewrite Forall_forall in N1. auto.
              ** right. right. left. apply no_const_chunks in N2. apply small_chunks in N3. rewrite Forall_forall in N2, N3. split; [eapply const_nn_slice; eassumption|auto].
           ++ unfold need in *. unfold a in HN. cbn [is_const andb depth] in HN. pose proof (list_max_in (map depth cs) (depth c) (in_map depth cs c Hc)). destruct (is_const c && negb (is_const s)); lia.
        -- intros r _ (_ & _ & G1 & G2 & G3). apply outc_ok. cbn [fst snd]. rewrite map_app, list_sum_app. cbn [map]. change (list_sum [alen c]) with (alen c + 0). split; [lia|]. split.
           { apply Forall_app. split; [exact I2|]. constructor; [split; assumption|constructor]. }
           rewrite !map_app, !concat_app. cbn [map concat]. rewrite !app_nil_r. rewrite G1, I3, Dc, Ls. rewrite <- I1 at 2. rewrite Nat.add_0_r.
           rewrite (firstn_lslice (logical b) pos (pos + alen c)) by lia. rewrite I1 at 1. rewrite map2_app; [rewrite I1; reflexivity|].
           rewrite firstn_length, logical_length. rewrite concat_length_sum. rewrite map_map. rewrite (map_ext _ alen) by (intros; apply logical_length). lia.
  - intros [pos rs] _ (_ & H2 & H3). cbn [fst snd] in *. unfold try_chunked.
    assert (forallb (fun c => dtype_eqb (adtype c) (DBool true)) rs = true) as ->. { apply forallb_forall. intros x Hx. rewrite Forall_forall in H2. destruct (H2 x Hx) as [-> _]. reflexivity. }
    apply outc_ok. split; [|split; [reflexivity|]].
    + change (logical (AChunked (DBool true) rs)) with (concat (map logical rs)). rewrite H3. rewrite firstn_all2; [reflexivity|]. rewrite logical_length, <- L. apply le_n.
    + cbn [wf]. split; [apply wf_chunks_iff; apply Forall_forall; intros x Hx; rewrite Forall_forall in H2; destruct (H2 x Hx); split; assumption|]. cbn. repeat split; try discriminate; auto.
Qed.

Lemma own_ok k f a b op : (forall a b op, cmp_ok k f a b op) -> wf f a -> wf f b -> fc f = true -> flat (adtype a) = true -> plain a -> plain b -> eq_fits a b op ->
  alen a = alen b -> erase (adtype a) = erase (adtype b) ->
  match own k a b op with
  | Some r => outc (comparable f a b /\ need a b <= S k) r (cmp_good (adtype a) op (logical a) (logical b))
  | None => True
  end.
Proof.
  intros IH Wa Wb C F Pa Pb EF L E.
  assert (forall e y m, b = AConst e y m -> vtyped e y /\ (0 < m -> plain_value e y) /\ m = alen b /\ logical b = repeat y m) as BC.
  { intros e y m ->. destruct Wb as [T _]. split; [exact T|]. split; [|split; reflexivity]. intros Hm. unfold plain in Pb. cbn [logical adtype] in Pb. rewrite Forall_forall in Pb. apply Pb. destruct m; [lia|left; reflexivity]. }
  destruct a as [n|o bb n v|p l v|u w bf v|u o bt v|ns fls n v|id st|d x n|ix vs o n fl|d cs|c vs|e vs vd o n|p e rf sh|e|p l bw o n v q|l v]; cbn [own]; try exact I.
  - (* primitive *)
    destruct b as [| |q r w| | | | |e y m| | | | | | | |]; try exact I.
    + cbn in E. injection E as <-. cbn in L. destruct Wa as [_ Wv]. destruct Wb as [_ Ww]. eapply outc_weaken; [apply prim_compare_ok; assumption|auto|auto].
    + destruct (BC e y m eq_refl) as (T & P & Lm & EL). cbn [alen] in L. rewrite EL, <- L. destruct Wa as [_ Wv]. eapply outc_weaken; [apply (prim_const_compare_ok p l v y op e Wv T)|intros [(_ & _ & S1) _]|auto].
      * symmetry. exact E.
      * destruct S1 as [[_ []]|[([] & _)|[(S1 & _)|(S1 & _)]]]; [exact S1|discriminate S1].
  - (* view *)
    destruct b as [| |q r w0| | | | |e y m| | | | | | | |]; try exact I.
    destruct (BC e y m eq_refl) as (T & P & Lm & EL). eapply outc_bind; [eapply outc_weaken; [apply (canon_pl f _ Wa C)|intros [(H & _) _]; exact H|intros c _ Hc; exact Hc]|].
    intros c _ Pc. destruct (canon_form f _ c Wa F Pa Pc) as (lv & vv & A & LA & SA). rewrite A.
    eapply outc_weaken; [apply (scalar_kernel_ok _ op _ _ _ e y F E SA T)|auto|].
    + cbn [adtype] in E. destruct u, e; try discriminate E; exact I.
    + intros r _ Hr. rewrite EL, Lm, <- L, <- LA. exact Hr.
  - (* varbin *)
    destruct b as [| |q r w0| | | | |e y m| | | | | | | |]; try exact I.
    destruct (BC e y m eq_refl) as (T & P & Lm & EL). rewrite EL, Lm, <- L. eapply outc_weaken; [apply (varbin_const_ok f u o bt v y e op Wa C E T)| |auto].
    intros [(H & _ & S1) _]. split; [exact H|]. destruct S1 as [[_ []]|[([] & _)|[(_ & _ & S1)|(S1 & _)]]]; [exact S1|discriminate S1].
  - discriminate F.
  - (* constant *)
    destruct b as [| |q r w0| | | | |e y m| | | | | | | |]; try exact I.
    destruct (BC e y m eq_refl) as (T & P & Lm & EL). cbn [alen] in L. subst m. destruct (Nat.eqb_spec n 0) as [->|Hn].
    + cbn [outc]. intros [(_ & _ & S1) _]. destruct S1 as [[[] _]|[(_ & [] & _)|[(_ & [] & _)|(_ & _ & S1)]]]. cbn in S1. lia.
    + apply outc_ok. destruct Wa as [Tx _]. assert (plain_value d x) as Px by (unfold plain in Pa; cbn [logical adtype] in Pa; rewrite Forall_forall in Pa; apply Pa; destruct n; [lia|left; reflexivity]).
      cbn [adtype] in *. assert (scalar_cmp d x e y op = spec_cmp d op x y) as SE. { apply scalar_cmp_ok; auto; [apply P; lia|]. destruct EF as [EF|[EF|[[]|[]]]]; [left; exact EF|right; exact EF]. }
      split; [|split; [reflexivity|]].
      * cbn [logical]. rewrite SE. clear. induction n as [|n IH]; cbn; [reflexivity|]. f_equal. exact IH.
      * cbn [wf]. split; [|intros _; split; [reflexivity|discriminate]]. rewrite SE. unfold spec_cmp. destruct (is_null x || is_null y); cbn; auto.
  - (* chunked *) apply chunked_cmp_ok; auto.
Qed.
Theorem compare_ok k : forall f a b op, cmp_ok k f a b op.
Proof.
  induction k as [|k IH]; intros f a b op Wa Wb C F Pa Pb EF.
  - cbn [compare_ outc]. unfold need. intros (_ & _ & _ & H). destruct (is_const a && negb (is_const b)); lia.
  - rewrite compare_S. destruct (Nat.eqb_spec (alen a) (alen b)) as [L|L]; cbn [negb]; [|cbn [outc]; tauto].
    destruct (dtype_eqb (erase (adtype a)) (erase (adtype b))) eqn:ED; cbn [negb]; [apply dtype_eqb_eq in ED; rename ED into E|cbn [outc]; intros (_ & H & _); rewrite H, dtype_eqb_refl in ED; discriminate].
    assert (flat (adtype b) = true) as Fb by (rewrite <- (erase_flat _ _ E); exact F).
    assert (forall T r, outc T r (cmp_good (adtype a) op (logical a) (logical b)) -> outc T r (fun r => alen a = alen b /\ erase (adtype a) = erase (adtype b) /\ cmp_good (adtype a) op (logical a) (logical b) r)) as WR.
    { intros T r H. eapply outc_impl; [exact H|]. auto. }
    apply WR. clear WR. destruct (is_const a && negb (is_const b)) eqn:EC.
    + eapply outc_weaken; [apply (IH f b a (cop_swap op)); auto; apply eq_fits_swap; exact EF| |].
      * intros (_ & _ & (H1 & H2 & H3) & HN). split; [auto|]. split; [auto|]. split; [split; [exact H1|split; [tauto|apply sides_swap; assumption]]|].
        unfold need in *. rewrite EC in HN. apply andb_true_iff in EC. destruct EC as [EC1 EC2]. apply negb_true_iff in EC2. rewrite EC2. cbn [andb]. lia.
      * intros r _ (_ & _ & G). apply (good_swap (adtype a) (adtype b)); assumption.
    + pose proof (own_ok k f a b op (IH f) Wa Wb C F Pa Pb EF L E) as OA. destruct (own k a b op) as [r|] eqn:EO; [eapply outc_weaken; [exact OA|tauto|auto]|]. clear OA.
      pose proof (own_ok k f b a (cop_swap op) (IH f) Wb Wa C Fb Pb Pa (eq_fits_swap _ _ _ EF) (eq_sym L) (eq_sym E)) as OB. destruct (own k b a (cop_swap op)) as [r|] eqn:EO2.
      * eapply outc_weaken; [exact OB| |].
        -- intros (_ & _ & (H1 & H2 & H3) & HN). split; [split; [exact H1|split; [tauto|apply sides_swap; assumption]]|].
           unfold need in *. rewrite EC in HN. destruct (is_const b && negb (is_const a)) eqn:EB; [|lia]. exfalso. apply andb_true_iff in EB. destruct EB as [EB _]. destruct b; try discriminate EB. cbn [own] in EO2. destruct a; discriminate EO2 || discriminate EO.
        -- intros r0 _ G. apply (good_swap (adtype a) (adtype b)); assumption.
      * eapply outc_weaken; [apply (fallback_ok f a b op Wa Wb C F E L Pa Pb)|unfold comparable; tauto|auto].
Qed.

(** * and / or *)
Definition bool_good (op : bool -> bool -> bool) (la lb : list value) (r : array) : Prop :=
  logical r = map2 (spec_bool op) la lb /\ adtype r = DBool true /\ wf fr r.
Lemma bool_canon f a c n : canon_post f a c -> adtype a = DBool n -> exists o b l v, c = ABool o b l v /\ o + l <= length b /\ vwf v l /\ l = alen a /\
  logical a = tab l (fun i => if vvalid v i then VBool (nth (o + i) b false) else VNull).
Proof.
  intros (C1 & C2 & C3 & C4 & C5) D. assert (adtype c = DBool n) as Dc by (rewrite <- D; apply C4; right; rewrite D; reflexivity).
  destruct (canon_bool c n C1 Dc) as (o & b & l & v & -> & V). exists o, b, l, v. split; [reflexivity|]. destruct C5 as (_ & W2 & W3). split; [exact W2|]. split; [exact W3|].
  apply (f_equal (@length value)) in C2 as LE. rewrite !logical_length in LE. split; [exact LE|]. rewrite <- C2. reflexivity.
Qed.
Lemma bool_kernel_ok op f a b : wf f a -> wf f b -> fc f = true -> is_bool (adtype a) = true -> is_bool (adtype b) = true -> alen a = alen b ->
  outc (fC f = true) (bool_kernel op a b) (bool_good op (logical a) (logical b)).
Proof.
  intros Wa Wb C Da Db L. destruct (adtype a) eqn:EA; try discriminate Da. destruct (adtype b) eqn:EB; try discriminate Db. unfold bool_kernel.
  eapply outc_bind; [apply canon_pl; eassumption|]. intros x _ Px. eapply outc_bind; [apply canon_pl; eassumption|]. intros y _ Py.
  destruct (bool_canon f a x _ Px EA) as (o1 & b1 & n1 & v & -> & A1 & A2 & A3 & A4). destruct (bool_canon f b y _ Py EB) as (o2 & b2 & n2 & w & -> & B1 & B2 & B3 & B4).
  assert (n2 = n1) as EN by congruence. clear B3. subst n2. destruct (union_nulls_ok v w n1 A2 B2) as (u & -> & Vu & Nu & Bu). cbn [bind]. apply outc_ok.
  assert (length (lslice b1 o1 (o1 + n1)) = n1) as L1 by (rewrite lslice_length; lia). assert (length (lslice b2 o2 (o2 + n1)) = n1) as L2 by (rewrite lslice_length; lia).
  unfold bool_good. rewrite A4, B4, map2_tab.
  destruct (bool_result (map2 op (lslice b1 o1 (o1 + n1)) (lslice b2 o2 (o2 + n1))) n1 u
    (fun i => spec_bool op (if vvalid v i then VBool (nth (o1 + i) b1 false) else VNull) (if vvalid w i then VBool (nth (o2 + i) b2 false) else VNull))) as (G1 & G2 & G3).
  - rewrite map2_length by congruence. exact L1.
  - exact Vu.
  - exact Nu.
  - intros i Hi. rewrite (Bu i Hi). destruct (vvalid v i); [|reflexivity]. destruct (vvalid w i); [|reflexivity]. cbn [andb]. rewrite (nth_map2 op _ _ i false false) by congruence. rewrite !nth_lslice by lia. reflexivity.
  - split; [exact G1|]. split; [exact G2|apply G3].
Qed.
Lemma spec_bool_comm op : (forall x y, op x y = op y x) -> forall x y, spec_bool op x y = spec_bool op y x.
Proof. intros H [| | | |] [| | | |]; cbn; try reflexivity. rewrite H. reflexivity. Qed.
Lemma bool_good_swap op la lb r : (forall x y, op x y = op y x) -> bool_good op lb la r -> bool_good op la lb r.
Proof. intros H (G1 & G2 & G3). split; [|split; assumption]. rewrite G1, map2_flip. apply map2_ext_in. intros x y _ _. apply spec_bool_comm, H. Qed.
Definition is_boolarray (a : array) : bool := match a with ABool _ _ _ _ => true | _ => false end.
(** A constant can only be combined with a BoolArray or, if it has rows, another constant. *)
Definition bool_fits (a b : array) : Prop :=
  (is_const a = true -> is_boolarray b = true \/ (is_const b = true /\ 0 < alen a)) /\
  (is_const b = true -> is_boolarray a = true \/ (is_const a = true /\ 0 < alen a)).
Lemma const_bool_ok op f d x n b : (forall x y, op x y = op y x) -> let a := AConst d x n in
  wf f a -> wf f b -> fc f = true -> is_bool d = true -> is_bool (adtype b) = true -> n = alen b ->
  outc (fC f = true /\ bool_fits a b) (const_bool op d x n a b) (bool_good op (logical a) (logical b)).
Proof.
  intros OC a Wa Wb C Da Db L. destruct d; try discriminate Da.
  assert (a = AConst (DBool n0) x n) as EA by reflexivity. clearbody a.
  destruct b as [m|o bb m v|p l v|u w bf v|u o bt v|ns fls m v|id st|e y m|ix vs o m fl|e cs|c vs|e vs vd o m|p e rf sh|e|p l bw o m v q|l v]; cbn [const_bool];
    try (rewrite EA; cbn [outc]; intros (_ & [H _]); specialize (H eq_refl); destruct H as [H|[H _]]; discriminate H).
  - eapply outc_weaken; [apply (bool_kernel_ok op f (ABool o bb m v) a Wb Wa C Db)| |].
    + rewrite EA. reflexivity.
    + rewrite EA. cbn [alen]. symmetry. exact L.
    + tauto.
    + intros r _ G. apply bool_good_swap; assumption.
  - rewrite EA in *. destruct Wa as [Tx _]. destruct Wb as [Ty _]. cbn [adtype] in Db. destruct e; try discriminate Db. cbn [alen] in L. subst m.
    assert (exists l, as_bool x = Ok l /\ match l with Some b => x = VBool b | None => x = VNull end) as (lx & -> & Ex) by (destruct x; try contradiction; eexists; split; reflexivity).
    assert (exists l, as_bool y = Ok l /\ match l with Some b => y = VBool b | None => y = VNull end) as (ly & -> & Ey) by (destruct y; try contradiction; eexists; split; reflexivity).
    cbn [bind]. destruct (Nat.eqb_spec n 0) as [->|Hn]; [cbn [outc]; intros (_ & [H _]); specialize (H eq_refl); destruct H as [H|[_ H]]; [discriminate H|cbn in H; lia]|].
    apply outc_ok. set (z := match lx with Some _ => _ | None => _ end). assert (spec_bool op x y = z) as EZ by (unfold z; destruct lx, ly; subst; reflexivity).
    assert (z = VNull \/ exists t, z = VBool t) as TZ by (unfold z; destruct lx, ly; eauto). clearbody z. split; [|split; [reflexivity|]].
    + cbn [logical]. rewrite <- EZ. clear. induction n as [|n IH]; cbn; [reflexivity|f_equal; exact IH].
    + cbn [wf]. split; [destruct TZ as [->|[t ->]]; cbn; auto|intros _; split; [reflexivity|discriminate]].
Qed.
Theorem bool_op_ok op f a b : (forall x y, op x y = op y x) -> wf f a -> wf f b -> fc f = true ->
  outc (fC f = true /\ alen a = alen b /\ is_bool (adtype a) = true /\ is_bool (adtype b) = true /\ bool_fits a b) (bool_op op a b)
       (fun r => alen a = alen b /\ is_bool (adtype a) = true /\ is_bool (adtype b) = true /\ bool_good op (logical a) (logical b) r).
Proof.
  intros OC Wa Wb C. unfold bool_op. destruct (Nat.eqb_spec (alen a) (alen b)) as [L|L]; cbn [negb]; [|cbn [outc]; tauto].
  destruct (is_bool (adtype a)) eqn:Da; cbn [negb orb]; [|cbn [outc]; intros (_ & _ & H & _); discriminate H].
  destruct (is_bool (adtype b)) eqn:Db; cbn [negb orb]; [|cbn [outc]; intros (_ & _ & _ & H & _); discriminate H].
  apply outc_weaken with (T := fC f = true /\ bool_fits a b) (P := bool_good op (logical a) (logical b)); [|tauto|auto].
  assert (outc (fC f = true /\ bool_fits a b) (bool_kernel op a b) (bool_good op (logical a) (logical b))) as K1 by (eapply outc_weaken; [apply (bool_kernel_ok op f a b); assumption|tauto|auto]).
  assert (outc (fC f = true /\ bool_fits a b) (bool_kernel op b a) (bool_good op (logical a) (logical b))) as K2.
  { eapply outc_weaken; [apply (bool_kernel_ok op f b a); auto|tauto|]. intros r _ G. apply bool_good_swap; assumption. }
  assert (forall c, canon_post f a c -> outc (fC f = true /\ bool_fits a b) (bool_kernel op c b) (bool_good op (logical a) (logical b))) as K3.
  { intros c Pc. pose proof Pc as (C1 & C2 & C3 & C4 & C5). rewrite <- C2.
    assert (adtype c = adtype a) as Dc by (apply C4; right; destruct (adtype a); try discriminate Da; reflexivity).
    assert (wf f c) as Wc. { destruct (adtype a) eqn:EA; try discriminate Da. destruct (canon_bool c _ C1 Dc) as (o & bb & l & v & -> & _). exact C5. }
    eapply outc_weaken; [apply (bool_kernel_ok op f c b Wc Wb C)|tauto|auto]; [rewrite Dc; exact Da|exact Db|rewrite <- L, <- (logical_length a), <- C2, logical_length; reflexivity]. }
  assert (outc (fC f = true /\ bool_fits a b) (do c <- canon a; match c with ABool _ _ _ _ => bool_kernel op c b | _ => Err end) (bool_good op (logical a) (logical b))) as K4.
  { eapply outc_bind; [eapply outc_weaken; [apply (canon_pl f a Wa C)|tauto|intros c _ Hc; exact Hc]|]. intros c _ Pc. pose proof (K3 c Pc) as K. destruct (adtype a) eqn:EA; try discriminate Da. destruct (bool_canon f a c _ Pc EA) as (o & bb & l & v & -> & _). exact K. }
  assert (forall d x n, b = AConst d x n -> is_const a = false -> is_boolarray a = false -> outc (fC f = true /\ bool_fits a b) (const_bool op d x n b a) (bool_good op (logical a) (logical b))) as K5.
  { intros d x n EB Na Ba. rewrite EB in *. eapply outc_weaken; [apply (const_bool_ok op f d x n a OC Wb Wa C Db Da)|..].
    - symmetry. exact L.
    - intros [H1 [H2 H3]]. exfalso. specialize (H3 eq_refl). destruct H3 as [H3|[H3 _]]; congruence.
    - intros r _ G. apply bool_good_swap; assumption. }
  destruct a as [n|o bb n v|p l v|u w bf v|u o bt v|ns fls n v|id st|d x n|ix vs o n fl|d cs|c vs|e vs vd o n|p e rf sh|e|p l bw o n v q|l v]; try exact K1;
    try (destruct b; try exact K2; try exact K4; apply K5; reflexivity).
  apply const_bool_ok; auto.
Qed.
