(** C56: the storage of an extension array has its rows. *)
From Verif Require Import Base Spec SearchModel Arr ArrRead ArrWf ArrReadProofs ArrSlice ArrSliceProofs PropRead ArrOps ExtStorage.

Lemma sparse_shape idx vals len off fill r : try_sparse idx vals len off fill = Ok r -> r = ASparse idx vals off len fill.
Proof.
  unfold try_sparse. destruct (negb (dtype_eqb (adtype idx) (DPrim U64 false))); [discriminate|]. destruct (negb (instance_of fill (adtype vals))); [discriminate|].
  destruct (negb (alen idx =? alen vals)); [discriminate|]. destruct (alen idx =? 0); [congruence|].
  destruct (scalar_at idx (alen idx - 1)) as [x| |]; cbn [bind]; try discriminate. destruct (to_usize x) as [k| |]; cbn [bind]; try discriminate.
  destruct (k <? off); [discriminate|]. destruct (len <=? k - off); [discriminate|congruence].
Qed.
Lemma expect_ok {A} (r : result A) x : expect r = Ok x -> r = Ok x.
Proof. destruct r; cbn; congruence. Qed.
Definition gather (p : ptype) (u : bool) := fix go (cs : list array) : result (list array) :=
  match cs with [] => Ok [] | c :: r => do s <- ext_storage p u c; do l <- go r; Ok (s :: l) end.
Lemma gather_forall2 p u cs : forall l, gather p u cs = Ok l -> Forall2 (fun c s => ext_storage p u c = Ok s) cs l.
Proof.
  induction cs as [|c r IH]; intros l E; cbn in E; [injection E as <-; constructor|].
  destruct (ext_storage p u c) as [s| |] eqn:Ec; cbn [bind] in E; try discriminate. fold (gather p u) in E.
  destruct (gather p u r) as [l'| |] eqn:Er; cbn [bind] in E; try discriminate. injection E as <-. constructor; [exact Ec|apply IH; reflexivity].
Qed.

(** Whenever there is a storage, it has the rows of the array: the same length and the same elements at the same positions. *)
Theorem storage_has_the_rows : forall p u a s, ext_storage p u a = Ok s -> alen s = alen a /\ logical s = logical a.
Proof.
  intros p u. induction a as [n|o b n v|q l v|u' w b v|u' o b v IHo|ns fls n v IHfs|id st IHst|d x n|i vs o n fl IHi IHv|d cs IHcs
    |c vs IHc IHv|e vs v o n IHe IHv|q e r s' IHe|e IHe|q l bw o n v pt IHq|l v] using array_ind'; intros s E; cbn [ext_storage] in E; try discriminate.
  - injection E as <-. split; reflexivity.
  - destruct d; try discriminate. destruct (payload_type p u n0 x) as [t| |]; cbn [bind] in E; try discriminate. injection E as <-. split; reflexivity.
  - destruct (adtype vs); try discriminate. destruct (ext_storage p u vs) as [s'| |]; cbn [bind] in E; try discriminate.
    apply expect_ok, sparse_shape in E. subst s. destruct (IHv s' eq_refl) as [_ L]. split; [reflexivity|]. cbn [logical]. rewrite L. reflexivity.
  - destruct d as [| | | | | |id n]; try discriminate. fold (gather p u) in E. destruct (gather p u cs) as [l| |] eqn:G; cbn [bind] in E; try discriminate.
    apply gather_forall2 in G. destruct l as [|s0 l']; [discriminate|]. apply expect_ok in E. unfold try_chunked in E.
    match type of E with (if ?b then _ else _) = _ => destruct b; [|discriminate] end. injection E as <-. cbn [alen logical].
    assert (map alen (s0 :: l') = map alen cs /\ map logical (s0 :: l') = map logical cs) as [A B]; [|rewrite <- A, <- B; split; reflexivity].
    clear - G IHcs. induction G as [|c s cs l Gc G IH]; [split; reflexivity|]. inversion IHcs as [|? ? Hc Hr]; subst. destruct (Hc s Gc) as [A B]. destruct (IH Hr) as [A' B'].
    cbn [map]. rewrite A, B, A', B'. split; reflexivity.
Qed.
Print Assumptions storage_has_the_rows.

(** If all parts hold values of one type, there is a storage, and that is its type. *)
Lemma stores_is_ext p u t a : stores p u t a -> exists id n, adtype a = DExt id n.
Proof.
  induction a as [n|o b n v|q l v|u' w b v|u' o b v IHo|ns fls n v IHfs|id st IHst|d x n|i vs o n fl IHi IHv|d cs IHcs
    |c vs IHc IHv|e vs v o n IHe IHv|q e r s' IHe|e IHe|q l bw o n v pt IHq|l v] using array_ind'; cbn [stores adtype]; try contradiction.
  - eauto.
  - destruct d; try contradiction. eauto.
  - intros (H & _). apply IHv, H.
  - destruct d; try contradiction. eauto.
Qed.
Theorem storage_of_one_type : forall p u t a, stores p u t a -> exists s, ext_storage p u a = Ok s /\ adtype s = t.
Proof.
  intros p u t. induction a as [n|o b n v|q l v|u' w b v|u' o b v IHo|ns fls n v IHfs|id st IHst|d x n|i vs o n fl IHi IHv|d cs IHcs
    |c vs IHc IHv|e vs v o n IHe IHv|q e r s' IHe|e IHe|q l bw o n v pt IHq|l v] using array_ind'; intros H; cbn [stores] in H; try contradiction; cbn [ext_storage].
  - eauto.
  - destruct d as [| | | | | |id m]; try contradiction. destruct x as [|b|z|s|xs]; try contradiction; cbn [payload_type bind]; destruct t; try contradiction;
      destruct H as [-> ->]; eexists; split; reflexivity.
  - destruct H as (Hv & If & E). destruct (stores_is_ext p u t vs Hv) as (id & m & D). rewrite D. destruct (IHv Hv) as (s & Es & Ts). rewrite Es. cbn [bind].
    destruct (storage_has_the_rows p u vs s Es) as [Ls _].
    exists (ASparse i s o n fl). split; [|exact Ts]. unfold try_sparse in *. destruct (negb (dtype_eqb (adtype i) (DPrim U64 false))); [discriminate|].
    rewrite Ts, If, Ls. cbn [negb]. destruct (instance_of fl (adtype vs)); cbn [negb] in E; [|discriminate]. destruct (negb (alen i =? alen vs)); [discriminate|].
    destruct (alen i =? 0); [reflexivity|]. destruct (scalar_at i (alen i - 1)) as [x| |]; cbn [bind] in *; try discriminate.
    destruct (to_usize x) as [k| |]; cbn [bind] in *; try discriminate. destruct (k <? o); [discriminate|]. destruct (n <=? k - o); [discriminate|reflexivity].
  - destruct d as [| | | | | |id m]; try contradiction. fold (gather p u). destruct H as [NE H].
    assert (exists l, gather p u cs = Ok l /\ length l = length cs /\ Forall (fun s => adtype s = t) l) as (l & -> & L & F).
    { clear NE. induction cs as [|c r IH]; [exists []; repeat split; constructor|]. destruct H as [Hc Hr]. inversion IHcs as [|? ? Ic Ir]; subst.
      destruct (Ic Hc) as (s & Es & Ts). destruct (IH Ir Hr) as (l & El & Ll & Fl). exists (s :: l). cbn [gather]. rewrite Es. cbn [bind].
      fold (gather p u). rewrite El. cbn [bind]. split; [reflexivity|]. split; [cbn; f_equal; exact Ll|constructor; assumption]. }
    cbn [bind]. destruct l as [|s l]; [destruct cs; [congruence|discriminate]|]. inversion F as [|? ? Fs Fl]; subst. exists (AChunked (adtype s) (s :: l)).
    split; [|reflexivity]. unfold try_chunked. assert (forallb (fun c => dtype_eqb (adtype c) (adtype s)) (s :: l) = true) as ->; [|reflexivity].
    apply forallb_forall. intros x Hx. apply dtype_eqb_eq. rewrite Forall_forall in F. exact (F x Hx).
Qed.
Print Assumptions storage_of_one_type.

(** Chunks of extension arrays over readable storage have a readable storage: reading a row of the storage is reading the row. *)
Fixpoint plain_ext (a : array) : Prop :=
  match a with
  | AExt _ _ => True
  | AChunked _ cs => (fix go (l : list array) : Prop := match l with [] => True | c :: r => plain_ext c /\ go r end) cs
  | _ => False
  end.
Theorem storage_reads_the_same : forall p u t a, wf f0 a -> plain_ext a -> stores p u t a ->
  exists s, ext_storage p u a = Ok s /\ wf f0 s /\ adtype s = t /\ forall i, scalar_at s i = scalar_at a i.
Proof.
  intros p u t a W P H. destruct (storage_of_one_type p u t a H) as (s & E & T). exists s. split; [exact E|].
  assert (wf f0 s) as Ws.
  { clear t H T. revert s W P E. induction a as [n|o b n v|q l v|u' w b v|u' o b v IHo|ns fls n v IHfs|id st IHst|d x n|i vs o n fl IHi IHv|d cs IHcs
    |c vs IHc IHv|e vs v o n IHe IHv|q e r s' IHe|e IHe|q l bw o n v pt IHq|l v] using array_ind'; intros s W P E; cbn [plain_ext] in P; try contradiction; cbn [ext_storage] in E.
    - injection E as <-. exact (proj1 W).
    - destruct d as [| | | | | |id m]; try discriminate. fold (gather p u) in E. destruct (gather p u cs) as [l| |] eqn:G; cbn [bind] in E; try discriminate.
      apply gather_forall2 in G. destruct l as [|s0 l']; [discriminate|]. apply expect_ok in E. unfold try_chunked in E.
      destruct (forallb (fun c => dtype_eqb (adtype c) (adtype s0)) (s0 :: l')) eqn:FB; [|discriminate]. injection E as <-.
      cbn [wf]. split; [|split; [discriminate|split; [reflexivity|repeat (split; [discriminate|])]]]; [|discriminate].
      apply (wf_chunks_iff f0 (adtype s0) (s0 :: l')). cbn [wf] in W. destruct W as [W _]. rewrite wf_chunks_iff in W. rewrite forallb_forall in FB. apply Forall_forall. intros x Hx.
      split; [|apply dtype_eqb_eq, FB, Hx]. clear FB. revert x Hx. revert W P IHcs. induction G as [|c s cs l Gc G IH]; intros W P IHcs x Hx; [destruct Hx|].
      inversion W as [|? ? [Wc _] Wr]; subst. inversion IHcs as [|? ? Ic Ir]; subst. destruct P as [Pc Pr].
      destruct Hx as [<-|Hx]; [exact (Ic s Wc Pc Gc)|exact (IH Wr Pr Ir x Hx)]. }
  split; [exact Ws|]. split; [exact T|]. intros i. destruct (storage_has_the_rows p u a s E) as [_ L].
  destruct (scalar_at_is_the_element f0 a W) as (Ra & _ & Ea). destruct (scalar_at_is_the_element f0 s Ws) as (Rs & _ & Es). rewrite L in Rs, Es.
  destruct (Nat.lt_ge_cases i (length (logical a))) as [Hi|Hi]; [rewrite Ra, Rs by exact Hi; reflexivity|rewrite Ea, Es by exact Hi; reflexivity].
Qed.
Print Assumptions storage_reads_the_same.

(** The storage of a constant does not have the type of the values: booleans are called bytes, and an all-null part has the null type, so that
    chunks of which one is constant null have no storage at all. No chunks: no storage. *)
Theorem storage_type_refuted :
  (forall p u id n b len, ext_storage p u (AConst (DExt id n) (VBool b) len) = Ok (AConst (DBinary n) (VBool b) len) /\ ~ vtyped (DBinary n) (VBool b)) /\
  (forall p u id, let st := APrim I64 [1]%Z VAllValid in
     ext_storage p u (AChunked (DExt id true) [AExt id st; AConst (DExt id true) VNull 1]) = Panic /\
     wf f0 (AChunked (DExt id true) [AExt id st; AConst (DExt id true) VNull 1])) /\
  (forall p u id n, ext_storage p u (AChunked (DExt id n) []) = Panic).
Proof.
  split; [|split].
  - intros. split; [reflexivity|]. cbn. tauto.
  - intros p u id st. split; [reflexivity|]. cbn [wf]. split; [|split; [discriminate|split; [reflexivity|repeat (split; [discriminate|])]]]; [|discriminate].
    split; [split; [|reflexivity]|split; [split; [|reflexivity]|exact I]].
    + split; [|reflexivity]. split; [repeat constructor; cbv; discriminate|exact I].
    + split; [reflexivity|discriminate].
  - reflexivity.
Qed.
Example storage_demo :
  let a := AChunked (DExt (EOther 7) false) [AExt (EOther 7) (APrim I64 [1; 2]%Z VNonNull); AConst (DExt (EOther 7) false) (VInt 5) 2] in
  stores I64 true (DPrim I64 false) a /\ exists s, ext_storage I64 true a = Ok s /\ logical s = [VInt 1; VInt 2; VInt 5; VInt 5].
Proof. cbn. split; [repeat split; discriminate|eexists; split; reflexivity]. Qed.
