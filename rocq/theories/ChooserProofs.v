(** Proofs about the choices of the sampling compressor: every codec keeps the values, if the recursive calls do. *)
From Verif Require Import Base Spec SearchModel Arr ArrRead ArrWf ArrReadProofs ArrSlice ArrSliceProofs ArrSliceMain ValidityModel PropValidity StatsModel StatsProofs StatsProofs2
  StatsProofs3 PropStats ArrOps OpsBase IntEnc RunEnc DictEnc Sampling PropSampling PropIntEnc PropRead PropOps CmpProofs
  Compressor CompressorSpec CompressorProofs CompressorProofs2 CompressorProofs3 CompressorProofs4 Chooser.
Local Notation g := decodable.
Local Instance careful_inputs : mode := true.

Section TreeInd.
  Variable P : tree -> Prop.
  Definition holds (o : option tree) : Prop := match o with Some t => P t | None => True end.
  Hypothesis H : forall c ts m, Forall holds ts -> P (Tree c ts m).
  Definition tree_ind' : forall t, P t :=
    fix go t :=
      match t with
      | Tree c ts m => H c ts m ((fix gos l : Forall holds l :=
          match l with [] => Forall_nil _ | o :: r => Forall_cons o (match o return holds o with Some u => go u | None => I end) (gos r) end) ts)
      end.
End TreeInd.

(** Trees that the compressor may reuse on arrays of a type: with as many children as the codec's arrays have parts, and one child per
    field for structs. *)
Fixpoint tok (d : dtype) (t : tree) {struct t} : bool :=
  let opt d o := match o with Some u => tok d u | None => true end in
  match t with
  | Tree c ts m =>
      match c with
      | CConst => true
      | CStruct =>
          match d with
          | DStruct _ ds _ =>
              (fix go ts ds := match ts, ds with [], [] => true | o :: ts, d :: ds => opt d o && go ts ds | _, _ => false end) ts ds
          | _ => true
          end
      | CChunked => match ts, m with [Some u], Some (Some _) => tok d u | [None], Some None => true | _, _ => false end
      | CFoR | CZigZag | CBit _ => match ts with [o] => opt DNull o | _ => false end
      | CRunEnd | CDict => match ts with [o; o'] => opt DNull o && opt DNull o' | _ => false end
      | CSparse => match ts with [o; _] => opt DNull o | _ => false end
      end
  end.
Definition tokl (d : dtype) (o : option tree) : bool := match o with Some t => tok d t | None => true end.
Lemma tok_struct ns ds nl ts m : tok (DStruct ns ds nl) (Tree CStruct ts m) = true <-> Forall2 (fun o d => tokl d o = true) ts ds.
Proof.
  cbn [tok]. revert ds. induction ts as [|o ts IH]; intros [|d ds]; [split; constructor|split; [discriminate|intros H; inversion H]|split; [discriminate|intros H; inversion H]|].
  rewrite andb_true_iff, IH. split; [intros [H1 H2]; constructor; auto|intros H; inversion H; auto].
Qed.
Lemma tok_flat t : forall d d', not_struct d -> not_struct d' -> tok d t = tok d' t.
Proof.
  induction t as [c ts m IH] using tree_ind'. intros d d' N N'. destruct c; try reflexivity.
  - cbn [tok]. destruct ts as [|[u|] [|o ts]]; try reflexivity. destruct m as [[r|]|]; try reflexivity. inversion IH as [|? ? H _]; subst. apply H; assumption.
  - cbn [tok]. destruct d, d'; try reflexivity; try contradiction.
Qed.
Lemma tokl_flat o d d' : not_struct d -> not_struct d' -> tokl d o = true -> tokl d' o = true.
Proof. destruct o as [t|]; [|auto]. cbn [tokl]. intros N N' H. rewrite <- H. symmetry. apply tok_flat; assumption. Qed.

Definition fine (r : result compressed) (a : array) : Prop := exists b t, r = Ok (b, t) /\ same a b /\ tokl (adtype a) t = true.
Lemma fine_keep a : wf g a -> fine (Ok (uncompressed a)) a.
Proof. intros W. exists a, None. split; [reflexivity|]. split; [apply same_refl, W|reflexivity]. Qed.

(** A function on parts, without the trees. *)
Definition drop (f : array -> result compressed) (e : array) : result array :=
  match f e with Ok (b, t) => if tokl DNull t then Ok b else Err | Err => Err | Panic => Panic end.
Lemma drop_inv f e b : drop f e = Ok b -> exists t, f e = Ok (b, t) /\ tokl DNull t = true.
Proof. unfold drop. destruct (f e) as [[b' t]| |]; try discriminate. destruct (tokl DNull t) eqn:T; [|discriminate]. intros [= <-]. exists t. auto. Qed.
Definition fine_on (n : nat) (f : array -> result compressed) : Prop :=
  forall e, wf g e -> input_ok e -> not_struct (adtype e) -> alen e <= S n -> (Z.of_nat (sbytes e) <= pmax I32)%Z -> fine (f e) e.
Lemma drop_ok n f : fine_on n f -> ok_on n (drop f).
Proof.
  intros H e W C N L B. destruct (H e W C N L B) as (b & t & E & Sm & T). exists b. split; [|exact Sm]. unfold drop. rewrite E.
  rewrite (tokl_flat t _ DNull N I T). reflexivity.
Qed.


(** * Constants *)
(** What the statistics of an array say when they say it is constant. *)
Definition const_known (a : array) : Prop :=
  s_const (stats_after KConst a) = Some true ->
  exists x nl, Forall (eq x) (logical a) /\ s_min (stats_after KConst a) = Some (nl, x) /\ vtyped (adtype a) x /\ nice (adtype a) x /\ flat (adtype a) = true /\ adtype a <> DNull.

Lemma known_from_sound a : flat (adtype a) = true /\ adtype a <> DNull -> wf g a -> st_ok KConst a -> Forall (nice (adtype a)) (logical a) ->
  (s_const (stats_after KConst a) = Some true -> s_min (stats_after KConst a) <> None) ->
  (s_const (stats_after KConst a) = Some true -> logical a = [] -> exists nl, s_min (stats_after KConst a) = Some (nl, VNull) /\ vtyped (adtype a) VNull) -> const_known a.
Proof.
  intros FN W K Ni Hm H0 H. specialize (Hm H). specialize (H0 H). pose proof (stats_sound a g KConst W K) as S1. pose proof (so_const _ _ _ S1) as A. pose proof (so_min _ _ _ S1) as M.
  rewrite H in A. destruct (A eq_refl) as [x Hx]. destruct (s_min (stats_after KConst a)) as [[nl m]|]; [|congruence]. cbn [oall snd] in M.
  destruct (logical a) as [|y l] eqn:El.
  - destruct (H0 eq_refl) as (nl' & [= -> ->] & T). exists VNull, nl'. split; [constructor|]. split; [reflexivity|]. split; [exact T|]. split; [destruct (adtype a); exact I|exact FN].
  - assert (y :: l <> []) as Ne by discriminate. pose proof (const_min _ _ _ _ Hx M Ne) as ->. exists x, nl. split; [exact Hx|]. split; [reflexivity|].
    inversion Hx; subst. pose proof (vtyped_logical a g W) as T. rewrite El in T. inversion T; subst. inversion Ni; subst. split; [assumption|]. split; [assumption|exact FN].
Qed.
Lemma prim_min p l v : s_const (prim_stats p l v) = Some true -> s_min (prim_stats p l v) <> None.
Proof.
  unfold prim_stats. destruct (to_logical v (length l)); [|intros _; discriminate|].
  - unfold prim_stats_valid. destruct l; [discriminate|]. intros _. cbn. discriminate.
  - unfold prim_stats_nullable. destruct l; [discriminate|]. destruct (first_true _); intros _; cbn; discriminate.
Qed.
Lemma prim_empty p v : vwf v 0 -> s_const (prim_stats p [] v) = Some true -> v = VAllInvalid.
Proof. destruct v as [| | |l]; cbn; try discriminate; auto. destruct l as [|b l]; cbn; discriminate. Qed.
Lemma bool_min l v : s_const (bool_stats l v) = Some true -> s_min (bool_stats l v) <> None /\ l <> [].
Proof.
  unfold bool_stats. destruct l as [|b l]; [discriminate|]. intros H. split; [|discriminate]. revert H. destruct (to_logical _ _); intros _; try discriminate.
  destruct (first_true _); discriminate.
Qed.
Lemma str_min d l : s_const (str_stats d l) = Some true -> s_min (str_stats d l) <> None /\ l <> [].
Proof.
  unfold str_stats. destruct l as [|o l]; [discriminate|]. intros H. split; [|discriminate]. revert H. generalize 0. generalize (o :: l). clear.
  induction l as [|[s|] l IH]; intros n; cbn [str_stats_go]; intros H; [discriminate|discriminate|]. apply IH, H.
Qed.
Lemma bool_known L : (exists x : value, Forall (eq x) L) -> bool_cond L.
Proof.
  intros [x Hx] Hn. left. rewrite Forall_forall in Hx. pose proof (Hx _ Hn) as ->. unfold nn. clear - Hx. induction L as [|y L IH]; [reflexivity|]. cbn [filter].
  rewrite <- (Hx y (or_introl eq_refl)). cbn. apply IH. intros z Hz. apply Hx. right. exact Hz.
Qed.
Lemma nice_other d l : match d with DPrim _ _ => False | _ => True end -> Forall (nice d) l.
Proof. intros H. apply Forall_forall. intros x _. destruct d; try exact I. contradiction. Qed.
Lemma empty_length a : logical a = [] -> alen a = 0.
Proof. intros E. rewrite <- logical_length, E. reflexivity. Qed.

Lemma fold_none d l : forall s, s_const s = None -> s_const (fold_left (merge d) l s) = None.
Proof. induction l as [|x l IH]; intros s H; [exact H|]. cbn [fold_left]. apply IH. cbn [merge s_const]. unfold merge_const. rewrite H. reflexivity. Qed.
Lemma fold_false d l : forall s, s_const s = Some false -> s_const (fold_left (merge d) l s) <> Some true.
Proof.
  induction l as [|x l IH]; intros s H; [cbn; congruence|]. cbn [fold_left]. apply IH. cbn [merge s_const]. unfold merge_const. rewrite H. destruct (s_const x); reflexivity.
Qed.
(** Merging the statistics of constant parts: constant only if the parts have the same minimum. *)
Lemma fold_known d cs : Forall (fun c => adtype c = d /\ const_known c) cs -> forall s l x nl,
  s_const s = Some true -> s_min s = Some (nl, x) -> Forall (eq x) l -> vtyped d x -> nice d x ->
  s_const (fold_left (merge d) (map (stats_after KConst) cs) s) = Some true ->
  Forall (eq x) (l ++ concat (map logical cs)) /\ exists nl', s_min (fold_left (merge d) (map (stats_after KConst) cs) s) = Some (nl', x).
Proof.
  induction 1 as [|c cs [D K] H IH]; intros s l x nl Hc Hm Hl Tx Nx HH.
  - cbn [map fold_left concat]. rewrite app_nil_r. split; [exact Hl|]. exists nl. exact Hm.
  - cbn [map fold_left concat] in *. destruct (s_const (merge d s (stats_after KConst c))) as [[]|] eqn:E.
    + pose proof E as E'. cbn [merge s_const] in E'. unfold merge_const in E'. rewrite Hc in E'. destruct (s_const (stats_after KConst c)) as [c'|] eqn:Ec; [|discriminate E'].
      destruct c'; [|discriminate E']. cbn [andb] in E'. rewrite Hm in E'. destruct (K Ec) as (y & nly & Hy & My & Ty & Ny & _). rewrite D in Ty, Ny. rewrite My in E'.
      cbn [opt_scalar_eqb] in E'. destruct (scalar_eqb d (nl, x) (nly, y)) eqn:Q; [|discriminate E']. unfold scalar_eqb in Q. cbn [fst snd] in Q. apply andb_true_iff in Q. destruct Q as [_ Q].
      apply veq_eq in Q; try assumption. subst y. rewrite app_assoc. 
      assert (exists nl', s_min (merge d s (stats_after KConst c)) = Some (nl', x)) as (nl' & Hm').
      { cbn [merge s_min]. rewrite Hm, My. cbn [merge_ordered]. destruct (lt_scalar d _ _); eexists; reflexivity. }
      apply (IH _ (l ++ logical c) x nl'); try assumption. apply Forall_app. split; assumption.
    + exfalso. apply (fold_false d _ _ E HH).
    + rewrite (fold_none d _ _ E) in HH. discriminate HH.
Qed.
Lemma chunk_known a : wf g a -> input_ok a -> chunk_ok a -> const_known a.
Proof.
  induction a as [n|o b n v|p l v|u w b v|u o b v IHo|ns fls n v IHf|id st IHst|d x n|ix vs o n fl IHi IHv|d cs IHc
    |c vs IHc IHv|e vs v o n IHe IHv|p e r sh IHe|e IHe|p l bw o n v q IHq|l v] using array_ind'; intros W C K; try contradiction; intros H; try discriminate H.
  - assert (flat (adtype (ABool o b n v)) = true /\ adtype (ABool o b n v) <> DNull) as FN by (split; [reflexivity|discriminate]). pose proof W as (Ho & Hl & Hw). pose proof H as H'. cbn [stats_after] in H'. assert (length (lslice b o (o + n)) = n) as L by (rewrite lslice_length; lia).
    destruct (bool_min _ _ H') as [Hm Hn].
    assert (exists x, Forall (eq x) (logical (ABool o b n v))) as X by (apply (bool_stats_const (lslice b o (o + n)) v); rewrite ?L; auto; apply logical_bool; assumption).
    refine (known_from_sound _ FN W (bool_known _ X) (nice_other (DBool (vnullable v)) _ I) (fun _ => Hm) _ H).
    intros _ E. apply empty_length in E. cbn [alen] in E. exfalso. apply Hn. destruct (lslice b o (o + n)); [reflexivity|cbn in L; lia].
  - assert (flat (adtype (APrim p l v)) = true /\ adtype (APrim p l v) <> DNull) as FN by (split; [reflexivity|discriminate]).
    assert (Forall (nice (DPrim p (vnullable v))) (logical (APrim p l v))) as Ni.
    { cbn [input_ok] in C. apply Forall_forall. intros x Hx. cbn [logical] in Hx. apply In_tab in Hx. destruct Hx as (i & Hi & ->). destruct (vvalid v i); [|exact I]. cbn [nice]. rewrite Forall_forall in C. apply C, nth_In, Hi. }
    refine (known_from_sound _ FN W Ni Ni (fun H => prim_min _ _ _ H) _ H). intros H' E. apply empty_length in E. cbn [alen] in E. destruct l; [|discriminate E].
    destruct W as [_ Wv]. cbn [length] in Wv. pose proof (prim_empty p v Wv H') as ->. exists true. split; [reflexivity|]. reflexivity.
  - assert (flat (adtype (AView u w b v)) = true /\ adtype (AView u w b v) <> DNull) as FN by (cbn [adtype]; destruct u; split; [reflexivity|discriminate|reflexivity|discriminate]).
    refine (known_from_sound _ FN W I (nice_other _ _ _) (fun H => proj1 (str_min _ _ H)) _ H).
    + cbn [adtype]. destruct u; exact I.
    + intros H' E. apply str_min in H'. destruct H' as [_ H']. exfalso. apply H'. rewrite E. reflexivity.
  - assert (flat (adtype (AVarBin u o b v)) = true /\ adtype (AVarBin u o b v) <> DNull) as FN by (cbn [adtype]; destruct u; split; [reflexivity|discriminate|reflexivity|discriminate]).
    refine (known_from_sound _ FN W I (nice_other _ _ _) (fun H => proj1 (str_min _ _ H)) _ H).
    + cbn [adtype]. destruct u; exact I.
    + intros H' E. apply str_min in H'. destruct H' as [_ H']. exfalso. apply H'. rewrite E. reflexivity.
  - exists x, (nullable d). cbn [logical]. split; [apply Forall_forall; intros y Hy; symmetry; apply (repeat_spec _ _ _ Hy)|]. split; [reflexivity|]. cbn [wf] in W. split; [apply W|].
    split; [|apply W; reflexivity]. cbn [chunk_ok adtype] in K. destruct d as [| |p nl| | | |]; try exact I. cbn in K. destruct x; try exact I. cbn [adtype nice]. intros F. rewrite F in K. discriminate K.
  - apply input_chunked in C. destruct C as [P C]. apply wf_chunked_g in W; [|exact P]. apply chunk_chunked in K.
    destruct cs as [|c cs]; [discriminate H|]. cbn [stats_after map] in H |- *. inversion IHc as [|? ? I1 I2]; subst. inversion W as [|? ? [W1 W1'] W2]; subst. inversion C as [|? ? [C1 C1'] C2]; subst. inversion K as [|? ? K1 K2]; subst.
    assert (Forall (fun c' => adtype c' = adtype c /\ const_known c') cs) as F.
    { rewrite Forall_forall in *. intros c' Hc. destruct (W2 c' Hc) as [A1 A2], (C2 c' Hc) as [A3 A4]. split; [exact A2|]. apply (I2 c' Hc A1 A3 A4). }
    destruct (s_const (stats_after KConst c)) as [[]|] eqn:Ec; [|exfalso; apply (fold_false _ _ _ Ec H)|rewrite (fold_none _ _ _ Ec) in H; discriminate H].
    destruct (I1 W1 C1 C1' Ec) as (x & nl & X1 & X2 & X3 & X4 & X5).
    destruct (fold_known (adtype c) cs F _ (logical c) x nl Ec X2 X1 X3 X4 H) as (Y1 & nl' & Y2). exists x, nl'. cbn [logical map concat adtype]. auto.
  - destruct K as [_ K]. discriminate K.
  - assert (flat (adtype (AByteBool l v)) = true /\ adtype (AByteBool l v) <> DNull) as FN by (split; [reflexivity|discriminate]). pose proof W as (Hb & Hw & _). pose proof H as H'. cbn [stats_after] in H'. destruct l as [|z l]; [discriminate H'|].
    destruct (bool_min _ _ H') as [Hm Hn].
    assert (exists x, Forall (eq x) (logical (AByteBool (z :: l) v))) as X.
    { apply (bool_stats_const (map (fun z => negb (z =? 0)%Z) (z :: l)) v); rewrite ?map_length; auto; apply logical_bytebool; assumption. }
    refine (known_from_sound _ FN W (bool_known _ X) (nice_other (DBool (vnullable v)) _ I) (fun _ => Hm) _ H).
    intros _ E. apply empty_length in E. discriminate E.
Qed.
Lemma const_any a : wf g a -> input_ok a -> alen a <> 0 -> s_const (stats_after KConst a) = Some true -> fine (c_const a) a.
Proof.
  intros W C N H.
  assert ((exists x, Forall (eq x) (logical a)) /\ flat (adtype a) = true /\ adtype a <> DNull) as ((x & Hx) & Fl & Nn).
  { destruct a as [n|o b n v|p l v|u w b v|u o b v|ns fls n v|id st|d x n|ix vs o n fl|d cs|c vs|e vs v o n|p e r sh|e|p l bw o n v q|l v];
      try exact (const_stat_sound _ W C I H).
    - discriminate H.
    - split; [|apply W; reflexivity]. exists x. cbn [logical]. apply Forall_forall; intros y Hy; symmetry; apply (repeat_spec _ _ _ Hy).
    - pose proof C as C'. apply input_chunked in C'. destruct C' as [_ C']. assert (chunk_ok (AChunked d cs)) as K.
      { apply (proj2 (chunk_chunked d cs)). apply (Forall_impl _ (fun c H => proj2 H) C'). }
      destruct (chunk_known _ W C K H) as (x & nl & Hx & _ & _ & _ & X). split; [exists x; exact Hx|exact X]. }
  destruct (scalar_at_is_the_element g a W) as (SA & _ & _). rewrite logical_length in SA. specialize (SA 0 ltac:(lia)).
  pose proof (const_all x _ Hx) as E. rewrite logical_length in E.
  assert (nth 0 (logical a) VNull = x) as Ex by (rewrite E; destruct (alen a); [lia|reflexivity]). rewrite Ex in SA.
  unfold c_const. rewrite SA. cbn [bind]. exists (AConst (adtype a) x (alen a)), (Some (Tree CConst [] None)). split; [reflexivity|]. split; [|reflexivity].
  split.
  { cbn [wf]. split; [|auto]. pose proof (vtyped_logical a g W) as T. rewrite Forall_forall in T. apply T. rewrite <- Ex. apply nth_In. rewrite logical_length. lia. }
  split; [cbn [logical]; symmetry; exact E|]. split; [reflexivity|]. split; [intros _; exact I|].
  destruct a; try exact I. discriminate H.
Qed.

(** * Codecs *)
Section Codecs.
  Variable rec : recursion.
  (** What is assumed of the recursive calls, on arrays with up to [n] rows and [m] bytes of strings. *)
  Variables n m : nat.
  Definition small (e : array) : Prop := wf g e /\ input_ok e /\ alen e <= n /\ sbytes e <= m.
  Hypothesis rec_fine : forall x k e, small e -> tokl (adtype e) k = true -> fine (rec x k e) e.
  Hypothesis rec_empty : forall x k e, alen e = 0 -> rec x k e = Ok (uncompressed e).
  Hypothesis Hm : (pmax I32 <= Z.of_nat m)%Z.

  (** The children of the tree to reuse. *)
  Lemma child1 c like d : In c [CFoR; CZigZag; CBit true; CBit false] -> tokl d like = true -> (forall t, like = Some t -> troot t = c) ->
    exists k, child_of like 0 = Ok k /\ tokl DNull k = true.
  Proof.
    intros Hc T R. destruct like as [[c' ts mt]|]; [|exists None; auto]. specialize (R _ eq_refl). cbn in R. subst c'.
    cbn [tokl] in T. assert (match ts with [o] => tokl DNull o | _ => false end = true) as T'.
    { cbn [In] in Hc. destruct Hc as [<-|[<-|[<-|[<-|[]]]]]; exact T. }
    destruct ts as [|o [|]]; try discriminate T'. exists o. split; [reflexivity|exact T'].
  Qed.
  Lemma child2 c like d : In c [CRunEnd; CDict] -> tokl d like = true -> (forall t, like = Some t -> troot t = c) ->
    exists k k', child_of like 0 = Ok k /\ child_of like 1 = Ok k' /\ tokl DNull k = true /\ tokl DNull k' = true.
  Proof.
    intros Hc T R. destruct like as [[c' ts mt]|]; [|exists None, None; auto]. specialize (R _ eq_refl). cbn in R. subst c'.
    cbn [tokl] in T. assert (match ts with [o; o'] => tokl DNull o && tokl DNull o' | _ => false end = true) as T'.
    { cbn [In] in Hc. destruct Hc as [<-|[<-|[]]]; exact T. }
    destruct ts as [|o [|o' [|]]]; try discriminate T'. apply andb_true_iff in T'. exists o, o'. repeat split; apply T'.
  Qed.
  Lemma child_sparse like d : tokl d like = true -> (forall t, like = Some t -> troot t = CSparse) -> exists k, child_of like 0 = Ok k /\ tokl DNull k = true.
  Proof.
    intros T R. destruct like as [[c' ts mt]|]; [|exists None; auto]. specialize (R _ eq_refl). cbn in R. subst c'.
    cbn [tokl tok] in T. destruct ts as [|o [|o' [|]]]; try discriminate T. exists o. split; [reflexivity|exact T].
  Qed.
  Lemma rec_drop x k j : S j <= n -> tokl DNull k = true -> ok_on j (drop (rec x k)).
  Proof.
    intros Hj T. apply drop_ok. intros e W C N L B. apply rec_fine; [|apply (tokl_flat _ DNull); auto; exact I]. split; [exact W|]. split; [exact C|]. split; [lia|].
    generalize dependent (pmax I32). intros. lia.
  Qed.
  Lemma fine_leaf c a b ts : same a b -> tok (adtype a) (Tree c ts None) = true -> fine (Ok (leaf c b ts)) a.
  Proof. intros Sm T. exists b, (Some (Tree c ts None)). auto. Qed.
  Definition rooted (c : codec) (like : option tree) : Prop := forall t, like = Some t -> troot t = c.

  Lemma fine_for like x p l v : wf g (APrim p l v) -> (Z.of_nat (length l) < pmax U64)%Z -> S (length l) <= n ->
    tokl (DPrim p (vnullable v)) like = true -> rooted CFoR like -> for_applies p l v = true -> fine (c_for rec like x (APrim p l v)) (APrim p l v).
  Proof.
    intros W Hn H T R Ap. destruct (child1 CFoR like _ ltac:(cbn; auto) T R) as (k & Ek & Tk).
    assert (tokl DNull like = true) as TN by (apply (tokl_flat like (DPrim p (vnullable v))); [exact I|exact I|exact T]).
    cbn [c_for]. unfold bind at 1.
    destruct (good_for (drop (rec (excluding CFoR x) k)) p l v W Hn (rec_drop _ _ _ H Tk)) as (b & E & Sm).
    destruct (good_for (drop (rec (excluding CFoR x) like)) p l v W Hn (rec_drop _ _ _ H TN)) as (b' & E' & Sm').
    unfold do_for in E, E'. rewrite Ap in E, E'. destruct (for_compress p l v) as [r| |]; try discriminate E. cbn [bind] in E, E'.
    destruct r as [| | | | | | | | | | | |q e ref shift| | |];
      try (apply drop_inv in E'; destruct E' as (t & E' & Tt); rewrite E'; cbn [bind]; apply fine_leaf; [exact Sm'|exact Tt]).
    destruct (drop (rec (excluding CFoR x) k) e) as [e'| |] eqn:Ed; try discriminate E. apply drop_inv in Ed. destruct Ed as (t & Ed & Tt).
    rewrite Ek. cbn [bind]. rewrite Ed. cbn [bind] in *. rewrite E. cbn [bind]. apply fine_leaf; [exact Sm|exact Tt].
  Qed.
  Lemma fine_zigzag like x p l v : wf g (APrim p l v) -> S (length l) <= n ->
    tokl (DPrim p (vnullable v)) like = true -> rooted CZigZag like -> zigzag_applies p l v = true -> fine (c_zigzag rec like x (APrim p l v)) (APrim p l v).
  Proof.
    intros W H T R Ap. destruct (child1 CZigZag like _ ltac:(cbn; auto) T R) as (k & Ek & Tk).
    cbn [c_zigzag]. unfold bind at 1.
    destruct (good_zigzag (drop (rec x k)) p l v W (rec_drop _ _ _ H Tk)) as (b & E & Sm).
    unfold do_zigzag in E. rewrite Ap in E. destruct (zigzag_encode p l v) as [r| |]; try discriminate E. cbn [bind] in E.
    destruct r; try discriminate E.
    destruct (drop (rec x k) r) as [e'| |] eqn:Ed; try discriminate E. apply drop_inv in Ed. destruct Ed as (t & Ed & Tt).
    rewrite Ek. cbn [bind]. rewrite Ed. cbn [bind] in *. rewrite E. cbn [bind]. apply fine_leaf; [exact Sm|exact Tt].
  Qed.
  Lemma fine_runend like x p l v : wf g (APrim p l v) -> input_ok (APrim p l v) -> l <> [] -> (Z.of_nat (length l) < pmax U64)%Z -> S (length l) <= n ->
    tokl (DPrim p (vnullable v)) like = true -> rooted CRunEnd like -> fine (c_runend rec like x (APrim p l v)) (APrim p l v).
  Proof.
    intros W C Ne Hn H T R. destruct (child2 CRunEnd like _ ltac:(cbn; auto) T R) as (k & k' & Ek & Ek' & Tk & Tk').
    cbn [c_runend].
    destruct (good_runend (drop (rec (auxiliary x) k)) (drop (rec (excluding CRunEnd x) k')) p l v W C Ne Hn (rec_drop _ _ _ H Tk) (rec_drop _ _ _ H Tk')) as (b & E & Sm).
    cbn [do_runend] in E. destruct (ree_encode_primitive p l) as [ends vals].
    destruct (drop (rec (auxiliary x) k) _) as [e| |] eqn:Ed; try discriminate E. apply drop_inv in Ed. destruct Ed as (t & Ed & Tt). cbn [bind] in E.
    destruct (drop (rec (excluding CRunEnd x) k') _) as [y| |] eqn:Ed'; try discriminate E. apply drop_inv in Ed'. destruct Ed' as (t' & Ed' & Tt'). cbn [bind] in E.
    rewrite Ek. cbn [bind]. rewrite Ed. cbn [bind]. rewrite Ek'. cbn [bind]. rewrite Ed'. cbn [bind].
    destruct (if alen e =? 0 then Ok 0 else _) as [nr| |]; try discriminate E. cbn [bind] in *. rewrite E. cbn [bind]. apply fine_leaf; [exact Sm|].
    cbn [tok]. apply andb_true_iff. split; assumption.
  Qed.
  Lemma fine_sparse like x ix vs o len fl : let a := ASparse ix vs o len fl in small a -> S len <= n ->
    tokl (adtype a) like = true -> rooted CSparse like -> fine (c_sparse rec like x a) a.
  Proof.
    intros a (W & C & _) H T R. destruct (child_sparse like _ T R) as (k & Ek & Tk).
    unfold c_sparse, a. 
    destruct (good_sparse (drop (rec (auxiliary x) k)) (drop (rec x k)) ix vs o len fl W C) as (b & E & Sm).
    { intros e He. unfold drop. rewrite rec_empty by exact He. reflexivity. }
    { apply rec_drop; assumption. }
    { apply rec_drop; assumption. }
    cbn [do_sparse] in E.
    destruct (drop (rec (auxiliary x) k) ix) as [e| |] eqn:Ed; try discriminate E. apply drop_inv in Ed. destruct Ed as (t & Ed & Tt). cbn [bind] in E.
    destruct (drop (rec x k) vs) as [y| |] eqn:Ed'; try discriminate E. apply drop_inv in Ed'. destruct Ed' as (t' & Ed' & Tt'). cbn [bind] in E.
    rewrite Ek. cbn [bind]. rewrite Ed. cbn [bind]. rewrite Ed'. cbn [bind]. rewrite E. cbn [bind]. apply fine_leaf; [exact Sm|exact Tt].
  Qed.
  Variable long_runs : array -> bool.
  Lemma fine_dict like x a : small a -> (Z.of_nat (alen a) < pmax U64)%Z -> (Z.of_nat (sbytes a) <= pmax I32)%Z -> S (alen a) <= n ->
    tokl (adtype a) like = true -> rooted CDict like -> can_compress long_runs CDict a = true -> fine (c_dict rec like x a) a.
  Proof.
    intros (W & C & _) Hn Hs H T R Ap. destruct (child2 CDict like _ ltac:(cbn; auto) T R) as (k & k' & Ek & Ek' & Tk & Tk').
    unfold c_dict. cbn [can_compress] in Ap.
    destruct (good_dict (drop (rec (excluding CDict (auxiliary x)) k)) (drop (rec (excluding CDict x) k')) a W C Hn Hs (rec_drop _ _ _ H Tk) (rec_drop _ _ _ H Tk')) as (b & E & Sm).
    unfold do_dict in E. destruct (dict_of a) as [[codes vals]|]; [|discriminate Ap]. apply negb_true_iff in Ap. rewrite Ap in E.
    destruct (dict_views a vals) as [vals'| |]; try discriminate E. cbn [bind] in E |- *.
    destruct (drop (rec (excluding CDict (auxiliary x)) k) codes) as [e| |] eqn:Ed; try discriminate E. apply drop_inv in Ed. destruct Ed as (t & Ed & Tt). cbn [bind] in E.
    destruct (drop (rec (excluding CDict x) k') vals') as [y| |] eqn:Ed'; try discriminate E. apply drop_inv in Ed'. destruct Ed' as (t' & Ed' & Tt'). cbn [bind] in E.
    rewrite Ek. cbn [bind]. rewrite Ed. cbn [bind]. rewrite Ek'. cbn [bind]. rewrite Ed'. cbn [bind]. rewrite E. cbn [bind]. apply fine_leaf; [exact Sm|].
    cbn [tok]. apply andb_true_iff. split; assumption.
  Qed.
  Variable insert : codec -> list codec -> list codec.
  Lemma fine_bit allow like x p l v : wf g (APrim p l v) -> l <> [] -> (Z.of_nat (length l) < pmax U64)%Z -> S (length l) <= n ->
    tokl (DPrim p (vnullable v)) like = true -> rooted (CBit allow) like -> can_compress long_runs (CBit allow) (APrim p l v) = true ->
    fine (c_bit insert rec allow like x (APrim p l v)) (APrim p l v).
  Proof.
    intros W Ne Hn H T R Ap. destruct (child1 (CBit allow) like _ ltac:(destruct allow; cbn; auto) T R) as (k & Ek & Tk).
    cbn [can_compress] in Ap. cbn [c_bit]. set (x' := including insert (CBit false) (excluding (CBit true) (auxiliary x))).
    destruct (good_bit allow (drop (rec x' k)) p l v W Ne Hn (rec_drop _ _ _ H Tk)) as (b & E & Sm).
    cbn [do_bit] in E. apply andb_true_iff in Ap. destruct Ap as [Hu Ap]. rewrite Hu in E. destruct (s_bw _) as [freq|]; [|discriminate Ap].
    destruct (find_bit_width allow p freq) as [bw| |]; try discriminate Ap. apply negb_true_iff in Ap. rewrite Ap in E. cbn [bind]. rewrite Ap. cbv zeta in E |- *.
    destruct (negb allow && (0 <? count_exceptions bw freq)); [discriminate E|].
    destruct (if 0 <? count_exceptions bw freq then gather_patches p l v bw else None) as [q|].
    - destruct (drop (rec x' k) q) as [q'| |] eqn:Ed; try discriminate E. apply drop_inv in Ed. destruct Ed as (t & Ed & Tt).
      rewrite Ek. cbn [bind] in *. rewrite Ed. cbn [bind] in *. rewrite E. cbn [bind]. apply fine_leaf; [exact Sm|exact Tt].
    - cbn [bind] in *. rewrite E. cbn [bind]. apply fine_leaf; [exact Sm|reflexivity].
  Qed.
End Codecs.
