(** Well-formed arrays, with flags naming the classes on which each operation is correct and total. *)
From Verif Require Import Base Spec SearchModel Arr ArrRead.

(** Induction over arrays with the nested lists. *)
Section ArrayInd.
  Variable P : array -> Prop.
  Hypothesis Hnull : forall n, P (ANull n).
  Hypothesis Hbool : forall o b n v, P (ABool o b n v).
  Hypothesis Hprim : forall p l v, P (APrim p l v).
  Hypothesis Hview : forall u w b v, P (AView u w b v).
  Hypothesis Hvarbin : forall u o b v, P o -> P (AVarBin u o b v).
  Hypothesis Hstruct : forall ns fs n v, Forall P fs -> P (AStruct ns fs n v).
  Hypothesis Hext : forall id st, P st -> P (AExt id st).
  Hypothesis Hconst : forall d x n, P (AConst d x n).
  Hypothesis Hsparse : forall i v o n f, P i -> P v -> P (ASparse i v o n f).
  Hypothesis Hchunked : forall d cs, Forall P cs -> P (AChunked d cs).
  Hypothesis Hdict : forall c v, P c -> P v -> P (ADict c v).
  Hypothesis Hrunend : forall e v vd o n, P e -> P v -> P (ARunEnd e v vd o n).
  Hypothesis Hfor : forall p e r s, P e -> P (AFoR p e r s).
  Hypothesis Hzz : forall e, P e -> P (AZigZag e).
  Hypothesis Hbp : forall p l bw o n v q, match q with Some a => P a | None => True end -> P (ABitPacked p l bw o n v q).
  Hypothesis Hbb : forall l v, P (AByteBool l v).
  Fixpoint array_ind' (a : array) : P a :=
    match a with
    | ANull n => Hnull n
    | ABool o b n v => Hbool o b n v
    | APrim p l v => Hprim p l v
    | AView u w b v => Hview u w b v
    | AVarBin u o b v => Hvarbin u o b v (array_ind' o)
    | AStruct ns fs n v =>
        Hstruct ns fs n v ((fix go l : Forall P l := match l with [] => Forall_nil P | x :: r => Forall_cons x (array_ind' x) (go r) end) fs)
    | AExt id st => Hext id st (array_ind' st)
    | AConst d x n => Hconst d x n
    | ASparse i v o n f => Hsparse i v o n f (array_ind' i) (array_ind' v)
    | AChunked d cs =>
        Hchunked d cs ((fix go l : Forall P l := match l with [] => Forall_nil P | x :: r => Forall_cons x (array_ind' x) (go r) end) cs)
    | ADict c v => Hdict c v (array_ind' c) (array_ind' v)
    | ARunEnd e v vd o n => Hrunend e v vd o n (array_ind' e) (array_ind' v)
    | AFoR p e r s => Hfor p e r s (array_ind' e)
    | AZigZag e => Hzz e (array_ind' e)
    | ABitPacked p l bw o n v q =>
        Hbp p l bw o n v q (match q with Some a => array_ind' a | None => I end)
    | AByteBool l v => Hbb l v
    end.
End ArrayInd.

(** The same with hypotheses for the children of the patches of a bit-packed array. *)
Lemma array_ind_p (P : array -> Prop) :
  (forall n, P (ANull n)) -> (forall o b n v, P (ABool o b n v)) -> (forall p l v, P (APrim p l v)) ->
  (forall u w b v, P (AView u w b v)) -> (forall u o b v, P o -> P (AVarBin u o b v)) ->
  (forall ns fs n v, Forall P fs -> P (AStruct ns fs n v)) -> (forall id st, P st -> P (AExt id st)) ->
  (forall d x n, P (AConst d x n)) -> (forall i v o n f, P i -> P v -> P (ASparse i v o n f)) ->
  (forall d cs, Forall P cs -> P (AChunked d cs)) -> (forall c v, P c -> P v -> P (ADict c v)) ->
  (forall e v vd o n, P e -> P v -> P (ARunEnd e v vd o n)) -> (forall p e r s, P e -> P (AFoR p e r s)) ->
  (forall e, P e -> P (AZigZag e)) ->
  (forall p l bw o n v q, match q with Some a => P a /\ match a with ASparse i w _ _ _ => P i /\ P w | _ => True end | None => True end ->
     P (ABitPacked p l bw o n v q)) ->
  (forall l v, P (AByteBool l v)) -> forall a, P a.
Proof.
  intros H1 H2 H3 H4 H5 H6 H7 H8 H9 H10 H11 H12 H13 H14 H15 H16 a.
  cut (P a /\ match a with ASparse i w _ _ _ => P i /\ P w | _ => True end); [tauto|].
  induction a as [n|o b n v|p l v|u w b v|u o b v IHo|ns fls n v IHf|id st IHst|d x n|ix vs o n fl IHi IHv|d cs IHc
    |c vs IHc IHv|e vs v o n IHe IHv|p e r sh IHe|e IHe|p l bw o n v q IHq|l v] using array_ind'; try (split; [|exact I]).
  - apply H1.
  - apply H2.
  - apply H3.
  - apply H4.
  - apply H5. tauto.
  - apply H6. eapply Forall_impl; [|exact IHf]. cbn. tauto.
  - apply H7. tauto.
  - apply H8.
  - split; [apply H9; tauto|tauto].
  - apply H10. eapply Forall_impl; [|exact IHc]. cbn. tauto.
  - apply H11; tauto.
  - apply H12; tauto.
  - apply H13. tauto.
  - apply H14. tauto.
  - apply H15. destruct q; exact IHq.
  - apply H16.
Qed.

Section DtypeInd.
  Variable P : dtype -> Prop.
  Hypothesis H0 : P DNull.
  Hypothesis H1 : forall n, P (DBool n).
  Hypothesis H2 : forall p n, P (DPrim p n).
  Hypothesis H3 : forall n, P (DUtf8 n).
  Hypothesis H4 : forall n, P (DBinary n).
  Hypothesis H5 : forall ns ts n, Forall P ts -> P (DStruct ns ts n).
  Hypothesis H6 : forall i n, P (DExt i n).
  Fixpoint dtype_ind' (d : dtype) : P d :=
    match d with
    | DNull => H0 | DBool n => H1 n | DPrim p n => H2 p n | DUtf8 n => H3 n | DBinary n => H4 n
    | DStruct ns ts n =>
        H5 ns ts n ((fix go l : Forall P l := match l with [] => Forall_nil P | x :: r => Forall_cons x (dtype_ind' x) (go r) end) ts)
    | DExt i n => H6 i n
    end.
End DtypeInd.

Lemma natlist_eqb_eq a b : natlist_eqb a b = true <-> a = b.
Proof. unfold natlist_eqb. destruct (list_eq_dec _ a b); split; congruence. Qed.

Lemma dtype_eqb_eq a b : dtype_eqb a b = true <-> a = b.
Proof.
  revert b; induction a using dtype_ind'; intros b; destruct b; cbn; try (split; congruence).
  - rewrite eqb_true_iff. split; congruence.
  - rewrite andb_true_iff, eqb_true_iff, ptype_eqb_eq. intuition congruence.
  - rewrite eqb_true_iff. split; congruence.
  - rewrite eqb_true_iff. split; congruence.
  - rewrite !andb_true_iff, eqb_true_iff, natlist_eqb_eq.
    assert (forall us, (fix go (l1 l2 : list dtype) : bool :=
         match l1, l2 with
         | [], [] => true
         | x :: r1, y :: r2 => dtype_eqb x y && go r1 r2
         | _, _ => false
         end) ts us = true <-> ts = us) as E.
    { induction H as [|x r Hx Hr IH]; intros [|y us]; try (split; congruence).
      rewrite andb_true_iff, Hx, IH. split; [intros [-> ->]; reflexivity|intros [= -> ->]; auto]. }
    rewrite E. intuition congruence.
  - rewrite andb_true_iff, eqb_true_iff. destruct i, id; cbn; rewrite ?Nat.eqb_eq; intuition congruence.
Qed.
Lemma dtype_eqb_refl a : dtype_eqb a a = true.
Proof. apply dtype_eqb_eq. reflexivity. Qed.

(** A value is a possible element of an array of this data type. (Extension values are those of the storage, which the
    extension dtype does not determine.) *)
Fixpoint vtyped (d : dtype) (x : value) {struct x} : Prop :=
  match x with
  | VNull => nullable d = true
  | VBool _ => match d with DBool _ | DExt _ _ => True | _ => False end
  | VInt z => match d with DPrim p _ => in_range p z | DExt _ _ => True | _ => False end
  | VBytes s => match d with DUtf8 _ => utf8_valid s = true | DBinary _ | DExt _ _ => True | _ => False end
  | VStruct vs =>
      match d with
      | DStruct _ ts _ =>
          (fix go (vs : list value) (ts : list dtype) : Prop :=
             match vs, ts with
             | [], [] => True
             | v :: vs', t :: ts' => vtyped t v /\ go vs' ts'
             | _, _ => False
             end) vs ts
      | DExt _ _ => True
      | _ => False
      end
  end.

(** A validity fits an array of length [n]. *)
Definition vwf (v : validity) (n : nat) : Prop := match v with VBits l => length l = n | _ => True end.

(** A view is consistent with the data buffers. *)
Definition view_ok (bufs : list (list Z)) (w : view) : Prop :=
  match w with
  | VInl s => length s <= 12
  | VRef size pre b off =>
      12 < size /\ b < length bufs /\ off + size <= length (nth b bufs []) /\
      pre = firstn 4 (lslice (nth b bufs []) off (off + size))
  end.

(** Classes of arrays. Each flag that is set asks for more:
    - [fs]: slicing never fails on valid bounds; [fn]: non-empty slices never fail;
    - [fc]: decoding is faithful; [fC]: decoding never fails; [fv]: logical_validity is faithful;
    - [ft]: take is faithful; [fT]: take never fails; [fN]: take with non-empty u64 indices never fails;
    - [fF]: filter never fails; [fk]: take keeps the data type. *)
Record flags := Flags { fs : bool; fn : bool; fc : bool; fC : bool; fv : bool;
                        ft : bool; fT : bool; fN : bool; fF : bool; fk : bool }.

(** Encoder invariant of the patches of a bit-packed array (bitpacking/compress.rs:139-165): patches sit at valid
    positions and hold only values that do not fit. *)
Definition patches_exact (bw : Z) (v : validity) (idx vals : array) (soff : nat) : Prop :=
  Forall (fun z => (2 ^ bw - 1 < z)%Z) (ints (logical vals)) /\
  Forall (fun z => vvalid v (Z.to_nat z - soff) = true) (ints (logical idx)).

(** search_sorted is exact on this index array (see C08 for the exclusions): everything without its own search, primitive
    arrays, frame of reference whose values do not wrap, bit-packed arrays with the patches the encoder produces, constants
    (empty ones up to [cval], below). *)
Fixpoint ss_ok (a : array) : Prop :=
  match a with
  | APrim _ _ _ => True
  | AFoR p e ref shift =>
      (shift = 0%Z \/ is_unsigned p = true) /\
      (forall z, In z (ints (logical e)) -> (z * 2 ^ shift + ref <= pmax p)%Z) /\ ss_ok e
  | ABitPacked _ _ bw _ _ v q =>
      match q with
      | None => True
      | Some (ASparse idx vals soff _ _) => patches_exact bw v idx vals soff /\ ss_ok vals
      | Some _ => False
      end
  | ASparse _ _ _ _ _ => False
  | _ => True
  end.
(** The one value an empty constant wrongly reports as present. *)
Fixpoint cval (a : array) : option Z :=
  match a with
  | AConst _ (VInt z) _ => Some z
  | AFoR p e ref shift => match cval e with Some z => Some (for_decode p ref shift z) | None => None end
  | _ => None
  end.
(** The index child of a sparse array: searchable, and harmless if empty. *)
Definition ix_ok (idx : array) (off len : nat) : Prop :=
  ss_ok idx /\ (alen idx = 0 -> forall z, cval idx = Some z -> ~ (Z.of_nat off <= z < Z.of_nat (off + len))%Z).
(** search_sorted_u64_many is exact on this index array. *)
Definition ss64_ok (a : array) : Prop :=
  match a with
  | APrim _ _ _ | AFoR _ _ _ _ => True
  | ABitPacked _ _ _ _ _ _ q => q = None
  | _ => is_u64 (adtype a) = true
  end.

Definition sliceable (f : flags) : flags :=
  Flags (fs f || fn f) (fn f) (fc f) (fC f) (fv f) (ft f) (fT f) (fN f) (fF f) (fk f).

Definition non_null (l : list value) : Prop := Forall (fun x => x <> VNull) l.
Definition is_str (d : dtype) : bool := match d with DUtf8 _ | DBinary _ => true | _ => false end.
Definition is_bool (d : dtype) : bool := match d with DBool _ => true | _ => false end.

(** Structural well-formedness plus the conditions of the flags that are set. *)
Fixpoint wf (f : flags) (a : array) {struct a} : Prop :=
  match a with
  | ANull _ => True
  | ABool off buf len v => off < 8 /\ off + len <= length buf /\ vwf v len
  | APrim p l v => Forall (in_range p) l /\ vwf v (length l)
  | AView u vs bufs v =>
      Forall (view_ok bufs) vs /\ vwf v (length vs) /\
      (u = true -> forall s, In (VBytes s) (logical a) -> utf8_valid s = true) /\
      (fk f = true -> v = VNonNull)
  | AVarBin u offs bytes v =>
      wf f offs /\
      (exists p, adtype offs = DPrim p false /\ is_int p = true) /\
      1 <= alen offs /\ sortedZ (ints (logical offs)) /\
      Forall (fun z => (0 <= z <= Z.of_nat (length bytes))%Z) (ints (logical offs)) /\
      vwf v (alen offs - 1) /\
      (u = true -> forall s, In (VBytes s) (logical a) -> utf8_valid s = true) /\
      (fc f = true -> u = true) /\
      (fC f = true -> (Z.of_nat (length bytes) <= pmax I32)%Z) /\ (fF f = true -> fC f = true) /\
      fT f = false /\ fN f = false
  | AStruct ns fls n v =>
      length ns = length fls /\ vwf v n /\
      (fix go (l : list array) : Prop :=
         match l with [] => True | x :: r => (wf f x /\ alen x = n) /\ go r end) fls
  | AExt _ st => wf f st /\ fF f = false
  | AConst d x n => vtyped d x /\ (fC f = true -> flat d = true /\ d <> DNull)
  | ASparse idx vals off len fill =>
      let fi := sliceable f in
      wf fi idx /\ wf fi vals /\
      adtype idx = DPrim U64 false /\ alen idx = alen vals /\ ix_ok idx off len /\
      ssortedZ (ints (logical idx)) /\
      Forall (fun z => (Z.of_nat off <= z < Z.of_nat (off + len))%Z) (ints (logical idx)) /\
      (Z.of_nat (off + len) <= pmax U64)%Z /\
      vtyped (adtype vals) fill /\ flat (adtype vals) = true /\
      (fc f = true -> (is_bool (adtype vals) || is_prim (adtype vals)) = true /\
         ((fill = VNull /\ non_null (logical vals)) \/
          (is_prim (adtype vals) = true /\ nullable (adtype vals) = false))) /\
      (fv f = true -> nullable (adtype vals) = true -> fill = VNull /\ non_null (logical vals)) /\
      (fT f = true \/ fN f = true \/ fF f = true ->
         fT f = true /\ fC f = true /\ (fk f = true \/ is_prim (adtype vals) = true))
  | AChunked d cs =>
      (fix go (l : list array) : Prop :=
         match l with [] => True | x :: r => (wf f x /\ adtype x = d) /\ go r end) cs /\
      (fs f = true -> cs <> []) /\
      fT f = false /\ (fN f = true -> fk f = true \/ is_prim d = true) /\
      (fF f = true -> (fk f = true \/ is_prim d = true) /\ fN f = true) /\
      (fc f = true -> fv f = true \/ (nullable d = false /\ flat d = true)) /\
      (fN f = true -> (Z.of_nat (list_sum (map alen cs)) <= pmax U64)%Z) /\
      (fC f = true -> match d with DExt _ _ => False | DStruct ns ts _ => length ns = length ts | _ => True end)
  | ADict c vals =>
      wf f c /\ wf f vals /\
      (exists p, adtype c = DPrim p false /\ is_unsigned p = true) /\
      Forall (fun z => (0 <= z < Z.of_nat (alen vals))%Z) (ints (logical c)) /\
      flat (adtype vals) = true /\
      (fv f = true -> nullable (adtype vals) = true ->
         forall i, i < alen c -> (vint (nth i (logical c) VNull) = 0%Z <-> nth i (logical a) VNull = VNull)) /\
      (fF f = true -> fC f = true) /\
      (fk f = true -> is_str (adtype vals) = true -> nullable (adtype vals) = false)
  | ARunEnd e vals v off len =>
      wf f e /\ wf f vals /\
      (exists p, adtype e = DPrim p false /\ is_unsigned p = true) /\
      alen e = alen vals /\ ss_ok e /\ ssortedZ (ints (logical e)) /\
      non_null (logical vals) /\ nullable (adtype vals) = vnullable v /\ vwf v len /\
      flat (adtype vals) = true /\
      match ints (logical e) with
      | [] => len = 0 /\ off = 0
      | z0 :: _ =>
          (Z.of_nat (off + len) <= last (ints (logical e)) 0)%Z /\ (0 < z0)%Z /\ (off <> 0 -> (Z.of_nat off < z0)%Z)
      end /\
      fs f = false /\
      (fc f = true -> is_prim (adtype vals) = true) /\ (ft f = true -> ss64_ok e) /\
      (fC f = true -> fc f = true) /\
      (fT f = true \/ fN f = true \/ fF f = true -> is_prim (adtype vals) = true /\ fT f = true /\ fF f = true /\ fC f = true)
  | AFoR p e ref shift =>
      wf f e /\ is_int p = true /\ (exists n, adtype e = DPrim (to_unsigned p) n) /\
      in_range p ref /\ (0 <= shift < bits p)%Z
  | AZigZag e =>
      wf f e /\ (exists p n, adtype e = DPrim p n /\ is_unsigned p = true) /\
      (fT f = true \/ fN f = true \/ fF f = true -> fC f = true)
  | ABitPacked p packed bw off len v q =>
      is_unsigned p = true /\ (0 <= bw <= bits p)%Z /\ off < 1024 /\
      length packed = 1024 * ((len + off + 1023) / 1024) /\
      Forall (fun z => (0 <= z < 2 ^ bw)%Z) packed /\ vwf v len /\
      match q with
      | None => True
      | Some q =>
          wf f q /\ alen q = len /\ adtype q = DPrim p true /\ (ft f = true -> len < 512) /\
          match q with
          | ASparse idx vals soff slen fill =>
              fill = VNull /\ alen idx <> 0 /\ non_null (logical vals) /\
              (exists w, adtype vals = DPrim p w)
          | _ => False
          end
      end /\
      (fT f = true \/ fN f = true \/ fF f = true -> fC f = true)
  | AByteBool l v =>
      Forall (fun z => z = 0 \/ z = 1)%Z l /\ vwf v (length l) /\ (fk f = true -> v <> VNonNull)
  end.

(** The weakest class: structural well-formedness only. *)
Definition f0 : flags := Flags false false false false false false false false false false.

(** What the fix-expressions in [wf] mean. *)
Lemma wf_struct_iff f ns fls n v :
  wf f (AStruct ns fls n v) <->
  length ns = length fls /\ vwf v n /\ Forall (fun x => wf f x /\ alen x = n) fls.
Proof.
  cbn [wf]. assert (forall l, (fix go (l : list array) : Prop :=
         match l with [] => True | x :: r => (wf f x /\ alen x = n) /\ go r end) l <->
         Forall (fun x => wf f x /\ alen x = n) l) as E.
  { induction l as [|x r IH]; [split; constructor|]. rewrite IH. split.
    - intros [H1 H2]. constructor; auto.
    - intros H. inversion H; subst; auto. }
  rewrite E. reflexivity.
Qed.
Lemma wf_chunks_iff f d (cs : list array) :
  (fix go (l : list array) : Prop :=
         match l with [] => True | x :: r => (wf f x /\ adtype x = d) /\ go r end) cs <->
  Forall (fun x => wf f x /\ adtype x = d) cs.
Proof.
  induction cs as [|x r IH]; [split; constructor|]. rewrite IH. split.
  - intros [H1 H2]. constructor; auto.
  - intros H. inversion H; subst; auto.
Qed.

(** * Basic consequences *)
Lemma tab_length {A} n (g : nat -> A) : length (tab n g) = n.
Proof. unfold tab. rewrite map_length, seq_length. reflexivity. Qed.
Lemma nth_tab {A} n (g : nat -> A) i d : i < n -> nth i (tab n g) d = g i.
Proof.
  intros. unfold tab. rewrite map_nth_lt with (d := 0) by (rewrite seq_length; lia).
  rewrite seq_nth by lia. reflexivity.
Qed.
Lemma nth_error_tab {A} n (g : nat -> A) i : nth_error (tab n g) i = if i <? n then Some (g i) else None.
Proof.
  destruct (Nat.ltb_spec i n).
  - erewrite nth_error_nth' by (rewrite tab_length; lia). rewrite (nth_tab n g i (g i)) by lia. reflexivity.
  - apply nth_error_None. rewrite tab_length. lia.
Qed.
Lemma tab_ext {A} n (g h : nat -> A) : (forall i, i < n -> g i = h i) -> tab n g = tab n h.
Proof. intros H. unfold tab. apply map_ext_in. intros i Hi. apply in_seq in Hi. apply H. lia. Qed.
Lemma In_tab {A} n (g : nat -> A) x : In x (tab n g) <-> exists i, i < n /\ x = g i.
Proof.
  unfold tab. rewrite in_map_iff. split.
  - intros (i & <- & Hi). apply in_seq in Hi. exists i. split; [lia|reflexivity].
  - intros (i & Hi & ->). exists i. split; [reflexivity|apply in_seq; lia].
Qed.

Lemma ints_length l : length (ints l) = length l.
Proof. apply map_length. Qed.
Lemma nats_length l : length (nats l) = length l.
Proof. apply map_length. Qed.

Lemma logical_length a : length (logical a) = alen a.
Proof.
  induction a as [| | | |u o b v IHo| | | | |d cs Hc| | | | | |] using array_ind'; cbn [logical alen];
    rewrite ?tab_length, ?map_length, ?repeat_length, ?nats_length, ?ints_length; auto.
  - induction Hc as [|x r Hx Hr IH]; [reflexivity|]. cbn. rewrite app_length, Hx, IH. reflexivity.
Qed.
