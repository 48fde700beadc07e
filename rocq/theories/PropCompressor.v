(** C44: compressing an array does not change its values, whatever encodings the compressor chooses at each level. *)
From Verif Require Import Base Spec SearchModel Arr ArrRead ArrWf ArrReadProofs ArrSlice ArrSliceProofs ValidityModel PropValidity StatsModel StatsProofs
  PropStats ArrOps OpsBase IntEnc RunEnc DictEnc PropRead PropOps PropOpsX CmpProofs
  Compressor CompressorSpec CompressorProofs CompressorProofs2 CompressorProofs3 CompressorProofs4.
Local Notation g := decodable.

Section PlanInd.
  Variable P : plan -> Prop.
  Hypotheses (Hk : P PKeep) (Hc : P PConst) (Hch : forall l, Forall P l -> P (PChunks l)) (Hst : forall l, Forall P l -> P (PStruct l))
    (Hfo : forall q, P q -> P (PFoR q)) (Hz : forall q, P q -> P (PZigZag q)) (Hb : forall b q, P q -> P (PBit b q))
    (Hr : forall q q', P q -> P q' -> P (PRunEnd q q')) (Hd : forall q q', P q -> P q' -> P (PDict q q')) (Hs : forall q q', P q -> P q' -> P (PSparse q q')).
  Definition plan_ind' : forall q, P q :=
    fix go q :=
      let gos := fix gos l : Forall P l := match l with [] => Forall_nil P | x :: r => Forall_cons x (go x) (gos r) end in
      match q with
      | PKeep => Hk | PConst => Hc | PChunks l => Hch l (gos l) | PStruct l => Hst l (gos l)
      | PFoR q => Hfo q (go q) | PZigZag q => Hz q (go q) | PBit b q => Hb b q (go q)
      | PRunEnd q q' => Hr q q' (go q) (go q') | PDict q q' => Hd q q' (go q) (go q') | PSparse q q' => Hs q q' (go q) (go q')
      end.
End PlanInd.

Section Main.
  Context {md : mode}.
  Variable nb : array -> nat.
  Variables tb tr : nat.
  Let run_ok (q : plan) : Prop := forall a, wf g a -> input_ok a -> fits q a -> good (run nb tb tr q) a.
  Lemma fits_sub q q' a e : fits q a -> qdepth q' < qdepth q -> alen e <= S (alen a) -> (Z.of_nat (sbytes e) <= pmax I32)%Z -> fits q' e.
  Proof. unfold fits. generalize (pmax U64). intros m [H1 _] H2 H3 H4. split; [lia|exact H4]. Qed.
  Lemma run_ok_on q q' a : run_ok q' -> fits q a -> qdepth q' < qdepth q -> ok_on (alen a) (run nb tb tr q').
  Proof. intros H F D e We Ce _ Le Se. apply H; [exact We|exact Ce|]. apply (fits_sub q q' a e F D Le Se). Qed.
  Lemma run_empty q e : alen e = 0 -> run nb tb tr q e = Ok e.
  Proof. intros H. destruct q; cbn [run]; rewrite H; reflexivity. Qed.
  Lemma fits_U64 q a : fits q a -> (Z.of_nat (alen a) < pmax U64)%Z.
  Proof. unfold fits. generalize (pmax U64). intros m [H _]. lia. Qed.
  Lemma good_ext h h' a : h a = h' a -> good h' a -> good h a.
  Proof. intros E (b & Eb & Sb). exists b. split; [congruence|exact Sb]. Qed.
  Lemma nth_run l k c q : (forall q, In q l -> run_ok q) -> fits q c -> (forall q', In q' l -> qdepth q' < qdepth q) -> wf g c -> input_ok c -> good (nth k (map (run nb tb tr) l) (fun x => Ok x)) c.
  Proof.
    intros H F D W C. destruct (Nat.lt_ge_cases k (length l)) as [Hk|Hk].
    - rewrite (nth_indep _ _ (run nb tb tr PKeep)) by (rewrite map_length; exact Hk). rewrite map_nth. apply H; [apply nth_In, Hk|exact W|exact C|].
      apply (fits_sub q _ c c F); [apply D, nth_In, Hk|lia|apply F].
    - rewrite nth_overflow by (rewrite map_length; exact Hk). apply good_keep, W.
  Qed.
  Lemma depth_in l q : In q l -> qdepth q < S (list_max (map qdepth l)).
  Proof. intros H. apply (in_map qdepth) in H. pose proof (proj1 (list_max_le (map qdepth l) _) (le_n _)) as F. rewrite Forall_forall in F. apply F in H. lia. Qed.

  Lemma run_good q : run_ok q.
  Proof.
    induction q as [| |l IH|l IH|q IH|q IH|b q IH|q q' IH IH'|q q' IH IH'|q q' IH IH'] using plan_ind'; intros a W C F;
      (destruct (Nat.eq_dec (alen a) 0) as [Z|Z]; [apply (good_ext _ (fun x => Ok x)); [apply run_empty, Z|apply good_keep, W]|]);
      pose proof (fits_U64 _ _ F) as Fu; pose proof (proj2 F) as Fs.
    - apply (good_ext _ (fun x => Ok x)); [cbn [run]; rewrite (proj2 (Nat.eqb_neq _ _) Z); reflexivity|apply good_keep, W].
    - apply (good_ext _ do_const); [cbn [run]; rewrite (proj2 (Nat.eqb_neq _ _) Z); reflexivity|apply good_const; assumption].
    - set (f := fun k => nth k (map (run nb tb tr) l) (fun x => Ok x)). apply (good_ext _ (do_chunks nb tb tr f)); [cbn [run]; rewrite (proj2 (Nat.eqb_neq _ _) Z); reflexivity|].
      destruct a as [| | | | | | | | |d cs| | | | | |]; try (apply (good_ext _ (fun x => Ok x)); [reflexivity|apply good_keep, W]).
      apply good_chunks; [exact W|exact C|]. intros k c Wc Cc Sc Lc. unfold f. rewrite Forall_forall in IH. apply (nth_run l k c (PChunks l) IH); try assumption.
      + destruct F as [F1 _]. unfold fits. generalize dependent (pmax U64). generalize dependent (pmax I32). intros. lia.
      + intros q' Hq. apply depth_in, Hq.
    - set (f := fun k => nth k (map (run nb tb tr) l) (fun x => Ok x)). apply (good_ext _ (do_struct f)); [cbn [run]; rewrite (proj2 (Nat.eqb_neq _ _) Z); reflexivity|].
      destruct a as [| | | | |ns fls n v| | | | | | | | | |]; try (apply (good_ext _ (fun x => Ok x)); [reflexivity|apply good_keep, W]).
      apply good_struct; [exact W|]. intros k c Hc. apply wf_struct_iff in W. destruct W as (_ & _ & W). apply input_struct in C. rewrite Forall_forall in IH, W, C.
      unfold f. apply (nth_run l k c (PStruct l) IH); [|intros q' Hq; apply depth_in, Hq|apply W, Hc|apply C, Hc].
      destruct (W c Hc) as [_ Al]. destruct F as [F1 F2]. cbn [alen sbytes] in F1, F2. pose proof (proj1 (list_max_le (map sbytes fls) _) (le_n _)) as Fm. rewrite Forall_forall in Fm.
      specialize (Fm _ (in_map sbytes _ _ Hc)). unfold fits. rewrite Al. split; [exact F1|]. generalize dependent (pmax I32). intros. lia.
    - apply (good_ext _ (do_for (run nb tb tr q))); [cbn [run]; rewrite (proj2 (Nat.eqb_neq _ _) Z); reflexivity|].
      destruct a as [| |p l v| | | | | | | | | | | | |]; try (apply (good_ext _ (fun x => Ok x)); [reflexivity|apply good_keep, W]).
      apply good_for; [exact W|exact Fu|]. apply (run_ok_on (PFoR q) q (APrim p l v) IH F). cbn [qdepth]. lia.
    - apply (good_ext _ (do_zigzag (run nb tb tr q))); [cbn [run]; rewrite (proj2 (Nat.eqb_neq _ _) Z); reflexivity|].
      destruct a as [| |p l v| | | | | | | | | | | | |]; try (apply (good_ext _ (fun x => Ok x)); [reflexivity|apply good_keep, W]).
      apply good_zigzag; [exact W|]. apply (run_ok_on (PZigZag q) q (APrim p l v) IH F). cbn [qdepth]. lia.
    - apply (good_ext _ (do_bit b (run nb tb tr q))); [cbn [run]; rewrite (proj2 (Nat.eqb_neq _ _) Z); reflexivity|].
      destruct a as [| |p l v| | | | | | | | | | | | |]; try (apply (good_ext _ (fun x => Ok x)); [reflexivity|apply good_keep, W]).
      apply good_bit; [exact W|intros ->; apply Z; reflexivity|exact Fu|]. apply (run_ok_on (PBit b q) q (APrim p l v) IH F). cbn [qdepth]. lia.
    - apply (good_ext _ (do_runend (run nb tb tr q) (run nb tb tr q'))); [cbn [run]; rewrite (proj2 (Nat.eqb_neq _ _) Z); reflexivity|].
      destruct a as [| |p l v| | | | | | | | | | | | |]; try (apply (good_ext _ (fun x => Ok x)); [reflexivity|apply good_keep, W]).
      apply good_runend; [exact W|exact C|intros ->; apply Z; reflexivity|exact Fu| |].
      + apply (run_ok_on (PRunEnd q q') q (APrim p l v) IH F). cbn [qdepth]. lia.
      + apply (run_ok_on (PRunEnd q q') q' (APrim p l v) IH' F). cbn [qdepth]. lia.
    - apply (good_ext _ (do_dict (run nb tb tr q) (run nb tb tr q'))); [cbn [run]; rewrite (proj2 (Nat.eqb_neq _ _) Z); reflexivity|].
      apply good_dict; [exact W|exact C|exact Fu|exact Fs| |].
      + apply (run_ok_on (PDict q q') q a IH F). cbn [qdepth]. lia.
      + apply (run_ok_on (PDict q q') q' a IH' F). cbn [qdepth]. lia.
    - apply (good_ext _ (do_sparse (run nb tb tr q) (run nb tb tr q'))); [cbn [run]; rewrite (proj2 (Nat.eqb_neq _ _) Z); reflexivity|].
      destruct a as [| | | | | | | |ix vs o n fl| | | | | | |]; try (apply (good_ext _ (fun x => Ok x)); [reflexivity|apply good_keep, W]).
      apply good_sparse; [exact W|exact C|apply run_empty| |].
      + apply (run_ok_on (PSparse q q') q (ASparse ix vs o n fl) IH F). cbn [qdepth]. lia.
      + apply (run_ok_on (PSparse q q') q' (ASparse ix vs o n fl) IH' F). cbn [qdepth]. lia.
  Qed.
End Main.

Local Instance all_inputs : mode := false.
(** The compressor always succeeds, on every input and for every choice of encodings at every level, and its result has the same
    type and the same values. *)
Theorem compression_preserves_values nb target_bytes target_rows q a :
  wf decodable a -> input_ok a -> fits q a ->
  exists b, run nb target_bytes target_rows q a = Ok b /\ wf decodable b /\ adtype b = adtype a /\ logical b = logical a.
Proof. intros W C F. destruct (run_good nb target_bytes target_rows q a W C F) as (b & E & Wb & L & D & _). exists b. auto. Qed.
Print Assumptions compression_preserves_values.

(** In terms of the operations: the compressed array decodes, to the values the input decodes to, and reads the same at every index. *)
Theorem compressed_reads_the_same nb target_bytes target_rows q a b :
  wf decodable a -> input_ok a -> fits q a -> run nb target_bytes target_rows q a = Ok b ->
  alen b = alen a /\ adtype b = adtype a /\ (forall i, scalar_at b i = scalar_at a i) /\ (forall i, i < alen a -> is_valid b i = is_valid a i) /\
  exists c d, canon a = Ok c /\ canon b = Ok d /\ logical c = logical d /\ forall i, scalar_at d i = scalar_at c i.
Proof.
  intros W C F E. destruct (compression_preserves_values nb target_bytes target_rows q a W C F) as (b' & E' & Wb & D & L). rewrite E in E'. injection E' as <-.
  assert (alen b = alen a) as A by (rewrite <- !logical_length, L; reflexivity).
  destruct (scalar_at_is_the_element _ a W) as (R1 & R2 & R3). destruct (scalar_at_is_the_element _ b Wb) as (S1 & S2 & S3). rewrite L in S1, S2, S3.
  assert (forall i, scalar_at b i = scalar_at a i) as SA.
  { intros i. destruct (Nat.lt_ge_cases i (length (logical a))) as [H|H]; [rewrite S1, R1 by exact H; reflexivity|rewrite S3, R3 by exact H; reflexivity]. }
  split; [exact A|]. split; [exact D|]. split; [exact SA|]. split; [intros i H; rewrite <- logical_length in H; rewrite S2, R2 by exact H; reflexivity|].
  destruct (canonical_is_lossless _ a W eq_refl) as [Ca Ta]. destruct (canonical_is_lossless _ b Wb eq_refl) as [Cb Tb].
  destruct (Ta eq_refl) as [c Ec]. destruct (Tb eq_refl) as [d Ed]. exists c, d. split; [exact Ec|]. split; [exact Ed|].
  destruct (Ca c Ec) as (_ & Lc & _). destruct (Cb d Ed) as (_ & Ld & _). split; [congruence|]. intros i.
  rewrite (scalar_at_agrees_with_canonical _ a c i W eq_refl Ec), (scalar_at_agrees_with_canonical _ b d i Wb eq_refl Ed). apply SA.
Qed.
Print Assumptions compressed_reads_the_same.

(** Two chunks of a table with a nullable integer column, a string column and a signed column; rechunked, every field compressed
    differently, six levels deep. *)
Definition table_chunk (l m : list Z) (s : list (list Z)) : array :=
  AStruct [0; 1; 2] [APrim U32 l (VBits (map (fun z => negb (z =? 0)%Z) l)); AView true (map VInl s) [] VNonNull; APrim I64 m VNonNull] (length l) VNonNull.
Definition table : array :=
  AChunked (DStruct [0; 1; 2] [DPrim U32 true; DUtf8 false; DPrim I64 false] false)
    [table_chunk [7; 0; 7; 7]%Z [-5; -5; -5; 9]%Z [[97]; [98]; [97]; [97]]%Z; table_chunk [0; 0]%Z [9; 9]%Z [[97]; [98]]%Z].
Definition table_plan : plan :=
  PChunks [PStruct [PChunks [PDict (PRunEnd (PFoR PKeep) PKeep) PConst]; PChunks [PDict (PBit true (PSparse PKeep PKeep)) (PDict PKeep PKeep)];
    PChunks [PZigZag (PRunEnd PKeep (PDict PKeep PKeep))]]].
Example table_hypotheses : wf decodable table /\ input_ok table /\ fits table_plan table.
Proof.
  split; [|split].
  - unfold table. apply wf_chunked_g; [reflexivity|]. constructor; [|constructor; [|constructor]]; (split; [|reflexivity]);
      (apply wf_struct_iff; split; [reflexivity|]; split; [reflexivity|]; constructor; [|constructor; [|constructor; [|constructor]]]; (split; [|reflexivity]); wf_tac; intros _ s Hs; cbn in Hs;
        repeat (destruct Hs as [Hs|Hs]; [injection Hs as <-; reflexivity|]); contradiction).
  - unfold table. cbn. repeat split; try (repeat constructor; unfold no_neg_zero; cbn; discriminate).
  - unfold fits. split; [apply Z.ltb_lt|apply Z.leb_le]; reflexivity.
Qed.

Definition table_result : result array := run (fun _ => 8) 100 100 table_plan table.
(** The first field of the single chunk it is rechunked to. *)
Example table_compressed :
  exists fls, table_result = Ok (AChunked (adtype table) [AStruct [0; 1; 2] fls 6 VNonNull]) /\
    nth 0 fls (ANull 0) = AChunked (DPrim U32 true) [ADict (ARunEnd (AFoR U64 (APrim U64 [0; 1; 3; 5]%Z VNonNull) 1 0) (APrim U64 [1; 0; 1; 0]%Z VNonNull) VNonNull 0 6) (APrim U32 [0; 7]%Z (VBits [false; true]))].
Proof. eexists. split; vm_compute; reflexivity. Qed.

(** Outside these hypotheses values are lost. *)

(** A column of nulls: its constant form cannot be decoded (constant/canonical.rs:20-63). *)
Theorem compressed_null_column_refuted nb tb tr :
  exists b, run nb tb tr PConst (ANull 3) = Ok b /\ (exists c, canon (ANull 3) = Ok c) /\ canon b = Err.
Proof. eexists. split; [reflexivity|]. split; [eexists; reflexivity|reflexivity]. Qed.
Print Assumptions compressed_null_column_refuted.

(** 0.0 and -0.0 become one constant, or one run. *)
Theorem compressed_negative_zero_refuted nb tb tr :
  let a := APrim F64 [0; 2 ^ 63]%Z VNonNull in
  wf decodable a /\
  (exists b, run nb tb tr PConst a = Ok b /\ scalar_at a 1 = Ok (VInt (2 ^ 63)) /\ scalar_at b 1 = Ok (VInt 0)) /\
  (exists b, run nb tb tr (PRunEnd PKeep PKeep) a = Ok b /\ scalar_at a 0 = Ok (VInt 0) /\ scalar_at b 0 = Ok (VInt (2 ^ 63))).
Proof.
  cbv zeta. split; [wf_tac|]. split; (eexists; split; [vm_compute; reflexivity|]; split; reflexivity).
Qed.
Print Assumptions compressed_negative_zero_refuted.

(** A slice of a sparse array: the offset of its indices is dropped, so compressing fails, or succeeds with misplaced values. *)
Theorem compressed_sparse_slice_refuted nb tb tr :
  let a := ASparse (APrim U64 [3; 5]%Z VNonNull) (APrim I32 [7; 8]%Z VNonNull) 2 4 (VInt 0) in
  let a' := ASparse (APrim U64 [3; 5]%Z VNonNull) (APrim I32 [7; 8]%Z VNonNull) 2 8 (VInt 0) in
  logical a = [VInt 0; VInt 7; VInt 0; VInt 8] /\ run nb tb tr (PSparse PKeep PKeep) a = Err /\
  exists b, run nb tb tr (PSparse PKeep PKeep) a' = Ok b /\ scalar_at a' 1 = Ok (VInt 7) /\ scalar_at b 1 = Ok (VInt 0).
Proof. cbv zeta. split; [reflexivity|]. split; [reflexivity|]. eexists. split; [reflexivity|]. split; reflexivity. Qed.
Print Assumptions compressed_sparse_slice_refuted.

(** A dictionary of binary views that are not UTF-8: the distinct values are decoded as strings, which panics if the column is not
    nullable and makes them null if it is. *)
Theorem compressed_binary_views_refuted nb tb tr :
  let a v := AView false [VInl [255]; VInl [255]; VInl [1]]%Z [] v in
  run nb tb tr (PDict PKeep PKeep) (a VNonNull) = Panic /\
  exists b, run nb tb tr (PDict PKeep PKeep) (a VAllValid) = Ok b /\ adtype (a VAllValid) = DBinary true /\ adtype b = DUtf8 true /\
    scalar_at (a VAllValid) 0 = Ok (VBytes [255%Z]) /\ scalar_at b 0 = Ok VNull.
Proof. cbv zeta. split; [vm_compute; reflexivity|]. eexists. split; [vm_compute; reflexivity|]. repeat split; reflexivity. Qed.
Print Assumptions compressed_binary_views_refuted.
