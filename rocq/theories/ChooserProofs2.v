(** Proofs about the choices of the sampling compressor: structs, chunks and samples. *)
From Verif Require Import Base Spec SearchModel Arr ArrRead ArrWf ArrReadProofs ArrSlice ArrSliceProofs ArrSliceMain ValidityModel PropValidity StatsModel StatsProofs StatsProofs2
  StatsProofs3 PropStats ArrOps OpsBase IntEnc RunEnc DictEnc Sampling PropSampling PropIntEnc PropRead PropOps CmpProofs
  Compressor CompressorSpec CompressorProofs CompressorProofs2 CompressorProofs3 CompressorProofs4 Chooser ChooserProofs.
Local Notation g := decodable.
Local Existing Instance careful_inputs.

Section Codecs.
  Variable nb : array -> nat.
  Variables target_bytes target_rows : nat.
  Variable above_one : ratio -> bool.
  Variable exceeds : ratio -> ratio -> bool.
  Variable long_runs : array -> bool.
  Variable insert : codec -> list codec -> list codec.
  Variable rec : recursion.
  Variable reca : ctx -> array -> result compressed.
  Variables n m : nat.
  Hypothesis rec_fine : forall x k e, small n m e -> tokl (adtype e) k = true -> fine (rec x k e) e.
  Hypothesis reca_fine : forall x e, small n m e -> fine (reca x e) e.
  Hypothesis rec_empty : forall x k e, alen e = 0 -> rec x k e = Ok (uncompressed e).
  Hypothesis Hm : (pmax I32 <= Z.of_nat m)%Z.

  (** * Structs *)
  Lemma fine_fields x fls : forall likes, Forall2 (fun k f => tokl (adtype f) k = true) likes fls -> Forall (small n m) fls ->
    exists fls' ts, c_fields rec x fls likes = Ok (fls', ts) /\ Forall2 same fls fls' /\ Forall2 (fun o f => tokl (adtype f) o = true) ts fls.
  Proof.
    induction fls as [|f fls IH]; intros likes T H; inversion T as [|k ? likes' ? T1 T2]; subst; [exists [], []; repeat split; constructor|].
    inversion H as [|? ? H1 H2]; subst. destruct (rec_fine x k f H1 T1) as (b & t & E & Sm & Tt). destruct (IH likes' T2 H2) as (fls' & ts & E' & S' & T').
    cbn [c_fields]. rewrite E. cbn [bind]. rewrite E'. cbn [bind]. exists (b :: fls'), (t :: ts). split; [reflexivity|]. split; constructor; assumption.
  Qed.
  Lemma F2_map {A B C} (R : A -> B -> Prop) (h : C -> B) l1 l2 : Forall2 R l1 (map h l2) <-> Forall2 (fun x y => R x (h y)) l1 l2.
  Proof.
    revert l2. induction l1 as [|x l1 IH]; intros [|y l2]; cbn [map]; (split; intros H; inversion H; subst; constructor; try assumption; apply IH; assumption).
  Qed.
  Lemma fine_struct like x ns fls k v : let a := AStruct ns fls k v in wf g a -> input_ok a -> k <= n -> sbytes a <= m ->
    tokl (adtype a) like = true -> rooted CStruct like -> fine (c_struct rec like x a) a.
  Proof.
    intros a W C Hn Hb T R. unfold a in *. set (likes := match like with Some (Tree _ ts _) => ts | None => repeat None (length fls) end).
    assert (Forall2 (fun k f => tokl (adtype f) k = true) likes fls) as TL.
    { unfold likes. destruct like as [[c ts mt]|].
      - specialize (R _ eq_refl). cbn in R. subst c. cbn [tokl adtype] in T. apply tok_struct in T. apply F2_map in T. exact T.
      - clear. induction fls as [|f fls IH]; [constructor|]. cbn [length repeat]. constructor; [reflexivity|exact IH]. }
    apply wf_struct_iff in W. destruct W as (W1 & W2 & W3). apply input_struct in C.
    assert (Forall (small n m) fls) as Sm.
    { rewrite Forall_forall in W3, C |- *. intros f Hf. destruct (W3 f Hf) as [V1 V2]. split; [exact V1|]. split; [apply C, Hf|]. split; [lia|].
      cbn [sbytes] in Hb. pose proof (proj1 (list_max_le (map sbytes fls) _) (le_n _)) as F. rewrite Forall_forall in F. specialize (F _ (in_map sbytes _ _ Hf)). lia. }
    destruct (fine_fields x fls likes TL Sm) as (xs & ts & E & Sx & Tx). cbn [c_struct]. fold likes. rewrite E. cbn [bind].
    pose proof (ArrSliceMain.Forall2_length _ _ _ Sx) as Lx.
    assert (Forall (fun x => wf g x /\ alen x = k) xs /\ map logical xs = map logical fls /\ map adtype xs = map adtype fls) as (X1 & X2 & X3).
    { clear - Sx W3. induction Sx as [|c x fls xs Sc Sx IH]; [repeat split; constructor|]. inversion W3 as [|? ? [V1 V2] V3]; subst. destruct (IH V3) as (I1 & I2 & I3).
      pose proof (same_alen _ _ Sc) as Al. destruct Sc as (S1 & S2 & S3 & _). split; [constructor; [split; [exact S1|exact Al]|exact I1]|]. cbn [map]. split; congruence. }
    unfold try_struct. rewrite <- Lx, W1, Nat.eqb_refl. cbn [negb]. rewrite (proj2 (forallb_forall _ _)) by (intros y Hy; apply Nat.eqb_eq; rewrite Forall_forall in X1; apply (X1 y Hy)).
    rewrite (proj2 (vfits_vwf _ _) W2). cbn [negb bind]. eexists _, _. split; [reflexivity|]. split; [|cbn [tokl adtype]; apply tok_struct, F2_map, Tx].
    split; [apply wf_struct_iff; split; [lia|split; assumption]|].
    split; [cbn [logical]; rewrite X2; reflexivity|]. split; [cbn [adtype]; rewrite X3; reflexivity|]. split; [intros _; exact I|exact I].
  Qed.

  (** * Chunks *)
  Lemma fine_chunks x d cs : forall previous, Forall (fun c => small n m c /\ adtype c = d) cs -> (forall q, previous = Some q -> tok d (fst q) = true) ->
    exists cs' last, c_chunk_loop nb above_one exceeds rec reca x previous cs = Ok (cs', last) /\ Forall2 same cs cs' /\ (forall q, last = Some q -> tok d (fst q) = true).
  Proof.
    induction cs as [|c cs IH]; intros previous H T; [exists [], previous; split; [reflexivity|]; split; [constructor|exact T]|].
    inversion H as [|? ? [H1 D] H2]; subst. cbn [c_chunk_loop].
    destruct (rec_fine x (option_map fst previous) c H1) as (b & t & E & Sm & Tt).
    { destruct previous as [q|]; [apply T; reflexivity|reflexivity]. }
    rewrite E. cbn [bind]. cbv zeta. destruct (above_one _ || _).
    - destruct (reca_fine x c H1) as (b' & t' & E' & Sm' & Tt'). rewrite E'. cbn [bind].
      destruct (IH (option_map (fun t0 => (t0, (nb b', nb c))) t') H2) as (cs' & last & El & Sl & Tl).
      { intros q Hq. destruct t' as [u|]; [|discriminate Hq]. injection Hq as <-. exact Tt'. }
      rewrite El. cbn [bind]. exists (b' :: cs'), last. split; [reflexivity|]. split; [constructor; assumption|exact Tl].
    - cbn [bind]. set (pv := match previous with Some q => Some q | None => _ end).
      destruct (IH pv H2) as (cs' & last & El & Sl & Tl).
      { intros q Hq. unfold pv in Hq. destruct previous as [q'|]; [injection Hq as <-; apply T; reflexivity|]. destruct t as [u|]; [|discriminate Hq]. injection Hq as <-. exact Tt. }
      rewrite El. cbn [bind]. exists (b :: cs'), last. split; [reflexivity|]. split; [constructor; assumption|exact Tl].
  Qed.
  Lemma fine_chunked like x d cs : let a := AChunked d cs in wf g a -> input_ok a -> alen a <= n -> sbytes a <= m ->
    tokl d like = true -> rooted CChunked like -> fine (c_chunked nb target_bytes target_rows above_one exceeds rec reca like x a) a.
  Proof.
    intros a W C Hn Hb T R. unfold a in *. pose proof C as C0. apply input_chunked in C. destruct C as [P C]. apply wf_chunked_g in W; [|exact P].
    assert (Forall (inv d) cs) as Iv by (rewrite Forall_forall in *; intros c Hc; destruct (W c Hc), (C c Hc); repeat split; auto).
    assert (exists previous, like_into_parts like = Ok previous /\ forall q, previous = Some q -> tok d (fst q) = true) as (previous & Ep & Tp).
    { destruct like as [[c ts mt]|]; [|exists None; split; [reflexivity|discriminate]]. specialize (R _ eq_refl). cbn in R. subst c. cbn [tokl tok] in T.
      destruct ts as [|[u|] [|o ts]]; try discriminate T.
      - destruct mt as [[r|]|]; try discriminate T. exists (Some (u, r)). split; [reflexivity|]. intros q [= <-]. exact T.
      - destruct mt as [[r|]|]; try discriminate T. exists None. split; [reflexivity|discriminate]. }
    cbn [c_chunked]. rewrite Ep. cbn [bind]. unfold rechunk.
    destruct (rechunk_ok nb target_bytes target_rows d P (sbytes (AChunked d cs)) (alen (AChunked d cs)) cs [] 0 0 ltac:(constructor) Iv) as (cs' & E & O & L).
    { cbn [sbytes map]. change (list_sum []) with 0. lia. }
    { cbn [alen map]. change (list_sum []) with 0. lia. }
    rewrite E. cbn [bind].
    destruct (fine_chunks x d cs' previous) as (xs & last & Ex & Sx & Tl).
    { eapply Forall_impl; [|exact O]. intros c (O1 & O2 & O3 & O4 & O5). split; [|exact O2]. split; [exact O1|]. split; [exact O3|]. lia. }
    { exact Tp. }
    rewrite Ex. cbn [bind].
    assert (Forall (fun x => wf g x /\ adtype x = d) xs /\ map logical xs = map logical cs') as (X1 & X2).
    { clear - Sx O. induction Sx as [|c x cs' xs Sc Sx IH]; [split; constructor|]. inversion O as [|? ? O1 O2]; subst. destruct (IH O2) as (I1 & I2).
      destruct Sc as (S1 & S2 & S3 & _). destruct O1 as (_ & O1 & _). split; [constructor; [split; congruence|exact I1]|]. cbn [map]. congruence. }
    unfold try_chunked. rewrite (proj2 (forallb_forall _ _)) by (intros y Hy; apply dtype_eqb_eq; rewrite Forall_forall in X1; apply (X1 y Hy)). cbn [bind].
    eexists _, _. split; [reflexivity|]. split; [|cbn [tokl tok adtype]; destruct last as [q|]; [cbn; apply Tl; reflexivity|reflexivity]].
    split; [apply wf_chunked_g; assumption|]. split; [cbn [logical]; rewrite X2; exact L|]. split; [reflexivity|]. split; [intros _; exact I|exact I].
  Qed.

  (** * Any codec *)
  Lemma fine_codec c like x a : wf g a -> input_ok a -> alen a <> 0 -> (Z.of_nat (alen a) < pmax U64)%Z -> (Z.of_nat (sbytes a) <= pmax I32)%Z -> S (alen a) <= n ->
    tokl (adtype a) like = true -> rooted c like -> can_compress long_runs c a = true ->
    fine (codec_compress nb target_bytes target_rows above_one exceeds insert rec reca c like x a) a.
  Proof.
    intros W C N Hu Hs Hn T R Ap.
    assert (sbytes a <= m) as Hb by (generalize dependent (pmax I32); intros; lia).
    assert (small n m a) as Sm by (split; [exact W|]; split; [exact C|]; split; [lia|exact Hb]).
    destruct c; cbn [codec_compress].
    - cbn [can_compress] in Ap. apply andb_true_iff in Ap. destruct Ap as [_ Ap]. destruct (s_const (stats_after KConst a)) as [[]|] eqn:E; try discriminate Ap.
      apply const_any; assumption.
    - cbn [can_compress] in Ap. destruct a; try discriminate Ap. apply fine_chunked; try assumption. lia.
    - cbn [can_compress] in Ap. destruct a; try discriminate Ap. apply fine_struct; try assumption. cbn [alen] in Hn. lia.
    - cbn [can_compress] in Ap. destruct a; try discriminate Ap. apply (fine_for rec n m rec_fine rec_empty Hm); assumption.
    - cbn [can_compress] in Ap. destruct a; try discriminate Ap. apply (fine_zigzag rec n m rec_fine rec_empty Hm); assumption.
    - pose proof Ap as Ap'. cbn [can_compress] in Ap'. destruct a; try discriminate Ap'. apply (fine_bit rec n m rec_fine rec_empty Hm long_runs insert); try assumption. intros ->. apply N. reflexivity.
    - cbn [can_compress] in Ap. destruct a; try discriminate Ap. apply (fine_runend rec n m rec_fine rec_empty Hm); try assumption. intros ->. apply N. reflexivity.
    - apply (fine_dict rec n m rec_fine rec_empty Hm long_runs); assumption.
    - cbn [can_compress] in Ap. destruct a; try discriminate Ap. apply (fine_sparse rec n m rec_fine rec_empty Hm); try assumption.
  Qed.
End Codecs.

(** The tree of a result names the codec that made it. *)
Lemma codec_root nb tb tr above_one exceeds insert rec reca c like x a b t :
  codec_compress nb tb tr above_one exceeds insert rec reca c like x a = Ok (b, Some t) -> troot t = c.
Proof.
  Ltac bnd H := match type of H with
    | bind ?r _ = Ok _ => destruct r as [?v| |]; cbn [bind] in H; [|discriminate H|discriminate H]
    | (let '(_, _) := ?p in _) = Ok _ => destruct p
    | (if ?b then _ else _) = Ok _ => destruct b
    | match ?m with _ => _ end = Ok _ => destruct m; try discriminate H
    end.
  intros H. destruct c; cbn [codec_compress] in H; unfold c_const, c_chunked, c_struct, c_for, c_zigzag, c_bit, c_runend, c_dict, c_sparse, leaf, uncompressed in H; cbv zeta in H;
    repeat (first [discriminate H|injection H as <- <-; reflexivity|bnd H]).
Qed.
