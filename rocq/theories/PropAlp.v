(** C23: ALP float compression is lossless up to the sign of zero; operations on ALP arrays. *)
From Coq Require Import Floats.SpecFloat.
From Verif Require Import Base Spec Scalars FloatCast CmpSpec SearchModel SearchProofs Arr ArrRead ArrWf ArrReadProofs ArrSearchProofs ArrSlice ArrSliceProofs ArrSliceMain
  ValidityModel PropValidity IntEnc PropIntEnc RunEnc PropRunEnc PropUnary PropDict ArrOps OpsBase OpsFlat OpsCanon OpsCanon2 OpsCanon3 OpsSparse OpsTake OpsTake2 OpsVarBin OpsFilter
  OpsChunked OpsMain PropRead PropSlice PropOps DateTime StatsModel Compare CmpProofs Alp.

(** * Bit patterns *)

Lemma alp_sign p : p = F32 \/ p = F64 -> (0 < sign_bit p)%Z /\ (0 < CmpSpec.inf_bits p < sign_bit p)%Z /\ pmin p = 0%Z /\ (pmax p = 2 * sign_bit p - 1)%Z.
Proof. intros [-> | ->]; vm_compute; repeat split; congruence. Qed.
(** Floats that compare equal have the same bits, zeros aside. *)
Lemma feqb_bits p x z : p = F32 \/ p = F64 -> (0 <= x)%Z -> in_range p z -> feqb p x z = true -> z <> 0%Z -> z <> minus_zero p -> x = z.
Proof.
  intros P X R E N1 N2. destruct (alp_sign p P) as (S1 & S2 & M1 & M2). unfold in_range in R. rewrite M1, M2 in R. unfold minus_zero in N2. unfold feqb, ieee_cmp, CmpSpec.is_nan, float_key, magnitude, is_neg in E.
  set (s := sign_bit p) in *. set (i := CmpSpec.inf_bits p) in *. clearbody s i.
  destruct (Z.leb_spec s x), (Z.leb_spec s z).
  all: try (match type of E with context [((?a <? ?b) || (?c <? ?d))%Z] => destruct (Z.ltb_spec a b); [discriminate E|]; destruct (Z.ltb_spec c d); [discriminate E|] end).
  all: cbn [orb] in E; match type of E with context [(?a ?= ?b)%Z] => destruct (Z.compare_spec a b) as [C|C|C] end; try discriminate E; lia.
Qed.

(** The result of rounding has no exponent below the smallest one. *)
Lemma shr_fexp_emin prec emax m e l : (emin prec emax <= snd (shr_fexp prec emax m e l))%Z.
Proof.
  unfold shr_fexp, shr. set (n := (fexp prec emax (Zdigits2 m + e) - e)%Z). assert (emin prec emax <= fexp prec emax (Zdigits2 m + e))%Z as H by (unfold fexp; lia).
  destruct n as [|q|q] eqn:E; cbn [snd]; lia.
Qed.
Lemma round_aux_emin prec emax s m e l s' k e' : binary_round_aux prec emax s m e l = S754_finite s' k e' -> (emin prec emax <= e')%Z.
Proof.
  unfold binary_round_aux. destruct (shr_fexp prec emax m e l) as [mrs' e1]. intros H.
  match type of H with (let '(_, _) := ?t in _) = _ => pose proof (eq_refl t) as Q; destruct t as [mrs'' e2] eqn:E2 in H, Q end.
  match type of E2 with ?t = _ => assert (emin prec emax <= snd t)%Z as L by apply shr_fexp_emin; rewrite E2 in L; cbn [snd] in L end.
  destruct (shr_m mrs''); [discriminate H| |discriminate H]. destruct (e2 <=? emax - prec)%Z; [|discriminate H]. injection H as _ _ <-. exact L.
Qed.
Lemma fmul_emin p x y s k e : fmul p x y = S754_finite s k e -> (femin p <= e)%Z.
Proof.
  intros H. assert (femin p = emin (fprec p) (femax p)) as -> by reflexivity. unfold fmul, SFmul in H.
  destruct x, y; try discriminate H; eapply round_aux_emin; exact H.
Qed.
Lemma to_bits_nonneg p x y : p = F32 \/ p = F64 -> (0 <= to_bits p (fmul p x y))%Z.
Proof.
  intros P. destruct (alp_sign p P) as (S1 & S2 & _). assert (0 < 2 ^ mantissa p)%Z as M by (destruct P as [-> | ->]; reflexivity).
  assert (0 <= 2 ^ (mantissa p - 1))%Z as M1 by (destruct P as [-> | ->]; vm_compute; congruence).
  destruct (fmul p x y) as [s|s| |s k e] eqn:E; cbn [to_bits]; [destruct s; lia|destruct s; lia|lia|].
  apply fmul_emin in E. assert (0 <= (e - femin p + 1) * 2 ^ mantissa p)%Z as Q by (apply Z.mul_nonneg_nonneg; lia).
  set (w := (2 ^ mantissa p)%Z) in *. set (y' := ((e - femin p + 1) * w)%Z) in *. clearbody y' w. destruct (Z.ltb_spec (Zpos k) w); destruct s; lia.
Qed.
Lemma alp_dec_nonneg p e f n : p = F32 \/ p = F64 -> (0 <= alp_dec p e f n)%Z.
Proof. apply to_bits_nonneg. Qed.

(** The tables hold positive floats. *)
Lemma f10_pos p k : p = F32 \/ p = F64 -> k < table_len p -> exists m e, f10 p k = S754_finite false m e.
Proof. intros [-> | ->] H; cbn [table_len] in H; do 24 (destruct k as [|k]; [eexists; eexists; vm_compute; reflexivity|try lia]); lia. Qed.
Lemma if10_pos p k : p = F32 \/ p = F64 -> k < table_len p -> exists m e, if10 p k = S754_finite false m e.
Proof. intros [-> | ->] H; cbn [table_len] in H; do 24 (destruct k as [|k]; [eexists; eexists; vm_compute; reflexivity|try lia]); lia. Qed.
Lemma exps_lt p e f : exps_ok p e f = true -> e < table_len p /\ f < table_len p.
Proof. unfold exps_ok. intros H. apply andb_true_iff in H. rewrite !Nat.ltb_lt in H. exact H. Qed.

(** Both zeros are encoded as 0, and 0 is decoded as +0.0. *)
Lemma enc_zero p e f z : p = F32 \/ p = F64 -> exps_ok p e f = true -> z = 0%Z \/ z = minus_zero p -> alp_enc p e f z = 0%Z.
Proof.
  intros P E Z0. apply exps_lt in E. destruct E as [E1 E2]. destruct (f10_pos p e P E1) as (m & x & A). destruct (if10_pos p f P E2) as (m' & x' & B).
  unfold alp_enc. rewrite A, B. assert (exists s, of_bits p z = S754_zero s) as (s & ->) by (destruct P as [-> | ->], Z0 as [-> | ->]; eexists; reflexivity).
  cbn [fmul SFmul]. unfold fmul. cbn [SFmul]. unfold fast_round. destruct P as [-> | ->]; destruct s; reflexivity.
Qed.
Lemma dec_zero p e f : p = F32 \/ p = F64 -> exps_ok p e f = true -> alp_dec p e f 0 = 0%Z.
Proof.
  intros P E. apply exps_lt in E. destruct E as [E1 E2]. destruct (f10_pos p f P E2) as (m & x & A). destruct (if10_pos p e P E1) as (m' & x' & B).
  unfold alp_dec. rewrite A, B. cbn [binary_normalize]. unfold fmul. cbn [SFmul xorb to_bits]. reflexivity.
Qed.
(** An unpatched value is decoded to itself, or to +0.0. *)
Lemma dec_enc p e f z : p = F32 \/ p = F64 -> exps_ok p e f = true -> in_range p z -> alp_bad p e f z = false ->
  VInt (alp_dec p e f (alp_enc p e f z)) = drop_zero_sign p (VInt z).
Proof.
  intros P E R B. cbn [drop_zero_sign]. destruct (Z.eqb_spec z (minus_zero p)) as [->|N].
  { rewrite enc_zero, dec_zero by auto. reflexivity. }
  destruct (Z.eq_dec z 0) as [->|N0]. { rewrite enc_zero, dec_zero by auto. reflexivity. }
  f_equal. apply (feqb_bits p); auto; [apply alp_dec_nonneg; exact P|]. unfold alp_bad in B. apply negb_false_iff in B. exact B.
Qed.
(** A patched value is not a zero. *)
Lemma bad_not_zero p e f z : p = F32 \/ p = F64 -> exps_ok p e f = true -> alp_bad p e f z = true -> drop_zero_sign p (VInt z) = VInt z.
Proof.
  intros P E B. cbn [drop_zero_sign]. destruct (Z.eqb_spec z (minus_zero p)) as [->|N]; [|reflexivity]. exfalso.
  unfold alp_bad in B. rewrite enc_zero, dec_zero in B by auto. destruct P as [-> | ->]; discriminate B.
Qed.

Lemma as_int_range q x : (pmin q <= 0 <= pmax q)%Z -> in_range q (as_int q x).
Proof. intros H. unfold in_range, as_int. destruct x as [s|s| |s m e]; cbn [truncate]; try (destruct s); lia. Qed.
Lemma alp_enc_range p e f z : p = F32 \/ p = F64 -> in_range (alp_int p) (alp_enc p e f z).
Proof. intros P. apply as_int_range. destruct P as [-> | ->]; vm_compute; split; congruence. Qed.

(** * The encoder *)

Section Encoder.
  Variable bad : Z -> bool.

  Lemma chunk_patches_app i a b : chunk_patches bad i (a ++ b) = chunk_patches bad i a ++ chunk_patches bad (i + length a) b.
  Proof.
    revert i; induction a as [|x a IH]; intros i; cbn [app chunk_patches length]; [rewrite Nat.add_0_r; reflexivity|].
    rewrite IH. replace (i + S (length a)) with (S i + length a) by lia. destruct (bad x); reflexivity.
  Qed.
  Lemma chunk_patches_pos i l : map fst (chunk_patches bad i l) = map (fun k => i + k) (set_indices (map bad l)).
  Proof.
    revert i; induction l as [|x l IH]; intros i; [reflexivity|]. cbn [chunk_patches map]. rewrite set_indices_cons, map_app, map_map.
    assert (map (fun x0 => i + S x0) (set_indices (map bad l)) = map fst (chunk_patches bad (S i) l)) as ->.
    { rewrite IH. apply map_ext. intros k. lia. }
    destruct (bad x); cbn [map app fst]; rewrite ?Nat.add_0_r; reflexivity.
  Qed.
  Lemma chunk_patches_vals i l : map snd (chunk_patches bad i l) = spec_filter l (map bad l).
  Proof. revert i; induction l as [|x l IH]; intros i; [reflexivity|]. cbn [chunk_patches map spec_filter]. destruct (bad x); cbn [map snd]; rewrite IH; reflexivity. Qed.
  Lemma chunk_patches_length i l : length (chunk_patches bad i l) <= length l.
  Proof. revert i; induction l as [|x l IH]; intros i; cbn [chunk_patches length]; [lia|]. specialize (IH (S i)). destruct (bad x); cbn [length]; lia. Qed.
  Lemma chunk_patches_all i l : length l <= length (chunk_patches bad i l) -> Forall (fun z => bad z = true) l.
  Proof.
    revert i; induction l as [|x l IH]; intros i H; [constructor|]. cbn [chunk_patches length] in H. pose proof (chunk_patches_length (S i) l) as Q.
    destruct (bad x) eqn:B; cbn [length] in H; [|lia]. constructor; [exact B|]. apply (IH (S i)). lia.
  Qed.
  Lemma chunk_patches_full i l : Forall (fun z => bad z = true) l -> length (chunk_patches bad i l) = length l.
  Proof. intros F; revert i; induction F as [|x l B F IH]; intros i; [reflexivity|]. cbn [chunk_patches]. rewrite B. cbn [length]. rewrite IH. reflexivity. Qed.

  Variable enc1 : Z -> Z.
  Variable R : Z -> Prop.
  Hypothesis HR : forall z, R (enc1 z).
  Lemma find_fill_ok enc pos : forall k i, i + k = length enc -> Forall R enc ->
    match find_fill enc pos i k with Some x => R x | None => k = 0 \/ length enc <= length pos end.
  Proof.
    induction k as [|k IH]; intros i H F; cbn [find_fill]; [auto|].
    destruct ((length pos <=? i) || negb (nth i pos 0 =? i)) eqn:E.
    - destruct (nth_error enc i) as [x|] eqn:N; [|apply nth_error_None in N; lia]. rewrite Forall_forall in F. apply F. eapply nth_error_In; exact N.
    - apply orb_false_iff in E. destruct E as [E _]. apply Nat.leb_gt in E. specialize (IH (S i) ltac:(lia) F). destruct (find_fill enc pos (S i) k); [exact IH|].
      right. destruct IH as [-> |IH]; lia.
  Qed.
  Lemma fill_fold x pos : forall l, Forall (fun i => i < length l) pos -> Forall R l -> R x ->
    let r := fold_left (fun l i => list_set l i x) pos l in
    length r = length l /\ Forall R r /\ forall j, ~ In j pos -> nth j r 0%Z = nth j l 0%Z.
  Proof.
    induction pos as [|i pos IH]; intros l HB F Rx; cbn [fold_left]; [auto|]. inversion HB as [|? ? Hi HB']; subst.
    destruct (IH (list_set l i x)) as (A & B & C).
    - rewrite list_set_length. exact HB'.
    - apply Forall_forall. intros y Hy. apply (In_nth _ _ 0%Z) in Hy. destruct Hy as (k & Hk & <-). rewrite list_set_length in Hk. rewrite nth_list_set by exact Hi.
      destruct (k =? i); [exact Rx|]. rewrite Forall_forall in F. apply F, nth_In. exact Hk.
    - exact Rx.
    - cbv zeta. rewrite list_set_length in A. split; [exact A|]. split; [exact B|]. intros j Hj. cbn [In] in Hj. rewrite C by tauto. rewrite nth_list_set by exact Hi.
      destruct (Nat.eqb_spec j i); [subst; tauto|reflexivity].
  Qed.

  (** After the values [D]. *)
  Definition enc_inv (D : list Z) (st : enc_state) : Prop :=
    length (es_enc st) = length D /\ es_pos st = map fst (chunk_patches bad 0 D) /\ es_vals st = map snd (chunk_patches bad 0 D) /\
    Forall R (es_enc st) /\ (forall i, i < length D -> bad (nth i D 0%Z) = false -> nth i (es_enc st) 0%Z = enc1 (nth i D 0%Z)) /\
    match es_fill st with Some x => R x | None => Forall (fun z => bad z = true) D end.

  Lemma patch_pos_bad D i : In i (map fst (chunk_patches bad 0 D)) -> i < length D /\ bad (nth i D 0%Z) = true.
  Proof.
    rewrite chunk_patches_pos. intros H. apply in_map_iff in H. destruct H as (k & <- & H). cbn [Nat.add]. unfold set_indices in H. apply filter_In in H. destruct H as [H1 H2].
    apply in_seq in H1. rewrite map_length in H1. rewrite (map_nth_lt bad D 0%Z) in H2 by lia. split; [lia|exact H2].
  Qed.

  Lemma encode_chunk_inv D st chunk : enc_inv D st -> exists st', encode_chunk enc1 bad st chunk = Ok st' /\ enc_inv (D ++ chunk) st'.
  Proof.
    intros (L & P & V & F & N & FI). unfold encode_chunk. rewrite L. set (cp := chunk_patches bad (length D) chunk).
    set (enc := es_enc st ++ map enc1 chunk). set (pos := es_pos st ++ map fst cp). set (vals := es_vals st ++ map snd cp).
    assert (pos = map fst (chunk_patches bad 0 (D ++ chunk))) as EP by (unfold pos; rewrite P, chunk_patches_app, map_app; reflexivity).
    assert (vals = map snd (chunk_patches bad 0 (D ++ chunk))) as EV by (unfold vals; rewrite V, chunk_patches_app, map_app; reflexivity).
    assert (length enc = length D + length chunk) as LE by (unfold enc; rewrite app_length, map_length, L; reflexivity).
    assert (Forall R enc) as FE. { unfold enc. apply Forall_app. split; [exact F|]. apply Forall_map, Forall_forall. intros z _. apply HR. }
    assert (forall i, i < length (D ++ chunk) -> bad (nth i (D ++ chunk) 0%Z) = false -> nth i enc 0%Z = enc1 (nth i (D ++ chunk) 0%Z)) as NE.
    { intros i Hi B. rewrite app_length in Hi. unfold enc. destruct (Nat.lt_ge_cases i (length D)) as [Q|Q].
      - rewrite !app_nth1 in * by (rewrite ?L; exact Q). auto.
      - rewrite !app_nth2 by lia. rewrite L. apply (map_nth_lt enc1 chunk 0%Z). lia. }
    set (fr := match es_fill st with
              | None => if length D + length cp <? length enc then if length D =? length (es_pos st) then Ok (find_fill enc pos (length D) (length chunk)) else Panic else Ok None
              | Some x => Ok (Some x) end).
    assert (exists fill, fr = Ok fill /\ match fill with Some x => R x | None => Forall (fun z => bad z = true) (D ++ chunk) end) as (fill & EF & HF).
    { unfold fr. destruct (es_fill st) as [x|]; [eauto|]. pose proof (chunk_patches_full 0 D FI) as LP. rewrite P, map_length, LP, Nat.eqb_refl.
      destruct (Nat.ltb_spec (length D + length cp) (length enc)) as [Q|Q].
      - eexists. split; [reflexivity|]. pose proof (find_fill_ok enc pos (length chunk) (length D) ltac:(lia) FE) as G. destruct (find_fill _ _ _ _); [exact G|].
        exfalso. assert (length pos = length D + length cp) as LPos by (unfold pos; rewrite P, app_length, !map_length, LP; reflexivity). lia.
      - eexists. split; [reflexivity|]. cbv beta. apply Forall_app. split; [exact FI|]. apply (chunk_patches_all (length D)). fold cp. lia. }
    rewrite EF. cbn [bind]. eexists. split; [reflexivity|]. unfold enc_inv. cbn [es_enc es_pos es_vals es_fill]. rewrite app_length.
    assert (forall s, Forall (fun i => i < length enc) (skipn s pos) /\ forall j, j < length (D ++ chunk) -> bad (nth j (D ++ chunk) 0%Z) = false -> ~ In j (skipn s pos)) as HP.
    { intros s. assert (forall i, In i (skipn s pos) -> i < length (D ++ chunk) /\ bad (nth i (D ++ chunk) 0%Z) = true) as HI.
      { intros i Hi. apply patch_pos_bad. rewrite <- EP. rewrite <- (firstn_skipn s pos). apply in_or_app. right. exact Hi. }
      split; [apply Forall_forall; intros i Hi; destruct (HI i Hi) as [A _]; rewrite app_length in A; lia|].
      intros j _ B Hj. destruct (HI j Hj) as [_ C]. congruence. }
    destruct fill as [x|].
    - destruct (HP (match es_fill st with Some _ => length (es_pos st) | None => 0 end)) as [B1 B2]. destruct (fill_fold x _ enc B1 FE HF) as (G1 & G2 & G3).
      split; [lia|]. split; [exact EP|]. split; [exact EV|]. split; [exact G2|]. split; [|exact HF]. intros i Hi B. rewrite <- app_length in Hi. rewrite G3 by (apply B2; auto). auto.
    - split; [lia|]. split; [exact EP|]. split; [exact EV|]. split; [exact FE|]. split; [|exact HF]. intros i Hi B. rewrite <- app_length in Hi. auto.
  Qed.
  Lemma encode_chunks_inv cs : forall D st, enc_inv D st -> exists st', foldM (encode_chunk enc1 bad) st cs = Ok st' /\ enc_inv (D ++ concat cs) st'.
  Proof.
    induction cs as [|c cs IH]; intros D st H; cbn [foldM concat]; [rewrite app_nil_r; eauto|].
    destruct (encode_chunk_inv D st c H) as (st' & -> & H'). cbn [bind]. rewrite app_assoc. apply IH. exact H'.
  Qed.
End Encoder.
Lemma chunks_concat n fuel : forall l, 0 < n -> length l <= fuel -> concat (chunks_of fuel n l) = l.
Proof.
  induction fuel as [|k IH]; intros [|x l] Hn H; cbn [chunks_of length] in *; try reflexivity; [lia|]. cbn [concat]. rewrite IH; [apply firstn_skipn|exact Hn|].
  rewrite skipn_length. cbn [length]. lia.
Qed.
Lemma encode_with_ok p e f l : p = F32 \/ p = F64 -> exps_ok p e f = true ->
  exists st, encode_with p e f l = Ok st /\ enc_inv (alp_bad p e f) (alp_enc p e f) (in_range (alp_int p)) l st.
Proof.
  intros P E. unfold encode_with. rewrite E. cbn [negb andb].
  destruct (encode_chunks_inv (alp_bad p e f) (alp_enc p e f) (in_range (alp_int p)) (fun z => alp_enc_range p e f z P) (chunks_of (length l) (Z.to_nat (chunk_size p)) l) [] (ES [] [] [] None)) as (st & E1 & H).
  { unfold enc_inv. cbn [es_enc es_pos es_vals es_fill length]. repeat split; auto; lia. }
  exists st. split; [exact E1|]. rewrite chunks_concat in H; [exact H| |lia]. destruct P as [-> | ->]; cbn [chunk_size]; lia.
Qed.
Lemma best_exponents_ok p l : p = F32 \/ p = F64 -> exists e f, find_best_exponents p l = Ok (e, f) /\ exps_ok p e f = true.
Proof.
  intros P. unfold find_best_exponents.
  assert (Forall (fun ef => exps_ok p (fst ef) (snd ef) = true) (candidates p)) as HC.
  { apply Forall_forall. intros [e f] H. unfold candidates in H. apply in_flat_map in H. destruct H as (e' & H1 & H2). apply in_map_iff in H2. destruct H2 as (f' & H2 & H3).
    injection H2 as -> ->. apply in_rev in H1. apply in_seq in H1, H3. cbn [fst snd]. unfold exps_ok. destruct P as [-> | ->]; cbn [max_exponent] in H1; cbn [table_len];
      rewrite !(proj2 (Nat.ltb_lt _ _)) by lia; reflexivity. }
  assert (forall cs b, Forall (fun ef => exps_ok p (fst ef) (snd ef) = true) cs -> exps_ok p (fst (fst b)) (snd (fst b)) = true ->
    exists b', foldM (best_step p (sample_of l)) b cs = Ok b' /\ exps_ok p (fst (fst b')) (snd (fst b')) = true) as G.
  { intros cs. induction cs as [|[e f] cs IH]; intros [[be bf] bn] HC' HB; cbn [foldM]; [eauto|]. inversion HC' as [|? ? H1 H2]; subst. cbn [fst snd] in *.
    unfold best_step. destruct (encode_with_ok p e f (sample_of l) P H1) as (st & -> & _). cbn [bind].
    destruct bn as [b|]; [|apply IH; auto]. destruct (_ <? b)%Z; [apply IH; auto|]. destruct ((_ =? b)%Z && _); apply IH; auto. }
  destruct (G (candidates p) (0, 0, None) HC) as ([[e f] bn] & -> & H).
  { destruct P as [-> | ->]; reflexivity. }
  cbn [bind fst]. eauto.
Qed.

(** A sparse array of the values at the set positions, null elsewhere. *)
Lemma patches_scatter g p bs vals : (p = F32 \/ p = F64) -> (Z.of_nat (length bs) <= pmax U64)%Z -> Forall (in_range p) vals -> length vals = count id bs ->
  (fT g = true \/ fN g = true \/ fF g = true -> fT g = true /\ fC g = true) ->
  exists i v, let b := ASparse i v 0 (length bs) VNull in
    try_sparse (APrim U64 (map Z.of_nat (set_indices bs)) VNonNull) (APrim p vals VAllValid) (length bs) 0 VNull = Ok b /\ wf g b /\ adtype b = DPrim p true /\
    logical b = tab (length bs) (fun i => if nth i bs false then VInt (nth (rank bs i) vals 0%Z) else VNull).
Proof.
  intros P HL W AL HT. set (fi := map Z.of_nat (set_indices bs)).
  assert (length fi = length vals) as LF by (unfold fi; rewrite map_length, set_indices_length, AL; reflexivity).
  assert (forall z, In z fi -> (0 <= z < Z.of_nat (length bs))%Z) as FB.
  { intros z Hz. unfold fi in Hz. apply in_map_iff in Hz. destruct Hz as (i & <- & Hi). pose proof (set_indices_lt bs) as Q. rewrite Forall_forall in Q. specialize (Q i Hi). cbv beta in Q. lia. }
  assert (Forall (in_range U64) fi) as FR.
  { apply Forall_forall. intros z Hz. specialize (FB z Hz). unfold in_range. change (pmin U64) with 0%Z. clear - FB HL. set (pm := pmax U64) in *. clearbody pm. lia. }
  assert (logical (APrim U64 fi VNonNull) = map VInt fi) as LP.
  { cbn [logical vvalid]. symmetry. apply (map_ext_nth_tab VInt fi 0%Z). }
  assert (ints (map VInt fi) = fi) as IO by (unfold ints; rewrite map_map; apply map_id).
  exists (APrim U64 fi VNonNull), (APrim p vals VAllValid). cbv zeta. split.
  { unfold try_sparse. change (dtype_eqb (adtype (APrim U64 fi VNonNull)) (DPrim U64 false)) with true. change (instance_of VNull (adtype (APrim p vals VAllValid))) with true. cbn [negb].
    change (alen (APrim U64 fi VNonNull)) with (length fi). change (alen (APrim p vals VAllValid)) with (length vals). rewrite LF, Nat.eqb_refl. cbn [negb].
    destruct (Nat.eqb_spec (length vals) 0) as [E0|N0]; [reflexivity|].
    unfold scalar_at. rewrite (rd_scalar_at_ (APrim U64 fi VNonNull)) by (first [apply (reads_ok (APrim U64 fi VNonNull) f0); cbn [wf vwf]; auto|cbn [alen]; lia]).
    rewrite LP. cbn [bind]. rewrite (map_nth_lt VInt fi 0%Z) by lia. cbn [to_usize].
    assert (In (nth (length vals - 1) fi 0%Z) fi) as HIn by (apply nth_In; lia). specialize (FB _ HIn).
    rewrite (proj2 (Z.leb_le _ _)) by lia. cbn [bind].
    destruct (Nat.ltb_spec (Z.to_nat (nth (length vals - 1) fi 0%Z)) 0); [lia|]. rewrite Nat.sub_0_r.
    destruct (Nat.leb_spec (length bs) (Z.to_nat (nth (length vals - 1) fi 0%Z))); [lia|]. reflexivity. }
  assert (non_null (logical (APrim p vals VAllValid))) as NN.
  { cbn [logical vvalid]. apply Forall_forall. intros x Hx. unfold tab in Hx. apply in_map_iff in Hx. destruct Hx as (k & <- & _). discriminate. }
  split.
  { cbn [wf]. rewrite LP, IO. change (alen (APrim U64 fi VNonNull)) with (length fi). change (alen (APrim p vals VAllValid)) with (length vals). rewrite LF.
    cbn [adtype vnullable Nat.add is_bool is_prim orb nullable flat vtyped].
    split; [split; [exact FR|exact I]|]. split; [split; [exact W|exact I]|]. split; [reflexivity|]. split; [reflexivity|]. split; [split; [exact I|intros _ z; discriminate]|]. split; [apply set_indices_sorted|].
    split. { apply Forall_forall. intros z Hz. specialize (FB z Hz). lia. }
    split; [exact HL|]. split; [reflexivity|]. split; [reflexivity|]. split; [auto|]. split; [auto|].
    intros H. destruct (HT H). auto. }
  split; [reflexivity|].
  change (logical (ASparse (APrim U64 fi VNonNull) (APrim p vals VAllValid) 0 (length bs) VNull)) with
      (tab (length bs) (fun i => match pos_of (Z.of_nat (0 + i)) (ints (logical (APrim U64 fi VNonNull))) with Some k => nth k (logical (APrim p vals VAllValid)) VNull | None => VNull end)).
  rewrite LP, IO. apply tab_ext. intros i Hi. cbn [Nat.add]. pose proof (pos_of_set_indices bs i Hi) as Q. fold fi in Q. destruct (pos_of (Z.of_nat i) fi) as [k|].
  - destruct Q as (B & K1 & K2). rewrite B. destruct (set_indices_nth bs k K1) as [_ RK]. rewrite K2 in RK. rewrite nth_prim by (rewrite set_indices_length in K1; lia). cbn [vvalid]. rewrite RK. reflexivity.
  - rewrite Q. reflexivity.
Qed.

(** * Theorems *)

(** Encoding any f32 or f64 array, with exponents found by sampling or given by the caller (inside the tables), stores for every row
    the same bits, except that -0.0 is stored as +0.0. *)
Theorem alp_encode_keeps_values :
  forall (g : flags) (p : ptype) (l : list Z) (v : validity) (exps : option (nat * nat)),
  (p = F32 \/ p = F64) -> wf g (APrim p l v) -> (Z.of_nat (length l) <= pmax U64)%Z ->
  match exps with Some (e, f) => exps_ok p e f = true | None => True end ->
  (fT g = true \/ fN g = true \/ fF g = true -> fT g = true /\ fC g = true) ->
  exists a, alp_encode (APrim p l v) exps = Ok a /\
    alp_holds g p (vnullable v) a (map (drop_zero_sign p) (logical (APrim p l v))).
Proof.
  intros g p l v exps P W HL HE HT. unfold alp_encode.
  assert (negb (match p with F32 | F64 => true | _ => false end) = false) as -> by (destruct P as [-> | ->]; reflexivity).
  assert (exists e f, match exps with Some x => Ok x | None => find_best_exponents p l end = Ok (e, f) /\ exps_ok p e f = true) as (e & f & E1 & E2).
  { destruct exps as [[e f]|]; [eauto|apply best_exponents_ok; exact P]. }
  rewrite E1. cbn [bind]. destruct (encode_with_ok p e f l P E2) as (st & E3 & (I1 & I2 & I3 & I4 & I5 & _)). rewrite E3. cbn [bind]. destruct W as [WR WV].
  set (bs := map (alp_bad p e f) l). assert (length bs = length l) as Lb by (unfold bs; apply map_length).
  assert (es_pos st = set_indices bs) as EP. { rewrite I2, chunk_patches_pos. unfold bs. rewrite map_id. reflexivity. }
  assert (es_vals st = spec_filter l bs) as EV by (rewrite I3, chunk_patches_vals; reflexivity).
  assert (spec_filter l bs = map (fun i => nth i l 0%Z) (set_indices bs)) as EG by (apply spec_filter_gather; lia).
  assert (try_prim (alp_int p) (es_enc st) v = Ok (APrim (alp_int p) (es_enc st) v)) as ET. { unfold try_prim. rewrite (proj2 (vfits_vwf _ _)) by (rewrite I1; exact WV). reflexivity. }
  rewrite ET. cbn [expect bind].
  assert (alp_type (APrim (alp_int p) (es_enc st) v) = Ok (p, vnullable v)) as EY by (destruct P as [-> | ->]; reflexivity).
  assert (adtype (APrim (alp_int p) (es_enc st) v) = DPrim (alp_int p) (vnullable v)) as ED by reflexivity.
  destruct (patches_scatter g p bs (spec_filter l bs) P) as (qi & qv & S1 & S2 & S3 & S4).
  { rewrite Lb. exact HL. }
  { rewrite EG. apply Forall_map. eapply Forall_impl; [|apply set_indices_lt]. intros i Hi. cbv beta in *. rewrite Lb in Hi. apply (Forall_nth_lt _ _ 0%Z i WR Hi). }
  { rewrite EG, map_length, set_indices_length. reflexivity. }
  { exact HT. }
  set (q := match es_vals st with [] => None | _ => Some (ASparse qi qv 0 (length bs) VNull) end).
  assert (match es_vals st with [] => Ok None | _ => do s <- expect (try_sparse (APrim U64 (map Z.of_nat (es_pos st)) VNonNull) (APrim p (es_vals st) VAllValid) (length (es_enc st)) 0 VNull); Ok (Some s) end = Ok q) as EQ.
  { unfold q. rewrite EP, I1, <- Lb. rewrite <- EV in S1. destruct (es_vals st); [reflexivity|]. rewrite S1. reflexivity. }
  rewrite EQ. cbn [bind]. exists (ALP (APrim (alp_int p) (es_enc st) v) e f q). split.
  { unfold try_alp. rewrite EY. cbn [bind]. unfold q. destruct (es_vals st); [reflexivity|]. rewrite S3, dtype_eqb_refl. change (alen (ASparse qi qv 0 (length bs) VNull)) with (length bs). change (alen (APrim (alp_int p) (es_enc st) v)) with (length (es_enc st)). rewrite Lb, I1, Nat.eqb_refl. reflexivity. }
  unfold alp_holds. cbn [l_enc l_e l_f l_patches]. rewrite map_length, !prim_len. split; [exact P|]. split; [exact E2|].
  split; [split; [exact I4|rewrite I1; exact WV]|]. split; [exact ED|]. split; [exact I1|]. split.
  { unfold q. destruct (es_vals st); [exact I|]. unfold patches_ok. rewrite <- Lb. eauto 10. }
  intros i Hi. rewrite (map_nth_lt (drop_zero_sign p) _ VNull) by (rewrite prim_len; exact Hi). rewrite !nth_prim by (rewrite ?I1; exact Hi). unfold patch_at. cbn [l_patches].
  destruct (vvalid v i) eqn:Vi; [|reflexivity]. cbn [alp_row]. pose proof (Forall_nth_lt _ _ 0%Z i WR Hi) as Rz. cbv beta in Rz.
  destruct (alp_bad p e f (nth i l 0%Z)) eqn:B.
  - rewrite (bad_not_zero p e f _ P E2 B).
    assert (q = Some (ASparse qi qv 0 (length bs) VNull)) as ->.
    { unfold q. destruct (es_vals st) eqn:EE; [|reflexivity]. exfalso. assert (In i (set_indices bs)) as HIn.
      { unfold set_indices. apply filter_In. split; [apply in_seq; lia|]. unfold bs. rewrite (map_nth_lt _ l 0%Z) by exact Hi. exact B. }
      symmetry in EV. rewrite EG in EV. destruct (set_indices bs); [destruct HIn|discriminate EV]. }
    rewrite S4, nth_tab by lia. assert (nth i bs false = true) as Bi by (unfold bs; rewrite (map_nth_lt _ l 0%Z) by exact Hi; exact B). rewrite Bi. f_equal.
    pose proof (pos_of_set_indices bs i ltac:(lia)) as Q. destruct (pos_of _ _) as [k|]; [|congruence]. destruct Q as (_ & K1 & K2). destruct (set_indices_nth bs k K1) as [_ RK]. rewrite K2 in RK. rewrite RK, EG.
    rewrite (map_nth_lt _ (set_indices bs) 0) by exact K1. rewrite K2. reflexivity.
  - rewrite (I5 i Hi B), (dec_enc p e f _ P E2 Rz B).
    assert (match q with Some q0 => nth i (logical q0) VNull | None => VNull end = VNull) as ->; [|reflexivity].
    unfold q. destruct (es_vals st); [reflexivity|]. rewrite S4, nth_tab by lia. assert (nth i bs false = false) as -> by (unfold bs; rewrite (map_nth_lt _ l 0%Z) by exact Hi; exact B). reflexivity.
Qed.
Print Assumptions alp_encode_keeps_values.

Lemma sparse_patches g p n q : patches_ok g p n q -> fc g = true -> fC g = true ->
  exists idx vals off xs w, q = ASparse idx vals off n VNull /\ resolved_indices (canon idx) off = Ok (rel_pos (ints (logical idx)) off) /\
    into_prim (canon vals) = Ok (p, xs, w) /\ length xs = length (ints (logical idx)) /\
    ssortedZ (ints (logical idx)) /\ Forall (fun z => (Z.of_nat off <= z < Z.of_nat (off + n))%Z) (ints (logical idx)) /\
    forall i, i < n -> nth i (logical q) VNull = match pos_of (Z.of_nat (off + i)) (ints (logical idx)) with Some k => VInt (nth k xs 0%Z) | None => VNull end.
Proof.
  intros (W & T & idx & vals & off & ->) C CC. pose proof W as W'. cbn [wf] in W'. destruct W' as (W1 & W2 & W3 & W4 & W5 & W6 & W7 & W8 & W9 & W10 & W11 & _).
  cbn [adtype] in T. destruct (canon_prim (sliceable g) vals p true W2 C CC T) as (xs & w & E1 & N1 & _ & V1 & L1).
  exists idx, vals, off, xs, w. split; [reflexivity|]. split.
  { pose proof (g_canon _ _ (ops_correct (depth idx) idx (le_n _)) (sliceable g) W1 C) as H. fold (canon idx) in H.
    pose proof (resolved_ok (sliceable g) idx (canon idx) off n H W3 W7) as Q. unfold outc in Q.
    destruct (resolved_indices (canon idx) off) as [x| |]; [f_equal; exact Q|contradiction (Q CC)|contradiction (Q CC)]. }
  assert (length xs = alen vals) as LX by (rewrite <- (prim_len p xs w), L1; apply logical_length).
  split; [exact E1|]. split; [rewrite ints_length, logical_length; congruence|]. split; [exact W6|]. split; [exact W7|].
  assert (non_null (logical vals)) as NN. { destruct (W11 C) as [_ [[_ X]|[_ X]]]; [exact X|]. rewrite T in X. discriminate X. }
  intros i Hi. set (il := ints (logical idx)) in *.
  change (logical (ASparse idx vals off n VNull)) with (tab n (fun i => match pos_of (Z.of_nat (off + i)) il with Some k => nth k (logical vals) VNull | None => VNull end)).
  rewrite nth_tab by exact Hi. destruct (pos_of _ il) as [k|] eqn:EK; [|reflexivity]. apply pos_of_lt in EK. unfold il in EK. rewrite ints_length, logical_length in EK.
  pose proof (Forall_nth_lt _ _ VNull k NN ltac:(rewrite logical_length; lia)) as NZ. cbv beta in NZ. rewrite <- L1, nth_prim in * by lia. destruct (vvalid w k); congruence.
Qed.

Lemma alp_type_ok a p n : (p = F32 \/ p = F64) -> adtype a = DPrim (alp_int p) n -> alp_type a = Ok (p, n).
Proof. intros [-> | ->] H; unfold alp_type; rewrite H; reflexivity. Qed.

(** Decoding gives the rows. *)
Theorem alp_decodes_to_the_rows :
  forall (g : flags) (p : ptype) (n : bool) (a : alp) (rows : list value), alp_holds g p n a rows -> fc g = true -> fC g = true ->
  exists r, alp_decode a = Ok r /\ logical r = rows /\ adtype r = DPrim p n.
Proof.
  intros g p n a rows (P & E & W & T & L & HQ & HR) C CC. unfold alp_decode. rewrite (alp_type_ok _ p n P T). cbn [bind].
  destruct (canon_prim g _ _ n W C CC T) as (l & v & E1 & N1 & _ & V1 & L1). rewrite E1. cbn [bind]. rewrite E. cbn [negb andb].
  assert (length l = length rows) as LL by (rewrite <- L, <- L1; symmetry; apply prim_len).
  assert (negb (ptype_eqb (alp_int p) (alp_int p)) = false) as -> by (destruct P as [-> | ->]; reflexivity).
  set (d := map (alp_dec p (l_e a) (l_f a)) l). assert (length d = length rows) as Ld by (unfold d; rewrite map_length; exact LL).
  unfold patch_at in HR. destruct (l_patches a) as [q|] eqn:EQ.
  - destruct (sparse_patches g p (length rows) q HQ C CC) as (qi & qv & qo & xs & w & Q1 & Q2 & Q3 & Q4 & Q5 & Q6 & Q7). subst q. cbv iota. rewrite Q2, Q3. cbn [bind].
    assert (negb (ptype_eqb p p) = false) as -> by (destruct P as [-> | ->]; reflexivity).
    assert (length (rel_pos (ints (logical qi)) qo) = length xs) as -> by (unfold rel_pos; rewrite map_length; congruence). rewrite Nat.eqb_refl. cbn [negb].
    destruct (set_many_patch 0%Z d (ints (logical qi)) qo (length rows) xs Ld Q5 Q6 Q4) as (d' & E2 & L2 & N2). rewrite E2. cbn [bind]. eexists. split; [reflexivity|].
    split; [|cbn [adtype]; rewrite N1; reflexivity].
    apply (nth_ext_len _ _ VNull); [rewrite prim_len; exact L2|]. rewrite prim_len, L2. intros i Hi. rewrite nth_prim by lia. rewrite (HR i Hi), <- L1, nth_prim by lia. rewrite (Q7 i Hi), (N2 i Hi).
    destruct (vvalid v i); [|reflexivity]. cbn [alp_row]. destruct (pos_of _ _); [reflexivity|]. unfold d. rewrite (map_nth_lt _ l 0%Z) by lia. reflexivity.
  - eexists. split; [reflexivity|]. split; [|cbn [adtype]; rewrite N1; reflexivity].
    apply (nth_ext_len _ _ VNull); [rewrite prim_len; exact Ld|]. rewrite prim_len, Ld. intros i Hi. rewrite nth_prim by lia. rewrite (HR i Hi), <- L1, nth_prim by lia.
    destruct (vvalid v i); [|reflexivity]. cbn [alp_row]. unfold d. rewrite (map_nth_lt _ l 0%Z) by lia. reflexivity.
Qed.
Print Assumptions alp_decodes_to_the_rows.

(** The whole round trip. *)
Theorem alp_round_trip :
  forall (p : ptype) (l : list Z) (v : validity) (exps : option (nat * nat)),
  (p = F32 \/ p = F64) -> wf f0 (APrim p l v) -> (Z.of_nat (length l) <= pmax U64)%Z ->
  match exps with Some (e, f) => exps_ok p e f = true | None => True end ->
  exists a r, alp_encode (APrim p l v) exps = Ok a /\ alp_decode a = Ok r /\ adtype r = DPrim p (vnullable v) /\
    logical r = map (drop_zero_sign p) (logical (APrim p l v)) /\
    (~ In (VInt (minus_zero p)) (logical (APrim p l v)) -> logical r = logical (APrim p l v)).
Proof.
  intros p l v exps P W HL HE. set (g := Flags false false true true false false false false false false).
  destruct (alp_encode_keeps_values g p l v exps P W HL HE) as (a & E1 & H). { intros [X|[X|X]]; discriminate X. }
  destruct (alp_decodes_to_the_rows g p _ a _ H eq_refl eq_refl) as (r & E2 & L & T). exists a, r. split; [exact E1|]. split; [exact E2|]. split; [exact T|]. split; [exact L|].
  intros N. rewrite L. rewrite <- (map_id (logical (APrim p l v))) at 2. apply map_ext_in. intros x Hx. destruct x as [|b|z|s|fs]; try reflexivity. cbn [drop_zero_sign].
  destruct (Z.eqb_spec z (minus_zero p)) as [->|]; [contradiction|reflexivity].
Qed.
Print Assumptions alp_round_trip.

(** scalar_at gives the row, an error out of bounds. *)
Theorem alp_scalar_at_is_the_row :
  forall (g : flags) (p : ptype) (n : bool) (a : alp) (rows : list value) (i : nat), alp_holds g p n a rows ->
  (i < length rows -> alp_scalar_at a i = Ok (nth i rows VNull)) /\ (length rows <= i -> alp_scalar_at a i = Err).
Proof.
  intros g p n a rows i (P & E & W & T & L & HQ & HR). unfold alp_scalar_at. rewrite <- logical_length, L. split; intros Hi.
  2: { rewrite (proj2 (Nat.leb_le _ _)) by exact Hi. reflexivity. }
  rewrite (proj2 (Nat.leb_gt _ _)) by exact Hi.
  destruct (reads_ok _ _ W) as [(R1 & _ & R2) _]. assert (i < alen (l_enc a)) as Hi' by (rewrite <- logical_length; lia). unfold is_valid. rewrite R1 by exact Hi'. cbn [bind].
  rewrite (HR i Hi). pose proof (Forall_nth_lt _ _ VNull i (vtyped_logical _ _ W) ltac:(lia)) as VT. cbv beta in VT. rewrite T in VT.
  destruct (nth i (logical (l_enc a)) VNull) as [|b|z|s|fs] eqn:EN; cbn [vtyped] in VT; try contradiction; [reflexivity|]. cbn [is_null negb alp_row].
  assert (scalar_at_unchecked (l_enc a) i = Ok (VInt z)) as ES. { unfold scalar_at_unchecked. rewrite R2; rewrite ?EN, ?T; auto; discriminate. }
  unfold patch_at. destruct (l_patches a) as [q|].
  - destruct HQ as (WQ & TQ & qi & qv & qo & EQ). destruct (reads_ok _ _ WQ) as [(S1 & _ & S2) _]. assert (alen q = length rows) as LQ by (rewrite EQ; reflexivity). rewrite S1 by lia. cbn [bind].
    pose proof (Forall_nth_lt _ _ VNull i (vtyped_logical _ _ WQ) ltac:(rewrite logical_length; lia)) as VQ. cbv beta in VQ. rewrite TQ in VQ.
    destruct (nth i (logical q) VNull) as [|b|y|s|fs] eqn:EM; cbn [vtyped] in VQ; try contradiction; cbn [is_null negb].
    + rewrite (alp_type_ok _ p n P T), ES. cbn [bind]. rewrite E. reflexivity.
    + unfold scalar_at_unchecked. rewrite S2; rewrite ?EM, ?TQ; auto; try discriminate; lia.
  - cbn [bind]. rewrite (alp_type_ok _ p n P T), ES. cbn [bind]. rewrite E. reflexivity.
Qed.
Print Assumptions alp_scalar_at_is_the_row.

(** * Selecting rows *)
Lemma sparse_slice_shape qi qv qo n fl i j x : slice (ASparse qi qv qo n fl) i j = Ok x -> exists si sv so, x = ASparse si sv so (j - i) fl.
Proof.
  intros H. cbn [slice] in H. destruct (slice_bad _ _ _); [discriminate H|].
  repeat match type of H with
  | bind ?r _ = Ok _ => destruct r; cbn [bind] in H; [|discriminate H|discriminate H]
  end.
  unfold try_sparse in H.
  repeat match type of H with
  | bind ?r _ = Ok _ => destruct r; cbn [bind] in H; [|discriminate H|discriminate H]
  | (if ?c then _ else _) = Ok _ => destruct c
  | Ok _ = Ok _ => injection H as <-; eauto
  | _ => discriminate H
  end.
Qed.
Lemma alp_holds_sel g h p n a rows rows' (ix : nat -> nat) c q : alp_holds g p n a rows ->
  (forall k, k < length rows' -> ix k < length rows /\ nth k rows' VNull = nth (ix k) rows VNull /\
     nth k (logical c) VNull = nth (ix k) (logical (l_enc a)) VNull /\
     match q, l_patches a with Some x, Some y => nth k (logical x) VNull = nth (ix k) (logical y) VNull | None, None => True | _, _ => False end) ->
  length (logical c) = length rows' -> wf h c -> adtype c = DPrim (alp_int p) n ->
  match q with Some x => patches_ok h p (length rows') x | None => l_patches a = None end ->
  exists b, try_alp c (l_e a) (l_f a) q = Ok b /\ alp_holds h p n b rows'.
Proof.
  intros (P & E & W & T & L & HQ & HR) HS LC WC TC WQ. unfold try_alp. rewrite (alp_type_ok _ p n P TC). cbn [bind].
  exists (ALP c (l_e a) (l_f a) q). split.
  { destruct q as [x|]; [|reflexivity]. destruct WQ as (_ & TX & qi & qv & qo & EX). rewrite TX, dtype_eqb_refl. rewrite EX. cbn [alen]. rewrite <- LC, logical_length, Nat.eqb_refl. reflexivity. }
  unfold alp_holds. cbn [l_enc l_e l_f l_patches]. split; [exact P|]. split; [exact E|]. split; [exact WC|]. split; [exact TC|]. split; [exact LC|]. split; [destruct q; [exact WQ|exact I]|].
  intros k Hk. destruct (HS k Hk) as (H1 & H2 & H3 & H4). rewrite H2, (HR _ H1), H3. f_equal. unfold patch_at. cbn [l_patches]. destruct q, (l_patches a); try contradiction; congruence.
Qed.

Theorem alp_slice_the_rows :
  forall (g : flags) (p : ptype) (n : bool) (a : alp) (rows : list value) (i j : nat), alp_holds g p n a rows ->
  i <= j -> j <= length rows -> (fs g = true \/ (fn g = true /\ i < j)) ->
  exists b, alp_slice a i j = Ok b /\ alp_holds g p n b (spec_slice rows i j).
Proof.
  intros g p n a rows i j H Hij Hj FS. pose proof H as (P & E & W & T & L & HQ & HR).
  unfold alp_slice, slice_bad. rewrite <- logical_length, L. rewrite !(proj2 (Nat.ltb_ge _ _)) by lia. cbn [orb].
  destruct (slice_commutes_with_decoding g _ i j W Hij ltac:(lia) FS) as (c & E1 & W1 & T1 & _ & D1). rewrite E1. cbn [bind].
  assert (forall A (r : list A), length r = length rows -> length (spec_slice r i j) = j - i) as LS by (intros A r Hr; unfold spec_slice; rewrite firstn_length, skipn_length; lia).
  assert (forall A (d : A) (r : list A) k, k < j - i -> nth k (spec_slice r i j) d = nth (i + k) r d) as NS by (intros A d r k Hk; unfold spec_slice; rewrite nth_firstn by exact Hk; apply nth_skipn).
  assert (exists q, opt_map (fun x => slice x i j) (l_patches a) = Ok q /\ match q, l_patches a with Some x, Some y => logical x = spec_slice (logical y) i j /\ patches_ok g p (j - i) x | None, None => True | _, _ => False end) as (q & E2 & H2).
  { destruct (l_patches a) as [y|]; cbn [opt_map]; [|eauto]. destruct HQ as (WQ & TQ & qi & qv & qo & EQ).
    assert (alen y = length rows) as LQ by (rewrite EQ; reflexivity).
    destruct (slice_commutes_with_decoding g y i j WQ Hij ltac:(rewrite logical_length; lia) FS) as (x & E3 & W3 & T3 & L3 & D3). rewrite E3. cbn [bind]. eexists. split; [reflexivity|].
    cbv beta iota. split; [exact D3|]. split; [exact W3|]. split; [congruence|].
    rewrite EQ in E3. destruct (sparse_slice_shape qi qv qo (length rows) VNull i j x E3) as (si & sv & so & ->). eauto. }
  rewrite E2. cbn [bind].
  apply (alp_holds_sel g g p n a rows (spec_slice rows i j) (fun k => i + k) c q H).
  - rewrite (LS _ rows eq_refl). intros k Hk. split; [lia|]. rewrite D1, !NS by exact Hk. split; [reflexivity|]. split; [reflexivity|].
    destruct q, (l_patches a); try contradiction; [|exact I]. destruct H2 as [-> _]. apply NS. exact Hk.
  - rewrite D1, !LS; auto.
  - exact W1.
  - congruence.
  - rewrite (LS _ rows eq_refl). destruct q, (l_patches a); try contradiction; [apply H2|reflexivity].
Qed.
Print Assumptions alp_slice_the_rows.

Theorem alp_take_the_rows :
  forall (g : flags) (p : ptype) (n : bool) (a : alp) (rows : list value) (ip : ptype) (idx : list nat), alp_holds g p n a rows ->
  fc g = true -> ft g = true -> is_int ip = true -> (Z.of_nat (length idx) <= pmax U64)%Z ->
  Forall (fun i => i < length rows) idx -> fT g = true \/ (fN g = true /\ idx <> [] /\ ip = U64) ->
  exists b rows', alp_take a ip idx = Ok b /\ spec_take rows idx = Some rows' /\ alp_holds (pf g) p n b rows'.
Proof.
  intros g p n a rows ip idx H C FT Ii LI B TT. pose proof H as (P & E & W & T & L & HQ & HR).
  assert (Forall (fun i => i < length (logical (l_enc a))) idx) as BC by (rewrite L; exact B).
  destruct (take_commutes_with_decoding g _ ip idx W C FT Ii LI BC) as [G1 G2]. destruct (G2 TT) as (c & E1). destruct (G1 c E1) as (Q1 & _ & _ & Q4 & Q5). rewrite spec_take_pick in Q1 by exact BC. injection Q1 as Q1.
  unfold alp_take. rewrite E1. cbn [bind].
  assert (exists q, opt_map (fun x => take x ip idx) (l_patches a) = Ok q /\ match q, l_patches a with Some x, Some y => logical x = pick (logical y) idx /\ patches_ok (pf g) p (length idx) x | None, None => True | _, _ => False end) as (q & E2 & H2).
  { destruct (l_patches a) as [y|]; cbn [opt_map]; [|eauto]. destruct HQ as (WQ & TQ & qi & qv & qo & EQ).
    assert (Forall (fun i => i < length (logical y)) idx) as BQ by (rewrite logical_length, EQ; exact B).
    destruct (take_commutes_with_decoding g y ip idx WQ C FT Ii LI BQ) as [K1 K2]. destruct (K2 TT) as (x & E3). destruct (K1 x E3) as (R1 & _ & _ & R4 & R5). rewrite spec_take_pick in R1 by exact BQ. injection R1 as R1.
    rewrite E3. cbn [bind]. eexists. split; [reflexivity|]. cbv beta iota. split; [congruence|]. split; [exact R5|]. split; [rewrite R4 by (right; rewrite TQ; reflexivity); exact TQ|].
    rewrite EQ in E3. unfold take in E3. rewrite Ii in E3. cbn [depth ops] in E3. apply sparse_take_shape in E3. destruct E3 as (si & sv & ->). eauto. }
  rewrite E2. cbn [bind]. assert (spec_take rows idx = Some (pick rows idx)) as ST by (apply spec_take_pick; exact B).
  destruct (alp_holds_sel g (pf g) p n a rows (pick rows idx) (fun k => nth k idx 0) c q H) as (b & Eb & Hb).
  - rewrite pick_length. intros k Hk. split; [apply (Forall_nth_lt _ _ 0 k B Hk)|]. rewrite <- Q1, !nth_pick by exact Hk. split; [reflexivity|]. split; [reflexivity|].
    destruct q, (l_patches a); try contradiction; [|exact I]. destruct H2 as [-> _]. apply nth_pick. exact Hk.
  - rewrite <- Q1, !pick_length. reflexivity.
  - exact Q5.
  - rewrite Q4 by (right; rewrite T; reflexivity). exact T.
  - rewrite pick_length. destruct q, (l_patches a); try contradiction; [apply H2|reflexivity].
  - exists b, (pick rows idx). auto.
Qed.
Print Assumptions alp_take_the_rows.

Lemma sparse_filter_shape qi qv qo n fl m x : filter_array (ASparse qi qv qo n fl) m = Ok x -> exists si sv so, x = ASparse si sv so (count id (mbits m)) fl.
Proof.
  unfold filter_array. cbn [depth ops ops_step o_filter]. unfold with_mask. cbn [alen]. intros H.
  destruct (mlen m =? n); [|discriminate H]. unfold sparse_filter in H.
  repeat match type of H with
  | bind ?r _ = Ok _ => destruct r; cbn [bind] in H; [|discriminate H|discriminate H]
  | (let '(_, _) := ?t in _) = _ => destruct t
  end.
  unfold try_sparse in H.
  repeat match type of H with
  | bind ?r _ = Ok _ => destruct r; cbn [bind] in H; [|discriminate H|discriminate H]
  | (if ?c then _ else _) = Ok _ => destruct c
  | Ok _ = Ok _ => injection H as <-; eauto
  | _ => discriminate H
  end.
Qed.

Theorem alp_filter_the_rows :
  forall (g : flags) (p : ptype) (n : bool) (a : alp) (rows : list value) (m : list bool), alp_holds g p n a rows ->
  fc g = true -> ft g = true -> fF g = true -> (Z.of_nat (length m) <= pmax U64)%Z -> length m = length rows ->
  exists b, alp_filter a (mask_of m) = Ok b /\ alp_holds (pF g) p n b (spec_filter rows m).
Proof.
  intros g p n a rows m H C FT FF LM LR. pose proof H as (P & E & W & T & L & HQ & HR).
  destruct (filter_commutes_with_decoding g _ m W C FT LM ltac:(congruence)) as [G1 G2]. destruct (G2 FF) as (c & E1). destruct (G1 c E1) as (Q1 & _ & Q4 & Q5).
  unfold alp_filter. rewrite E1. cbn [bind].
  assert (forall A (d : A) (r : list A), length r = length rows -> spec_filter r m = map (fun i => nth i r d) (set_indices m)) as SF by (intros A d r Hr; apply spec_filter_gather; congruence).
  assert (length (spec_filter rows m) = count id m) as LF by (rewrite (SF _ VNull) by reflexivity; rewrite map_length; apply set_indices_length).
  assert (exists q, opt_map (fun x => filter_array x (mask_of m)) (l_patches a) = Ok q /\ match q, l_patches a with Some x, Some y => logical x = spec_filter (logical y) m /\ patches_ok (pF g) p (count id m) x | None, None => True | _, _ => False end) as (q & E2 & H2).
  { destruct (l_patches a) as [y|]; cbn [opt_map]; [|eauto]. destruct HQ as (WQ & TQ & qi & qv & qo & EQ).
    assert (length m = length (logical y)) as BQ by (rewrite logical_length, EQ; exact LR).
    destruct (filter_commutes_with_decoding g y m WQ C FT LM BQ) as [K1 K2]. destruct (K2 FF) as (x & E3). destruct (K1 x E3) as (R1 & _ & R4 & R5).
    rewrite E3. cbn [bind]. eexists. split; [reflexivity|]. cbv beta iota. split; [exact R1|]. split; [exact R5|]. split; [rewrite R4 by (right; rewrite TQ; reflexivity); exact TQ|].
    rewrite EQ in E3. apply sparse_filter_shape in E3. replace (mbits (mask_of m)) with m in E3 by (symmetry; apply mbits_eq; reflexivity). exact E3. }
  rewrite E2. cbn [bind].
  apply (alp_holds_sel g (pF g) p n a rows (spec_filter rows m) (fun k => nth k (set_indices m) 0) c q H).
  - rewrite LF. intros k Hk. rewrite <- set_indices_length in Hk. pose proof (Forall_nth_lt _ _ 0 k (set_indices_lt m) Hk) as X. cbv beta in X. rewrite LR in X. split; [exact X|].
    rewrite Q1. rewrite !(SF _ VNull) by congruence. rewrite !(map_nth_lt _ (set_indices m) 0) by exact Hk. split; [reflexivity|]. split; [reflexivity|].
    destruct q as [x|], (l_patches a) as [y|]; try contradiction; [|exact I]. destruct H2 as [-> _]. destruct HQ as (_ & _ & qi & qv & qo & EQ).
    rewrite (SF _ VNull) by (rewrite logical_length, EQ; reflexivity). rewrite (map_nth_lt _ (set_indices m) 0) by exact Hk. reflexivity.
  - rewrite Q1, LF, (SF _ VNull) by exact L. rewrite map_length. apply set_indices_length.
  - exact Q5.
  - rewrite Q4 by (right; rewrite T; reflexivity). exact T.
  - rewrite LF. destruct q, (l_patches a); try contradiction; [apply H2|reflexivity].
Qed.
Print Assumptions alp_filter_the_rows.
