(** Proofs about the sampling compressor: run-end, dictionary, sparse and struct arrays. *)
From Verif Require Import Base Spec SearchModel Arr ArrRead ArrWf ArrReadProofs ArrSlice ArrSliceProofs ValidityModel PropValidity StatsModel StatsProofs
  StatsProofs2 StatsProofs3 PropStats ArrOps OpsBase OpsFlat OpsSparse IntEnc RunEnc DictEnc PropIntEnc PropRunEnc PropDict PropRead PropOps Compressor CompressorSpec CompressorProofs.
Local Notation g := decodable.

(** * Run-end *)
Lemma ree_loop_sizes p l : forall x k, length (fst (ree_loop p x k l)) <= S (length l) /\ length (snd (ree_loop p x k l)) <= S (length l) /\ incl (snd (ree_loop p x k l)) (x :: l).
Proof.
  induction l as [|y l IH]; intros x k; cbn [ree_loop]; [cbn; split; [lia|split; [lia|intros z Hz; exact Hz]]|].
  destruct (IH y (k + 1)) as (A & B & C). destruct (negb (peq p y x)); cbn [fst snd length].
  - split; [lia|]. split; [lia|]. intros z [<-|Hz]; [left; reflexivity|right; apply C, Hz].
  - split; [lia|]. split; [lia|]. intros z Hz. right. apply C, Hz.
Qed.
Lemma try_runend_inv e x v o n r : try_runend e x v o n = Ok r -> r = ARunEnd e x v o n.
Proof.
  unfold try_runend. destruct (negb _); [discriminate|]. set (k := if _ && _ then _ else _). destruct k as [[]| |]; cbn [bind]; try discriminate.
  destruct (negb _); [discriminate|]. destruct (negb _); [discriminate|]. destruct (negb _); [discriminate|]. congruence.
Qed.
Lemma good_runend `{md : mode} fe fv p l v : wf g (APrim p l v) -> input_ok (APrim p l v) -> l <> [] -> (Z.of_nat (length l) < pmax U64)%Z ->
  ok_on (length l) fe -> ok_on (length l) fv -> good (do_runend fe fv) (APrim p l v).
Proof.
  intros W C Ne Hn He Hv. cbn [input_ok] in C. unfold good, do_runend.
  destruct (runend_roundtrip p l v W C ltac:(generalize dependent (pmax U64); intros; lia)) as (ends & vals & vv & E & Lr & Dr & _ & Wr & Se & La & Le & _).
  apply (wf_fle _ _ _ fle_decr) in Wr. unfold runend_encode in E. destruct (ree_encode_primitive p l) as [e0 v0] eqn:Er.
  apply try_runend_inv in E. injection E as <- <- Evv _. rewrite <- Evv. specialize (La Ne).
  assert (length ends <= length l /\ length vals <= length l /\ incl vals l) as (S1 & S2 & S3).
  { destruct l as [|x l]; [congruence|]. cbn [ree_encode_primitive] in Er. pose proof (ree_loop_sizes p l x 1) as X. rewrite Er in X. exact X. }
  pose proof Wr as Wr'. cbn [wf] in Wr. destruct Wr as (We & Wx & Du & Lex & _ & Ss & NNv & Nu & Vw & _ & Lst & _).
  destruct (He (APrim U64 ends VNonNull) We) as (e' & Ee & (E1 & E2 & E3 & E4 & _)).
  { apply int_no_neg_zero. reflexivity. }
  { exact I. }
  { cbn [alen]. lia. }
  { apply (sbytes_prim0 g); [exact We|left; reflexivity]. }
  destruct (Hv (APrim p vals vv) Wx) as (x' & Ex & (X1 & X2 & X3 & _)).
  { cbn [input_ok]. apply Forall_forall. intros z Hz. rewrite Forall_forall in C. apply C, S3, Hz. }
  { exact I. }
  { cbn [alen]. lia. }
  { apply (sbytes_prim0 g); [exact Wx|left; reflexivity]. }
  rewrite Ee. cbn [bind]. rewrite Ex. cbn [bind].
  specialize (E4 ltac:(split; [exact I|split; [reflexivity|left; reflexivity]])).
  assert (ends <> []) as Nends by (intros ->; cbn in La; destruct l; [congruence|cbn in La; lia]).
  assert (length ends <> 0) as Nl by (destruct ends; [congruence|cbn; lia]).
  pose proof (same_alen_ _ _ E2) as Al. cbn [alen] in Al. rewrite (proj2 (Nat.eqb_neq (alen e') 0)) by lia.
  destruct (scalar_at_is_the_element g e' E1) as (SA & _). rewrite logical_length in SA. rewrite (SA (alen e' - 1)) by lia. cbn [bind].
  assert (nth (alen e' - 1) (logical e') VNull = VInt (Z.of_nat (length l))) as ->.
  { rewrite E2, Al. rewrite nonnull_logical_prim by (left; reflexivity). rewrite (map_nth_lt VInt ends 0%Z) by lia. rewrite <- last_nth, La. reflexivity. }
  cbn [to_usize]. rewrite (proj2 (Z.leb_le 0 _)) by lia. cbn [bind]. rewrite Nat2Z.id.
  destruct (same_runend _ _ e' x' v 0 (length l) Wr' E1 E2 E3 E4 X1 X2 X3) as (R1 & R2 & R3).
  eexists. split; [|split; [exact R1|split; [rewrite R2; exact Lr|split; [rewrite R3; exact Dr|split; [intros _; exact I|exact I]]]]].
  unfold try_runend. rewrite X3, Nu, Bool.eqb_reflx. cbn [negb Nat.eqb andb bind]. rewrite E3. cbn [adtype uint_nonnull vnullable is_unsigned negb].
  rewrite E2, (proj2 (ssortedb_spec _) Ss). cbn [negb]. rewrite (proj2 (vfits_vwf _ _) Vw). reflexivity.
Qed.

(** * Dictionary *)
Lemma dict_prim_sizes p l v codes vals : dict_encode_primitive p l v = (codes, vals) ->
  exists cs x w, codes = APrim U64 cs VNonNull /\ vals = APrim p x w /\ length cs = length l /\ length x <= S (length l) /\ (Forall (no_neg_zero p) l -> Forall (no_neg_zero p) x).
Proof.
  unfold dict_encode_primitive. set (nl := vnullable v). set (ol := prim_options l v).
  destruct (dict_loop Z.eqb [] (if nl then [0%Z] else []) ol) as [codes' values] eqn:E. intros [= <- <-].
  destruct (dict_loop_spec Z.eqb Z.eqb_eq (if nl then 1 else 0) _ _ _ _ _ E) as ((ext & Ex) & ND & Lc & Lv & Inc & P).
  { intros z c. cbn [dict_lookup]. split; [discriminate|]. intros [H1 H2]. destruct nl; destruct c as [|[|c]]; try discriminate; lia. }
  { destruct nl; cbn; lia. }
  { destruct nl; constructor. }
  assert (length ol = length l) as Lo by (apply tab_length).
  eexists _, _, _. split; [reflexivity|]. split; [reflexivity|]. split; [rewrite map_length; lia|]. split; [rewrite Lo in Lv; destruct nl; cbn in Lv; lia|].
  intros F. apply Forall_forall. intros z Hz. rewrite <- (firstn_skipn (if nl then 1 else 0) values) in Hz. apply in_app_or in Hz. destruct Hz as [Hz|Hz].
  - rewrite Ex in Hz. destruct nl; cbn in Hz; [destruct Hz as [<-|Hz]; [intros _; pose proof (Z.pow_pos_nonneg 2 (bits p - 1) ltac:(lia) ltac:(destruct p; cbn; lia)); lia|contradiction]|contradiction].
  - apply Inc in Hz. replace (skipn (if nl then 1 else 0) (if nl then [0%Z] else [])) with (@nil Z) in Hz by (destruct nl; reflexivity).
    cbn [app] in Hz. apply in_concat in Hz. destruct Hz as (o & Ho & Hz). apply in_map_iff in Ho. destruct Ho as (x & <- & Hx).
    destruct x as [x|]; [|contradiction]. destruct Hz as [<-|[]].
    apply In_tab in Hx. destruct Hx as (i & Hi & G). destruct (vvalid v i); [|discriminate]. injection G as ->.
    apply (proj1 (Forall_forall _ _) F). apply nth_In. exact Hi.
Qed.
Lemma dict_vb_sizes l : forall lk o b, length (fst (dict_vb_loop lk o b l)) = length l /\ length (fst (snd (dict_vb_loop lk o b l))) <= length o + length l.
Proof.
  induction l as [|[s|] l IH]; intros lk o b; cbn [dict_vb_loop]; [cbn; lia| |].
  - destruct (find _ lk) as [c|].
    + specialize (IH lk o b). destruct (dict_vb_loop lk o b l). cbn [fst snd length] in *. lia.
    + cbv zeta. match goal with |- context [dict_vb_loop ?a ?b ?c l] => specialize (IH a b c); destruct (dict_vb_loop a b c l) end. cbn [fst snd length] in *.
      rewrite app_length in IH. cbn in IH. lia.
  - specialize (IH lk o b). destruct (dict_vb_loop lk o b l). cbn [fst snd length] in *. lia.
Qed.
(** Both kinds. *)
Lemma dict_of_ok `{md : mode} a codes vals : wf g a -> input_ok a -> (Z.of_nat (alen a) < pmax U64)%Z -> (Z.of_nat (sbytes a) <= pmax I32)%Z -> dict_of a = Some (codes, vals) ->
  logical (ADict codes vals) = logical a /\ adtype (ADict codes vals) = adtype a /\ wf g (ADict codes vals) /\
  input_ok codes /\ input_ok vals /\ alen codes <= S (alen a) /\ alen vals <= S (alen a) /\ uint_nonnull (adtype codes) = true /\
  (Z.of_nat (sbytes vals) <= pmax I32)%Z /\ (Z.of_nat (sbytes codes) <= pmax I32)%Z.
Proof.
  intros W C Hn Hs H.
  assert (forall v, adtype a = DUtf8 (vnullable v) -> sbytes a = total_bytes (str_opts (logical a)) -> dict_encode_varbin true (vnullable v) (str_opts (logical a)) = (codes, vals) ->
    logical (ADict codes vals) = logical a /\ adtype (ADict codes vals) = adtype a /\ wf g (ADict codes vals) /\
    input_ok codes /\ input_ok vals /\ alen codes <= S (alen a) /\ alen vals <= S (alen a) /\ uint_nonnull (adtype codes) = true /\
    (Z.of_nat (sbytes vals) <= pmax I32)%Z /\ (Z.of_nat (sbytes codes) <= pmax I32)%Z) as Str.
  { intros v Da Sb E. pose proof (vtyped_logical a g W) as T. rewrite Da in T.
    assert (length (str_opts (logical a)) = alen a) as Lo by (unfold str_opts; rewrite map_length, logical_length; reflexivity).
    assert (map opt_value (str_opts (logical a)) = logical a) as Inv.
    { unfold str_opts. rewrite map_map. rewrite <- (map_id (logical a)) at 2. apply map_ext_in. intros x Hx. rewrite Forall_forall in T. specialize (T x Hx). destruct x; cbn in T; try contradiction; reflexivity. }
    pose proof (dict_varbin_roundtrip true (vnullable v) (str_opts (logical a))) as R. rewrite E in R.
    destruct R as (R1 & R2 & _ & _ & R4).
    { intros Nu Hin. unfold str_opts in Hin. apply in_map_iff in Hin. destruct Hin as (x & Hx & Hin). rewrite Forall_forall in T. specialize (T x Hin). destruct x; cbn in T; try contradiction; [congruence|discriminate Hx]. }
    { intros _ s Hin. unfold str_opts in Hin. apply in_map_iff in Hin. destruct Hin as (x & Hx & Hin). rewrite Forall_forall in T. specialize (T x Hin). destruct x; cbn in T; try contradiction; [discriminate Hx|]. injection Hx as ->. exact T. }
    { rewrite <- Sb. assert (pmax I32 <= pmax U32)%Z as Q by (apply Z.leb_le; reflexivity). generalize dependent (pmax I32). generalize dependent (pmax U32). intros; lia. }
    { rewrite Lo. exact Hn. }
    rewrite <- Sb in R4. specialize (R4 eq_refl Hs). pose proof R4 as Rd. apply (wf_fle _ _ _ fle_dec) in R4.
    split; [rewrite R1; exact Inv|]. split; [rewrite R2, Da; reflexivity|]. split; [exact R4|].
    unfold dict_encode_varbin in E. pose proof (dict_vb_sizes (str_opts (logical a)) [] (if vnullable v then [0; 0]%Z else [0%Z]) []) as Sz.
    destruct (dict_vb_loop [] (if vnullable v then [0; 0]%Z else [0%Z]) [] (str_opts (logical a))) as [cs [offs bytes]] eqn:Ev. cbn [fst snd] in Sz. destruct Sz as [Z1 Z2].
    injection E as <- <-. cbn [wf] in R4. destruct R4 as (_ & Wv & _).
    split; [apply int_no_neg_zero; reflexivity|]. split; [split; [reflexivity|]; intros _; cbn [wf] in Rd; destruct Rd as (_ & Rd & _); exact Rd|]. split; [cbn [alen]; rewrite map_length; lia|].
    split; [cbn [alen]; destruct (vnullable v); cbn [length] in Z2; lia|]. split; [reflexivity|]. split; [apply sbytes_varbin; exact Wv|].
    cbn [sbytes]. rewrite nonnull_logical_prim by (left; reflexivity). rewrite str_opts_none; [cbn; lia|]. rewrite Forall_map. apply Forall_forall. intros; exact I. }
  destruct a as [n|o b n v|p l v|u w b v|u o b v|ns fls n v|id st|d x n|ix vs o n fl|d cs|c vs|e vs v o n|p e r sh|e|p l bw o n v q|l v]; try discriminate H.
  - cbn [dict_of] in H. injection H as H. pose proof (dict_primitive_roundtrip p l v W Hn) as R. rewrite H in R. destruct R as (R1 & R2 & _ & _ & R4).
    apply (wf_fle _ _ _ fle_dec) in R4. destruct (dict_prim_sizes p l v codes vals H) as (cs & x & w & -> & -> & L1 & L2 & Z).
    split; [exact R1|]. split; [exact R2|]. split; [exact R4|]. split; [apply int_no_neg_zero; reflexivity|]. split; [cbn [input_ok] in *; auto|].
    cbn [alen]. split; [lia|]. split; [lia|]. split; [reflexivity|]. cbn [wf] in R4. destruct R4 as (Wc & Wv & _).
    split; apply (sbytes_prim0 g); try (left; reflexivity); assumption.
  - cbn [input_ok] in C. subst u. cbn [dict_of] in H. injection H as H. apply (Str v); [reflexivity|reflexivity|exact H].
  - cbn [input_ok] in C. destruct C as [-> _]. cbn [dict_of] in H. injection H as H. apply (Str v); [reflexivity|reflexivity|exact H].
Qed.
Lemma dict_views_ok `{md : mode} a codes vals : wf g vals -> input_ok vals -> dict_of a = Some (codes, vals) ->
  exists vals', dict_views a vals = Ok vals' /\ wf g vals' /\ input_ok vals' /\ logical vals' = logical vals /\ adtype vals' = adtype vals /\ sbytes vals' = sbytes vals.
Proof.
  intros W C H. assert (exists vals', Ok vals = Ok vals' /\ wf g vals' /\ input_ok vals' /\ logical vals' = logical vals /\ adtype vals' = adtype vals /\ sbytes vals' = sbytes vals) as K by (exists vals; auto 6).
  unfold dict_views. destruct a as [n|o b n v|p l v|u w b v|u o b v|ns fls n v|id st|d x n|ix vs o n fl|d cs|c vs|e vs v o n|p e r sh|e|p l bw o n v q|l v]; try exact K.
  clear K. cbn [dict_of] in H. injection H as H. unfold dict_encode_varbin in H. destruct (dict_vb_loop _ _ _ _) as [cs [offs bytes]]. injection H as _ <-.
  set (vv := dict_values_validity _ _) in *. cbn [input_ok] in C. destruct C as [-> _].
  destruct (canonical_is_lossless g _ W eq_refl) as [CL CT]. destruct (CT eq_refl) as [r Er]. destruct (CL r Er) as (_ & Lr & _ & _ & _ & Wr). clear CL CT.
  unfold canon in Er |- *. change (depth (AVarBin true (APrim U32 offs VNonNull) bytes vv)) with (S (depth (APrim U32 offs VNonNull))) in *.
  assert (exists vws bufs v', r = AView true vws bufs v' /\ vnullable v' = vnullable vv) as (vws & bufs & v' & -> & Nv).
  { cbn [ops] in Er. set (rec := ops _) in Er. cbn [ops_step o_canon] in Er. unfold varbin_canon in Er.
    destruct (into_prim _) as [[[p ol] z]| |]; [|discriminate Er|discriminate Er]. cbn [bind] in Er. destruct (negb _); [discriminate Er|]. cbv zeta in Er.
    set (nbuf := to_null_buffer _) in Er. clearbody nbuf. unfold arrow_nulls in Er. destruct (vnullable vv).
    - cbn [bind] in Er. injection Er as <-. do 3 eexists. split; [reflexivity|]. destruct nbuf as [bb|]; [|reflexivity]. destruct (_ =? _); [reflexivity|]. unfold vfrom. repeat (match goal with |- context [if ?c then _ else _] => destruct c end); reflexivity.
    - destruct nbuf; [discriminate Er|]. cbn [bind] in Er. injection Er as <-. do 3 eexists. split; reflexivity. }
  rewrite Er. cbn [expect]. eexists. split; [reflexivity|]. split; [cbn [wf] in Wr |- *; cbn in Wr |- *; tauto|]. split; [reflexivity|]. split; [exact Lr|].
  split; [cbn [adtype]; rewrite Nv; reflexivity|]. cbn [sbytes]. rewrite Lr. reflexivity.
Qed.
Lemma dict_of_not_struct a codes vals : dict_of a = Some (codes, vals) -> not_struct (adtype codes) /\ not_struct (adtype vals).
Proof.
  intros H. destruct a; try discriminate H; cbn [dict_of] in H; injection H as H.
  - apply dict_prim_sizes in H. destruct H as (? & ? & ? & -> & -> & _). split; exact I.
  - unfold dict_encode_varbin in H. destruct (dict_vb_loop _ _ _ _) as [? [? ?]]. injection H as <- <-. destruct utf8; split; exact I.
  - unfold dict_encode_varbin in H. destruct (dict_vb_loop _ _ _ _) as [? [? ?]]. injection H as <- <-. destruct utf8; split; exact I.
Qed.
Lemma good_dict `{md : mode} fc fv a : wf g a -> input_ok a -> (Z.of_nat (alen a) < pmax U64)%Z -> (Z.of_nat (sbytes a) <= pmax I32)%Z ->
  ok_on (alen a) fc -> ok_on (alen a) fv -> good (do_dict fc fv) a.
Proof.
  intros W C Hn Hs Hc Hv. unfold good, do_dict. destruct (dict_of a) as [[codes vals0]|] eqn:E; [|apply good_keep, W].
  destruct (strict a); [apply good_keep, W|].
  destruct (dict_of_ok a codes vals0 W C Hn Hs E) as (L & D & Wd & Cc & Cv0 & Ac & Av0 & Un & Sv0 & Sc).
  pose proof Wd as Wd'. cbn [wf] in Wd. destruct Wd as (Wc & Wv0 & _).
  destruct (dict_views_ok a codes vals0 Wv0 Cv0 E) as (vals & Eq & Wv & Cv & Lv & Dv & Sv1). rewrite Eq. cbn [bind].
  assert (alen vals <= S (alen a)) as Av by (rewrite <- logical_length, Lv, logical_length; exact Av0). rewrite <- Sv1 in Sv0.
  destruct (dict_of_not_struct _ _ _ E) as [Ns1 Ns2]. rewrite <- Dv in Ns2. destruct (Hc codes Wc Cc Ns1 Ac Sc) as (c' & Ec & (C1 & C2 & C3 & _)). destruct (Hv vals Wv Cv Ns2 Av Sv0) as (v' & Ev & (V1 & V2 & V3 & _)).
  rewrite Ec. cbn [bind]. rewrite Ev. cbn [bind]. unfold try_dict. rewrite C3, Un. eexists. split; [reflexivity|].
  destruct (same_dict _ _ c' v' Wd' C1 C2 C3 V1 ltac:(congruence) ltac:(congruence)) as (R1 & R2 & R3).
  split; [exact R1|]. split; [rewrite R2; exact L|]. split; [rewrite R3; exact D|]. split; [intros _; exact I|]. destruct a; try exact I. discriminate E.
Qed.
Lemma good_sparse `{md : mode} fi fv idx vals off len fill : let a := ASparse idx vals off len fill in
  wf g a -> input_ok a -> (forall e, alen e = 0 -> fi e = Ok e) -> ok_on len fi -> ok_on len fv -> good (do_sparse fi fv) a.
Proof.
  intros a W C H0 Hi Hv. unfold good, a, do_sparse. cbn [a input_ok] in C. destruct C as (-> & Ci & Cv & _). pose proof W as W'. unfold a in W. cbn [wf] in W. change (sliceable g) with g in W. cbv zeta in W.
  destruct W as (W1 & W2 & W3 & W4 & W5 & W6 & W7 & W8 & W9 & W10 & W11 & _). destruct W11 as [Wp _]; [reflexivity|].
  assert (alen idx <= len) as Li.
  { rewrite <- logical_length, <- (ints_length (logical idx)). apply OpsSparse.ssorted_length; [exact W6|]. eapply Forall_impl; [|exact W7]. cbv beta. intros; lia. }
  assert (nullable (adtype idx) = false) as Nn by (rewrite W3; reflexivity).
  destruct (Hi idx W1 Ci ltac:(rewrite W3; exact I) ltac:(lia)) as (i' & Ei & (I1 & I2 & I3 & I4 & _)).
  { apply (sbytes_prim0 g); [exact W1|left; rewrite W3; reflexivity]. }
  destruct (Hv vals W2 Cv ltac:(destruct (adtype vals); try exact I; discriminate W10) ltac:(lia)) as (v' & Ev & (V1 & V2 & V3 & V4 & _)).
  { apply (sbytes_prim0 g); [exact W2|]. apply orb_true_iff in Wp. tauto. }
  rewrite Ei. cbn [bind]. rewrite Ev. cbn [bind].
  assert (ss_ok i') as Si.
  { apply I4. split; [apply W5|]. destruct idx; try exact I. cbn [adtype] in W3. injection W3 as -> Hnu. split; [reflexivity|]. destruct v; cbn in Hnu; try discriminate. left; reflexivity. }
  assert (ix_ok i' 0 len) as Ix.
  { split; [exact Si|]. intros A0. rewrite (same_alen_ _ _ I2) in A0. rewrite (H0 idx A0) in Ei. injection Ei as <-. apply W5, A0. }
  pose proof (same_sparse idx vals i' v' 0 len fill W' I1 I2 I3 Ix V1 V2 V3) as (R1 & R2 & R3).
  exists (ASparse i' v' 0 len fill). split.
  - unfold try_sparse. rewrite I3, W3, dtype_eqb_refl. cbn [negb]. rewrite V3.
    assert (instance_of fill (adtype vals) = true) as ->.
    { destruct fill; cbn [vtyped instance_of] in *; auto; destruct (adtype vals); try contradiction; try reflexivity; try discriminate W10. apply in_rangeb_spec, W9. }
    rewrite (same_alen_ _ _ I2), (same_alen_ _ _ V2), W4, Nat.eqb_refl. cbn [negb]. destruct (Nat.eqb_spec (alen vals) 0) as [Z0|Nz]; [reflexivity|].
    destruct (scalar_at_is_the_element g i' I1) as (SA & _). rewrite logical_length in SA. rewrite SA by (rewrite (same_alen_ _ _ I2); lia). cbn [bind]. rewrite I2.
    assert (exists z, nth (alen vals - 1) (logical idx) VNull = VInt z /\ (0 <= z < Z.of_nat len)%Z) as (z & -> & Hz).
    { pose proof (vtyped_logical idx g W1) as T. rewrite W3 in T. pose proof (Forall_nth_lt _ _ VNull (alen vals - 1) T ltac:(rewrite logical_length; lia)) as Tz. cbv beta in Tz.
      destruct (nth (alen vals - 1) (logical idx) VNull) as [| |z| |] eqn:Ez; cbn in Tz; try contradiction; try discriminate. exists z. split; [reflexivity|].
      rewrite Forall_forall in W7. specialize (W7 z). cbn [Nat.add] in W7. replace (Z.of_nat 0) with 0%Z in W7 by reflexivity. apply W7. change z with (vint (VInt z)). rewrite <- Ez. unfold ints. apply in_map. apply nth_In. rewrite logical_length. lia. }
    cbn [to_usize]. rewrite (proj2 (Z.leb_le 0 _)) by lia. cbn [bind]. change (Z.to_nat z <? 0) with false. cbv iota.
    destruct (Nat.leb_spec len (Z.to_nat z - 0)); [lia|]. reflexivity.
  - split; [exact R1|]. split; [exact R2|]. split; [exact R3|]. split; [intros [[] _]|]. exists i', v'. split; [reflexivity|]. split; [exact I2|]. split; [exact V2|]. split; [exact V3|exact V4].
Qed.
