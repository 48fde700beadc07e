(** Proofs about the sampling compressor: structs, chunks and rechunking. *)
From Verif Require Import Base Spec SearchModel Arr ArrRead ArrWf ArrReadProofs ArrSlice ArrSliceProofs ValidityModel PropValidity StatsModel StatsProofs
  StatsProofs2 StatsProofs3 PropStats ArrOps OpsBase OpsFlat OpsSparse OpsCanon3 OpsMain IntEnc RunEnc DictEnc PropIntEnc PropRunEnc PropDict PropRead PropOps CmpProofs
  ArrSliceMain Compressor CompressorSpec CompressorProofs.
Local Notation g := decodable.

Lemma mapM_F2 {A B} (h : A -> result B) l r : mapM h l = Ok r -> Forall2 (fun x y => h x = Ok y) l r.
Proof. apply CmpProofs.mapM_in. Qed.
Lemma sum_cons x l : list_sum (x :: l) = x + list_sum l.
Proof. reflexivity. Qed.

(** * The nested lists *)
Lemma input_struct `{md : mode} ns fls n v : input_ok (AStruct ns fls n v) <-> Forall input_ok fls.
Proof. cbn [input_ok]. induction fls as [|x r IH]; [split; constructor|]. rewrite IH. split; [intros [H1 H2]; constructor; auto|intros H; inversion H; auto]. Qed.
Lemma input_chunked `{md : mode} d cs : input_ok (AChunked d cs) <-> plain d = true /\ Forall (fun c => input_ok c /\ chunk_ok c) cs.
Proof.
  cbn [input_ok]. assert (forall cs, (fix go l := match l with [] => True | x :: r => (input_ok x /\ chunk_ok x) /\ go r end) cs <-> Forall (fun c => input_ok c /\ chunk_ok c) cs) as E.
  { clear. induction cs as [|x r IH]; [split; constructor|]. rewrite IH. split; [intros [H1 H2]; constructor; auto|intros H; inversion H; auto]. }
  rewrite E. reflexivity.
Qed.
Lemma chunk_struct `{md : mode} ns fls n v : chunk_ok (AStruct ns fls n v) <-> Forall chunk_ok fls.
Proof. cbn [chunk_ok]. induction fls as [|x r IH]; [split; constructor|]. rewrite IH. split; [intros [H1 H2]; constructor; auto|intros H; inversion H; auto]. Qed.
Lemma chunk_chunked `{md : mode} d cs : chunk_ok (AChunked d cs) <-> Forall chunk_ok cs.
Proof. cbn [chunk_ok]. induction cs as [|x r IH]; [split; constructor|]. rewrite IH. split; [intros [H1 H2]; constructor; auto|intros H; inversion H; auto]. Qed.

Definition inv `{md : mode} (d : dtype) (c : array) : Prop := wf g c /\ adtype c = d /\ input_ok c /\ chunk_ok c.
Lemma wf_chunked_g d cs : plain d = true -> (wf g (AChunked d cs) <-> Forall (fun c => wf g c /\ adtype c = d) cs).
Proof.
  intros P. cbn [wf]. rewrite wf_chunks_iff. split; [tauto|]. intros H. split; [exact H|]. cbn. split; [discriminate|]. split; [reflexivity|]. split; [discriminate|].
  split; [discriminate|]. split; [auto|]. split; [discriminate|]. intros _. destruct d; try exact I; [|discriminate P].
  cbn [plain] in P. apply andb_true_iff in P. destruct P as [P _]. apply Nat.eqb_eq, P.
Qed.
Lemma inv_chunked `{md : mode} d cs : plain d = true -> Forall (inv d) cs -> inv d (AChunked d cs).
Proof.
  intros P H. split; [apply wf_chunked_g; [exact P|]|split; [reflexivity|split; [apply input_chunked; split; [exact P|]|apply chunk_chunked]]];
    (eapply Forall_impl; [|exact H]); unfold inv; tauto.
Qed.

(** * Fields of chunked structs *)
Lemma field_inv `{md : mode} c : forall ns ts nl k t y, inv (DStruct ns ts nl) c -> plain (DStruct ns ts nl) = true -> nth_error ts k = Some t -> field c k = Ok (Some y) ->
  inv t y /\ sbytes y <= sbytes c.
Proof.
  induction c as [n|o b n v|p l v|u w b v|u o b v IHo|ns' fls n v IHf|id st IHst|d x n|ix vs o n fl IHi IHv|d cs IHc
    |c vs IHc IHv|e vs v o n IHe IHv|p e r sh IHe|e IHe|p l bw o n v q IHq|l v] using array_ind'; intros ns ts nl k t y (W & D & C & K) P T E; try discriminate E.
  - cbn [field] in E. injection E as E. cbn [adtype] in D. injection D as <- <- <-. rewrite nth_error_map, E in T. injection T as <-.
    apply wf_struct_iff in W. destruct W as (_ & _ & W). apply input_struct in C. apply chunk_struct in K. pose proof (nth_error_In _ _ E) as In.
    rewrite Forall_forall in W, C, K. split; [split; [apply W, In|split; [reflexivity|split; [apply C, In|apply K, In]]]|].
    cbn [sbytes]. pose proof (proj1 (list_max_le (map sbytes fls) _) (le_n _)) as F. rewrite Forall_forall in F. apply F, in_map, In.
  - cbn [adtype] in D. subst d. cbn [wf] in W. destruct W as [_ W]. destruct (W eq_refl) as [W1 _]. discriminate W1.
  - cbn [adtype] in D. subst d. cbn [field] in E. rewrite mapM_map_ in E. destruct (mapM (fun x => field x k) cs) as [xs| |] eqn:Em; [|discriminate E|discriminate E]. cbn [bind] in E.
    destruct (existsb _ xs) eqn:Ex; [discriminate E|]. destruct (somes xs Ex) as (ys & ->). rewrite T, filter_map_somes in E.
    unfold try_chunked in E. destruct (forallb _ ys) eqn:Ef; [|discriminate E]. cbn [expect bind] in E. injection E as <-.
    assert (plain t = true) as Pt.
    { cbn [plain] in P. apply andb_true_iff in P. destruct P as [_ P]. rewrite forallb_forall in P. apply P. eapply nth_error_In, T. }
    apply mapM_F2 in Em. apply wf_chunked_g in W; [|exact P]. apply input_chunked in C. destruct C as [_ C]. apply chunk_chunked in K.
    assert (Forall (inv t) ys /\ list_sum (map sbytes ys) <= list_sum (map sbytes cs)) as [G1 G2].
    { clear Ex Ef. remember (map Some ys) as xs eqn:Exs. revert ys Exs IHc W C K. induction Em as [|c x cs xs Hx Em IH]; intros [|z ys] Exs IHc W C K; try discriminate; [split; [constructor|cbn; lia]|].
      injection Exs as -> ->. inversion IHc as [|? ? I1 I2]; subst. inversion W as [|? ? [W1 W1'] W2]; subst. inversion C as [|? ? [C1 C1'] C2]; subst. inversion K as [|? ? K1 K2]; subst.
      destruct (I1 ns ts nl k t z ltac:(split; [exact W1|split; [exact W1'|split; [exact C1|exact C1']]]) P T Hx) as [J1 J2]. destruct (IH ys eq_refl I2 W2 C2 K2) as [J3 J4].
      split; [constructor; assumption|]. cbn [map]. rewrite !sum_cons. lia. }
    split; [apply inv_chunked; assumption|]. cbn [sbytes]. exact G2.
Qed.

(** * Raw values of decoded floating-point chunks *)
Lemma canon_raws `{md : mode} a : forall n p nl q l v, inv (DPrim p nl) a -> is_float p = true -> o_canon (ops n a) = Ok (APrim q l v) -> Forall (no_neg_zero p) l.
Proof.
  assert (forall b p nl, inv (DPrim p nl) b -> is_float p = true -> not_float (adtype b) = true -> False) as NF.
  { intros b p nl (_ & D & _) F H. rewrite D in H. cbn in H. rewrite F in H. discriminate. }
  induction a as [m|o b m w|p' l' w|u ws b w|u o b w IHo|ns' fls m w IHf|id st IHst|d x m|ix vs o m fl IHi IHv|d cs IHc
    |c vs IHc IHv|e vs w o m IHe IHv|p' e r sh IHe|e IHe|p' l' bw o m w q' IHq|l' w] using array_ind'; intros n p nl q l v V F E;
    try (exfalso; apply (NF _ _ _ V F); destruct V as (_ & _ & _ & K); first [exact K|exact (proj1 K)]); try (exfalso; destruct V as (_ & D & _); cbn [adtype] in D; try destruct u; discriminate D).
  - destruct V as (_ & D & C & _). cbn [adtype] in D. injection D as -> _. destruct n; cbn in E; injection E as _ <- _; exact C.
  - destruct V as (W & D & C & K). cbn [adtype] in D. subst d. apply wf_chunked_g in W; [|reflexivity]. apply input_chunked in C. destruct C as [_ C].
    assert (exists rec, ops n (AChunked (DPrim p nl) cs) = ops_step rec (AChunked (DPrim p nl) cs) /\ forall c q l v, In c cs -> o_canon (rec c) = Ok (APrim q l v) -> Forall (no_neg_zero p) l) as (rec & Er & Hr).
    { destruct n as [|n]; [exists (fun _ => fail_ops); split; [reflexivity|intros; discriminate]|]. exists (ops n). split; [reflexivity|]. intros c q' l' v' Hc Hq.
      rewrite Forall_forall in IHc, W, C. apply (IHc c Hc n p nl q' l' v'); auto. destruct (W c Hc), (C c Hc). repeat split; auto. }
    rewrite Er in E. cbn [ops_step o_canon] in E. set (lv := if nullable (DPrim p nl) then _ else _) in E. destruct lv as [v'| |]; [|discriminate E|discriminate E]. cbn [bind] in E.
    unfold chunked_canon in E. destruct (negb _); [discriminate E|]. rewrite mapM_map_ in E. cbn [snd] in E.
    destruct (mapM _ cs) as [ls| |] eqn:Em; [|discriminate E|discriminate E]. cbn [bind] in E. unfold try_prim in E. destruct (vfits v' _); [|discriminate E]. cbn [expect] in E. injection E as _ <- _.
    apply mapM_F2 in Em. clear - Em Hr. revert Hr. induction Em as [|c l cs ls Hc Em IH]; intros Hr; [constructor|]. cbn [concat]. apply Forall_app. split; [|apply IH; intros c' q' l' v' Hi; apply Hr; right; exact Hi].
    unfold into_prim in Hc. destruct (o_canon (rec c)) as [x| |] eqn:Ex; [|discriminate Hc|discriminate Hc]. cbn [bind] in Hc.
    destruct x as [| |q l0 v0| | | | | | | | | | | | |]; try discriminate Hc. cbn [bind] in Hc. destruct (ptype_eqb q p); [|discriminate Hc]. injection Hc as <-.
    apply (Hr c q l0 v0); [left; reflexivity|exact Ex].
Qed.

(** * Combining chunks *)
Lemma canon_utf8 nl cs r : canon (AChunked (DUtf8 nl) cs) = Ok r -> exists vs bufs v, r = AView true vs bufs v /\ vnullable v = nl.
Proof.
  intros E. unfold canon in E. change (depth (AChunked (DUtf8 nl) cs)) with (S (list_max (map depth cs))) in E. cbn [ops] in E. set (rec := ops _) in E. cbn [ops_step o_canon] in E.
  set (lv := if nullable (DUtf8 nl) then _ else _) in E.
  assert (forall v, lv = Ok v -> vnullable v = nl) as NL.
  { intros v El. unfold lv in El. cbn [nullable] in El. destruct nl.
    - unfold rmap in El. set (z := bind (mapM _ _) _) in El. clearbody z. destruct z as [x| |]; [|discriminate El|discriminate El]. cbn [bind] in El. injection El as <-. destruct x; reflexivity.
    - injection El as <-. reflexivity. }
  clearbody lv. destruct lv as [v| |]; [|discriminate E|discriminate E]. cbn [bind] in E. unfold chunked_canon in E. destruct (negb _); [discriminate E|].
  destruct (mapM _ _) as [ls| |]; [|discriminate E|discriminate E]. cbn [bind] in E. destruct (pack_views [] [] ls) as [vs bufs]. unfold try_view in E. destruct (negb _); [discriminate E|]. injection E as <-.
  exists vs, bufs, v. split; [reflexivity|]. apply NL. reflexivity.
Qed.
Lemma canon_struct ns ts nl cs r : canon (AChunked (DStruct ns ts nl) cs) = Ok r ->
  exists fls v, r = AStruct ns fls (list_sum (map alen cs)) v /\
    Forall2 (fun kt fl => exists ys, fl = AChunked (snd kt) ys /\ Forall2 (fun c y => field c (fst kt) = Ok (Some y)) cs ys) (combine (seq 0 (length ts)) ts) fls.
Proof.
  intros E. unfold canon in E. change (depth (AChunked (DStruct ns ts nl) cs)) with (S (list_max (map depth cs))) in E. cbn [ops] in E. set (rec := ops _) in E. cbn [ops_step o_canon] in E.
  set (lv := if nullable (DStruct ns ts nl) then _ else _) in E.
  clearbody lv. destruct lv as [v| |]; [|discriminate E|discriminate E]. cbn [bind] in E. unfold chunked_canon in E. destruct (negb _); [discriminate E|].
  destruct (mapM _ (combine _ _)) as [fls| |] eqn:Em; [|discriminate E|discriminate E]. cbn [bind] in E. rewrite map_map in E. cbn [fst] in E.
  unfold try_struct in E. destruct (negb _); [discriminate E|]. destruct (negb _); [discriminate E|]. destruct (negb _); [discriminate E|]. injection E as <-.
  exists fls, v. split; [reflexivity|]. apply mapM_F2 in Em. eapply Forall2_impl_; [|exact Em]. intros [k t] fl H. cbn [fst snd] in *. rewrite mapM_map_ in H. cbn [fst] in H.
  destruct (mapM _ cs) as [ys| |] eqn:Ey; [|discriminate H|discriminate H]. cbn [bind] in H. unfold try_chunked in H. destruct (forallb _ ys); [|discriminate H]. injection H as <-.
  exists ys. split; [reflexivity|]. apply mapM_F2 in Ey. eapply Forall2_impl_; [|exact Ey]. intros c y Hc. cbv beta in Hc. destruct (field c k) as [[z|]| |]; try discriminate Hc. injection Hc as ->. reflexivity.
Qed.
Lemma sbytes_flat_chunked d cs : Forall (fun c => wf g c /\ adtype c = d) cs -> flat d = true -> total_bytes (str_opts (concat (map logical cs))) = list_sum (map sbytes cs).
Proof.
  intros H F. induction H as [|c cs [W D] H IH]; [reflexivity|]. cbn [map concat]. unfold str_opts. rewrite map_app, total_bytes_app, sum_cons. f_equal; [|exact IH].
  symmetry. apply (sbytes_flat c g W). rewrite D. exact F.
Qed.
Lemma combine_ok `{md : mode} d acc : plain d = true -> Forall (inv d) acc ->
  exists r, combine_chunks d acc = Ok r /\ wf g r /\ adtype r = d /\ input_ok r /\ logical r = concat (map logical acc) /\ sbytes r <= list_sum (map sbytes acc).
Proof.
  intros P H. unfold combine_chunks, try_chunked.
  rewrite (proj2 (forallb_forall _ _)) by (intros c Hc; apply dtype_eqb_eq; rewrite Forall_forall in H; apply (H c Hc)). cbn [bind].
  pose proof (inv_chunked d acc P H) as (W & _ & _ & _). destruct (canonical_is_lossless g _ W eq_refl) as [CL CT]. destruct (CT eq_refl) as [r Er]. exists r. split; [exact Er|].
  destruct (CL r Er) as (Cr & Lr & Ar & Sk & Dr & Wr). clear CL CT. cbn [adtype] in Dr.
  assert (Forall (fun c => wf g c /\ adtype c = d) acc) as WD by (eapply Forall_impl; [|exact H]; unfold inv; tauto).
  assert (flat d = true -> wf g r -> adtype r = d -> sbytes r <= list_sum (map sbytes acc)) as SB.
  { intros Fl Wg Da. rewrite (sbytes_flat r g Wg) by (rewrite Da; exact Fl). rewrite Lr. cbn [logical]. rewrite (sbytes_flat_chunked d acc WD Fl). lia. }
  destruct d as [|nl|p nl|nl|nl|ns ts nl|id nl]; try discriminate P.
  - specialize (Dr eq_refl). destruct (canon_bool r nl Cr Dr) as (o & b & n & v & -> & _). assert (wf g (ABool o b n v)) as Wg by exact Wr.
    split; [exact Wg|]. split; [exact Dr|]. split; [exact I|]. split; [exact Lr|]. apply SB; auto.
  - specialize (Dr eq_refl). destruct (canon_prim r p nl Cr Dr) as (l & v & -> & _). assert (wf g (APrim p l v)) as Wg by exact Wr.
    split; [exact Wg|]. split; [exact Dr|]. split; [|split; [exact Lr|apply SB; auto]]. cbn [input_ok].
    destruct (is_float p) eqn:Fp; [|apply int_no_neg_zero, Fp]. eapply (canon_raws (AChunked (DPrim p nl) acc)); [apply inv_chunked; assumption|exact Fp|exact Er].
  - destruct (canon_utf8 nl acc r Er) as (vs & bufs & v & -> & Nv). assert (wf g (AView true vs bufs v)) as Wg.
    { cbn [wf] in *. cbn in Wr |- *. tauto. }
    split; [exact Wg|]. split; [cbn [adtype]; rewrite Nv; reflexivity|]. split; [reflexivity|]. split; [exact Lr|]. apply SB; auto. cbn [adtype]. rewrite Nv. reflexivity.
  - specialize (Dr eq_refl). destruct (canon_struct ns ts nl acc r Er) as (fls & v & -> & F2).
    assert (Forall (fun fl => wf g fl /\ input_ok fl /\ sbytes fl <= list_sum (map sbytes acc)) fls) as FF.
    { assert (Forall (fun kt => nth_error ts (fst kt) = Some (snd kt)) (combine (seq 0 (length ts)) ts)) as FK.
      { apply Forall_forall. intros [k t] Hk. apply In_nth_error in Hk. destruct Hk as (j & Hj).
        assert (j < length ts) as Hjl by (assert (nth_error (combine (seq 0 (length ts)) ts) j <> None) as X by congruence; apply nth_error_Some in X; rewrite combine_length, seq_length in X; lia).
        rewrite (nth_error_nth' _ (0, DNull)) in Hj by (rewrite combine_length, seq_length; lia). rewrite combine_nth in Hj by apply seq_length.
        rewrite seq_nth in Hj by exact Hjl. injection Hj as <- <-. cbn [fst snd Nat.add]. apply nth_error_nth'. exact Hjl. }
      revert FK. generalize dependent (combine (seq 0 (length ts)) ts). intros kts F2. clear Er Cr Lr Ar Sk Dr Wr SB. induction F2 as [|[k t] fl kts fls (ys & -> & Hy) F2 IH]; intros FK; [constructor|].
      inversion FK as [|? ? T FK']; subst. cbn [fst snd] in *. constructor; [|apply IH; exact FK'].
      assert (plain t = true) as Pt.
      { cbn [plain] in P. apply andb_true_iff in P. destruct P as [_ P]. rewrite forallb_forall in P. apply P. eapply nth_error_In, T. }
      assert (Forall (inv t) ys /\ list_sum (map sbytes ys) <= list_sum (map sbytes acc)) as [G1 G2].
      { clear IH F2 FK FK' W WD. induction Hy as [|c y acc ys Hc Hy IH]; [split; [constructor|cbn; lia]|]. inversion H as [|? ? H1 H2]; subst. destruct (IH H2) as [J1 J2].
        destruct (field_inv c ns ts nl k t y H1 P T Hc) as [J3 J4]. split; [constructor; assumption|]. cbn [map]. rewrite !sum_cons. lia. }
      destruct (inv_chunked t ys Pt G1) as (X1 & _ & X3 & _). split; [exact X1|]. split; [exact X3|]. exact G2. }
    split.
    { apply wf_struct_iff in Wr. destruct Wr as (W1 & W2 & W3). apply wf_struct_iff. split; [exact W1|]. split; [exact W2|]. rewrite Forall_forall in W3, FF |- *. intros x Hx. split; [apply FF, Hx|apply W3, Hx]. }
    split; [exact Dr|]. split; [apply input_struct; eapply Forall_impl; [|exact FF]; cbv beta; intros ? (? & ? & ?); assumption|]. split; [exact Lr|].
    cbn [sbytes]. apply list_max_le. rewrite Forall_map. eapply Forall_impl; [|exact FF]. cbv beta. intros ? (? & ? & ?); assumption.
Qed.

(** * Rechunking *)
Section Rechunk.
  Context {md : mode}.
  Variable nb : array -> nat.
  Variables tb tr : nat.
  Variable d : dtype.
  Hypothesis P : plain d = true.
  Variables B N : nat.
  Definition out (c : array) : Prop := wf g c /\ adtype c = d /\ input_ok c /\ sbytes c <= B /\ alen c <= N.
  Lemma rechunk_ok cs : forall acc ab an, Forall (inv d) acc -> Forall (inv d) cs ->
    list_sum (map sbytes acc) + list_sum (map sbytes cs) <= B -> list_sum (map alen acc) + list_sum (map alen cs) <= N ->
    exists cs', rechunk_go nb tb tr d acc ab an cs = Ok cs' /\ Forall out cs' /\ concat (map logical cs') = concat (map logical acc) ++ concat (map logical cs).
  Proof.
    assert (forall acc, Forall (inv d) acc -> list_sum (map sbytes acc) <= B -> list_sum (map alen acc) <= N ->
      exists r, combine_chunks d acc = Ok r /\ out r /\ logical r = concat (map logical acc)) as CC.
    { intros acc H HB HN. destruct (combine_ok d acc P H) as (r & E & W & D & C & L & Sb). exists r. split; [exact E|]. split; [|exact L].
      split; [exact W|]. split; [exact D|]. split; [exact C|]. split; [lia|].
      rewrite <- logical_length, L, concat_length_sum, map_map. erewrite map_ext; [exact HN|]. intros; apply logical_length. }
    induction cs as [|c cs IH]; intros acc ab an Ha Hc HB HN.
    - cbn [rechunk_go]. destruct acc as [|a0 acc0] eqn:Ea; [exists []; repeat split; constructor|]. rewrite <- Ea in *. cbn [map] in HB, HN. change (list_sum []) with 0 in HB, HN.
      destruct (CC acc Ha ltac:(lia) ltac:(lia)) as (r & E & O & L). rewrite E. cbn [bind]. exists [r]. split; [reflexivity|]. split; [constructor; [exact O|constructor]|]. cbn [map concat]. rewrite !app_nil_r. exact L.
    - inversion Hc as [|? ? Hc1 Hc2]; subst. cbn [map] in HB, HN. rewrite sum_cons in HB, HN. cbn [rechunk_go]. cbv zeta.
      assert (out c) as Oc by (destruct Hc1 as (X1 & X2 & X3 & _); unfold out; repeat split; auto; lia).
      set (big := (tb <? nb c) || (tr <? alen c)). set (fl := ((tb <? ab + nb c) || (tr <? an + alen c)) && negb (length acc =? 0)).
      destruct fl eqn:Ef.
      + destruct (CC acc Ha ltac:(lia) ltac:(lia)) as (x & E & O & L). rewrite E. cbn [bind]. destruct big.
        * destruct (IH [] 0 0 ltac:(constructor) Hc2 ltac:(cbn; lia) ltac:(cbn; lia)) as (xs & Ex & Ox & Lx). rewrite Ex. cbn [bind]. exists (x :: c :: xs).
          split; [reflexivity|]. split; [constructor; [exact O|constructor; assumption]|]. cbn [map concat]. cbn [map concat app] in Lx. rewrite L, Lx. reflexivity.
        * destruct (IH [c] (nb c) (alen c) ltac:(constructor; [assumption|constructor]) Hc2 ltac:(cbn; lia) ltac:(cbn; lia)) as (xs & Ex & Ox & Lx). rewrite Ex. cbn [bind]. exists (x :: xs).
          split; [reflexivity|]. split; [constructor; assumption|]. cbn [map concat]. cbn [map concat] in Lx. rewrite app_nil_r in Lx. rewrite L, Lx. reflexivity.
      + destruct big eqn:Eb.
        * assert (acc = []) as ->.
          { destruct acc as [|a0 acc0]; [reflexivity|]. exfalso. unfold fl in Ef. unfold big in Eb. apply andb_false_iff in Ef. destruct Ef as [Ef|Ef]; [|discriminate Ef].
            apply orb_false_iff in Ef. destruct Ef as [Ef1 Ef2]. apply Nat.ltb_ge in Ef1, Ef2. apply orb_true_iff in Eb. destruct Eb as [Eb|Eb]; apply Nat.ltb_lt in Eb; lia. }
          destruct (IH [] ab an ltac:(constructor) Hc2 ltac:(cbn; lia) ltac:(cbn; lia)) as (xs & Ex & Ox & Lx). rewrite Ex. cbn [bind]. exists (c :: xs).
          split; [reflexivity|]. split; [constructor; assumption|]. cbn [map concat app] in *. rewrite Lx. reflexivity.
        * destruct (IH (acc ++ [c]) (ab + nb c) (an + alen c)) as (xs & Ex & Ox & Lx).
          { apply Forall_app. split; [exact Ha|constructor; [exact Hc1|constructor]]. }
          { exact Hc2. }
          { rewrite map_app, list_sum_app. cbn [map]. rewrite sum_cons. change (list_sum []) with 0. lia. }
          { rewrite map_app, list_sum_app. cbn [map]. rewrite sum_cons. change (list_sum []) with 0. lia. }
          exists xs. split; [exact Ex|]. split; [exact Ox|]. rewrite Lx, map_app, concat_app. cbn [map concat]. rewrite app_nil_r, <- app_assoc. reflexivity.
  Qed.
End Rechunk.

(** * Mapping over parts *)
Lemma mapM_good (f : nat -> array -> result array) l : forall s, (forall k c, In c l -> good (f k) c) ->
  exists xs, mapM (fun kc => f (fst kc) (snd kc)) (combine (seq s (length l)) l) = Ok xs /\ Forall2 same l xs.
Proof.
  induction l as [|c l IH]; intros s H; [exists []; split; [reflexivity|constructor]|]. cbn [length seq combine mapM fst snd].
  destruct (H s c (or_introl eq_refl)) as (b & Eb & Sb). rewrite Eb. cbn [bind]. destruct (IH (S s)) as (xs & Ex & Sx); [intros; apply H; right; assumption|].
  rewrite Ex. cbn [bind]. exists (b :: xs). split; [reflexivity|constructor; assumption].
Qed.
Lemma good_struct f ns fls n v : wf g (AStruct ns fls n v) -> (forall k c, In c fls -> good (f k) c) -> good (do_struct f) (AStruct ns fls n v).
Proof.
  intros W H. unfold good, do_struct. destruct (mapM_good f fls 0 H) as (xs & E & Sx). rewrite E. cbn [bind].
  apply wf_struct_iff in W. destruct W as (W1 & W2 & W3). pose proof (ArrSliceMain.Forall2_length _ _ _ Sx) as Lx.
  assert (Forall (fun x => wf g x /\ alen x = n) xs /\ map logical xs = map logical fls /\ map adtype xs = map adtype fls) as (X1 & X2 & X3).
  { clear - Sx W3. induction Sx as [|c x fls xs Sc Sx IH]; [repeat split; constructor|]. inversion W3 as [|? ? [V1 V2] V3]; subst. destruct (IH V3) as (I1 & I2 & I3).
    pose proof (same_alen _ _ Sc) as Al. destruct Sc as (S1 & S2 & S3 & _). split; [constructor; [split; [exact S1|exact Al]|exact I1]|]. cbn [map]. split; congruence. }
  unfold try_struct. rewrite <- Lx, W1, Nat.eqb_refl. cbn [negb]. rewrite (proj2 (forallb_forall _ _)) by (intros x Hx; apply Nat.eqb_eq; rewrite Forall_forall in X1; apply (X1 x Hx)).
  rewrite (proj2 (vfits_vwf _ _) W2). cbn [negb]. eexists. split; [reflexivity|]. split; [apply wf_struct_iff; split; [lia|split; assumption]|].
  split; [cbn [logical]; rewrite X2; reflexivity|]. split; [cbn [adtype]; rewrite X3; reflexivity|]. split; [intros _; exact I|exact I].
Qed.
Lemma good_chunks `{md : mode} nb tb tr f d cs : wf g (AChunked d cs) -> input_ok (AChunked d cs) ->
  (forall k c, wf g c -> input_ok c -> sbytes c <= sbytes (AChunked d cs) -> alen c <= alen (AChunked d cs) -> good (f k) c) -> good (do_chunks nb tb tr f) (AChunked d cs).
Proof.
  intros W C H. apply input_chunked in C. destruct C as [P C]. apply wf_chunked_g in W; [|exact P].
  assert (Forall (inv d) cs) as Iv by (rewrite Forall_forall in *; intros c Hc; destruct (W c Hc), (C c Hc); repeat split; auto).
  unfold good, do_chunks, rechunk.
  destruct (rechunk_ok nb tb tr d P (sbytes (AChunked d cs)) (alen (AChunked d cs)) cs [] 0 0 ltac:(constructor) Iv) as (cs' & E & O & L).
  { cbn [sbytes map]. change (list_sum []) with 0. lia. }
  { cbn [alen map]. change (list_sum []) with 0. lia. }
  rewrite E. cbn [bind]. destruct (mapM_good f cs' 0) as (xs & Ex & Sx).
  { intros k c Hc. rewrite Forall_forall in O. destruct (O c Hc) as (O1 & O2 & O3 & O4 & O5). apply H; assumption. }
  rewrite Ex. cbn [bind].
  assert (Forall (fun x => wf g x /\ adtype x = d) xs /\ map logical xs = map logical cs') as (X1 & X2).
  { clear - Sx O. induction Sx as [|c x cs' xs Sc Sx IH]; [split; constructor|]. inversion O as [|? ? O1 O2]; subst. destruct (IH O2) as (I1 & I2).
    destruct Sc as (S1 & S2 & S3 & _). destruct O1 as (_ & O1 & _). split; [constructor; [split; congruence|exact I1]|]. cbn [map]. congruence. }
  unfold try_chunked. rewrite (proj2 (forallb_forall _ _)) by (intros x Hx; apply dtype_eqb_eq; rewrite Forall_forall in X1; apply (X1 x Hx)).
  eexists. split; [reflexivity|]. split; [apply wf_chunked_g; assumption|]. split; [cbn [logical]; rewrite X2; exact L|]. split; [reflexivity|]. split; [intros _; exact I|exact I].
Qed.
