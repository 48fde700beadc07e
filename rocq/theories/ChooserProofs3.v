(** Proofs about the choices of the sampling compressor: samples, and the whole recursion. *)
From Verif Require Import Base Spec SearchModel Arr ArrRead ArrWf ArrReadProofs ArrSlice ArrSliceProofs ArrSliceMain PropSlice ValidityModel PropValidity StatsModel StatsProofs StatsProofs2
  StatsProofs3 PropStats ArrOps OpsBase OpsMain IntEnc RunEnc DictEnc Sampling PropSampling PropIntEnc PropDict PropRead PropOps CmpProofs
  Compressor CompressorSpec CompressorProofs CompressorProofs2 CompressorProofs3 CompressorProofs4 Chooser ChooserProofs ChooserProofs2.
Local Notation g := decodable.
Local Existing Instance careful_inputs.

(** * Samples *)
Definition sampled (a : array) : Prop := match a with APrim _ _ _ | AView _ _ _ _ | AVarBin _ _ _ _ => True | _ => False end.
Lemma sampled_dec a : sampled a -> wf g a -> input_ok a -> wf f_dec a.
Proof.
  intros H W C. destruct a; try contradiction H; [exact W|exact W|]. cbn [input_ok] in C. destruct C as [_ C]. apply C. reflexivity.
Qed.
Lemma sampled_type a : sampled a -> input_ok a -> plain (adtype a) = true /\ flat (adtype a) = true /\ not_struct (adtype a) /\ sbytes a = total_bytes (str_opts (logical a)).
Proof.
  intros H C. destruct a; try contradiction H; cbn [input_ok adtype] in *.
  - repeat split.
  - subst. repeat split.
  - destruct C as [-> _]. repeat split.
Qed.
Lemma slice_inv a x y : sampled a -> wf g a -> input_ok a -> x <= y -> y <= alen a ->
  exists b, slice a x y = Ok b /\ inv (adtype a) b /\ logical b = spec_slice (logical a) x y.
Proof.
  intros H W C Hx Hy. pose proof (sampled_dec a H W C) as Wd.
  destruct (slice_commutes_with_decoding f_dec a x y Wd Hx ltac:(rewrite logical_length; exact Hy) ltac:(left; reflexivity)) as (b & Eb & Wb & Db & _ & Lb).
  exists b. split; [exact Eb|]. split; [|exact Lb]. split; [apply (wf_fle _ _ _ fle_dec Wb)|]. split; [exact Db|].
  destruct a; try contradiction H; cbn [slice alen] in *; rewrite slice_good in Eb by assumption.
  - destruct (vslice v x y) as [w| |]; try discriminate Eb. cbn [bind] in Eb. unfold try_prim in Eb. destruct (vfits _ _); [|discriminate Eb]. injection Eb as <-.
    split; [|exact I]. cbn [input_ok] in *. apply Forall_lslice. exact C.
  - destruct (vslice v x y) as [w| |]; try discriminate Eb. cbn [bind] in Eb. unfold try_view in Eb. destruct (negb _); [discriminate Eb|]. injection Eb as <-.
    split; [|exact I]. exact C.
  - destruct (slice a x (y + 1)) as [o| |]; try discriminate Eb. cbn [bind] in Eb. destruct (vslice v x y) as [w| |]; try discriminate Eb. cbn [bind] in Eb.
    assert (b = AVarBin utf8 o bytes w) as ->.
    { unfold try_varbin in Eb. repeat match type of Eb with (if ?c then _ else _) = _ => destruct c; [discriminate Eb|] end. congruence. }
    split; [|exact I]. cbn [input_ok] in *. split; [exact (proj1 C)|]. exact (fun _ => Wb).
Qed.
Lemma total_subseq l1 l2 : subseq l1 l2 -> total_bytes (str_opts l1) <= total_bytes (str_opts l2).
Proof.
  unfold str_opts. induction 1 as [|x l1 l2 H IH|x l1 l2 H IH]; [lia| |].
  - change (map ?f (x :: l2)) with (map f [x] ++ map f l2). rewrite total_bytes_app. lia.
  - change (map ?f (x :: l2)) with (map f [x] ++ map f l2). change (map ?f (x :: l1)) with (map f [x] ++ map f l1). rewrite !total_bytes_app. lia.
Qed.
Lemma take_sample_ok draw size count a : sampled a -> wf g a -> input_ok a -> 0 < size -> 0 < count -> (Z.of_nat count * Z.of_nat size <= 65535)%Z -> count * size < alen a ->
  exists s, take_sample draw size count a = Ok s /\ wf g s /\ input_ok s /\ adtype s = adtype a /\ alen s = count * size /\ sbytes s <= sbytes a.
Proof.
  intros H W C Hs Hc Hm HL. destruct (sample_slices_are_stratified draw (alen a) size count Hs Hc Hm) as (ss & E & A & _ & _).
  destruct (sampled_type a H C) as (P & Fl & Ns & Sb).
  assert (exists s ss', take_sample draw size count a = Ok s /\ stratified_slices draw (alen a) size count = Ok ss' /\
    logical s = concat (map (fun r => spec_slice (logical a) (fst r) (snd r)) ss') /\ subseq (logical s) (logical a) /\ length (logical s) = count * size) as (s & ss' & Es & _ & _ & Su & Ln).
  { destruct (sample_is_a_subsequence draw size count a (sampled_dec a H W C)) as (s & ss' & X1 & X2 & X3 & X4 & X5 & _).
    - destruct (adtype a); try exact I; [contradiction|discriminate P].
    - exact Hs.
    - exact Hc.
    - exact Hm.
    - rewrite logical_length. exact HL.
    - exists s, ss'. auto. }
  exists s. split; [exact Es|]. unfold take_sample in Es. rewrite E in Es. cbn [bind] in Es. pose proof (apart_in _ _ _ A) as AI.
  assert (exists cs, mapM (fun r => slice a (fst r) (snd r)) ss = Ok cs /\ Forall (inv (adtype a)) cs /\
            map logical cs = map (fun r => spec_slice (logical a) (fst r) (snd r)) ss) as (cs & Ec & Wc & Lc).
  { clear - W H C AI. induction AI as [|[x y] r (H1 & H2 & H3) AI IH]; [exists []; repeat split; constructor|]. cbn [fst snd] in *.
    destruct (slice_inv a x y H W C H2 H3) as (b & Eb & Ib & Lb).
    destruct IH as (cs & Ec & Wc & Lc). exists (b :: cs). cbn [mapM fst snd]. rewrite Eb. cbn [bind]. rewrite Ec. cbn [bind].
    split; [reflexivity|]. split; [constructor; auto|]. cbn [map fst snd]. congruence. }
  rewrite Ec in Es. cbn [bind] in Es. destruct (combine_ok (adtype a) cs P Wc) as (r & Er & R1 & R2 & R3 & R4 & _). unfold combine_chunks in Er. rewrite Er in Es. injection Es as <-.
  split; [exact R1|]. split; [exact R3|]. split; [exact R2|]. rewrite <- logical_length, Ln. split; [reflexivity|].
  rewrite Sb, (sbytes_flat r g R1) by (rewrite R2; exact Fl). apply total_subseq, Su.
Qed.

(** Samples are decoded: never sparse arrays. *)
Lemma chunked_canon_not_sparse d cs v i x o len fl : chunked_canon d cs v <> Ok (ASparse i x o len fl).
Proof.
  unfold chunked_canon. destruct (negb _); [discriminate|]. destruct d.
  - discriminate.
  - destruct (mapM _ cs); cbn [bind]; try discriminate. unfold try_bool. repeat match goal with |- (if ?c then _ else _) <> _ => destruct c end; discriminate.
  - destruct (mapM _ cs); cbn [bind]; try discriminate. unfold try_prim. destruct (vfits _ _); discriminate.
  - destruct (mapM _ cs) as [vs| |]; cbn [bind]; try discriminate. destruct (pack_views [] [] vs). unfold try_view. destruct (negb _); discriminate.
  - destruct (mapM _ cs) as [vs| |]; cbn [bind]; try discriminate. destruct (pack_views [] [] vs). unfold try_view. destruct (negb _); discriminate.
  - destruct (mapM _ _) as [vs| |]; cbn [bind]; try discriminate. unfold try_struct. repeat match goal with |- (if ?c then _ else _) <> _ => destruct c end; discriminate.
  - destruct (mapM _ _) as [[|s0 r]| |]; cbn [bind]; try discriminate. destruct (try_chunked _ _); discriminate.
Qed.
Lemma canon_chunked_not_sparse d cs i x o len fl : canon (AChunked d cs) <> Ok (ASparse i x o len fl).
Proof.
  intros E. unfold canon in E. change (depth (AChunked d cs)) with (S (list_max (map depth cs))) in E. cbn [ops] in E. set (rec := ops _) in E. cbn [ops_step o_canon] in E.
  set (lv := if nullable d then _ else _) in E. clearbody lv. destruct lv as [v| |]; [|discriminate E|discriminate E]. cbn [bind] in E. apply (chunked_canon_not_sparse _ _ _ _ _ _ _ _ E).
Qed.

(** * Everything *)
Section Chooser.
  Variable nb : array -> nat.
  Variables target_bytes target_rows sample_size sample_count max_cost overhead : nat.
  Variable draw : nat -> nat.
  Variable above_one : ratio -> bool.
  Variable exceeds : ratio -> ratio -> bool.
  Variable long_runs : array -> bool.
  Variable insert : codec -> list codec -> list codec.
  Hypotheses (Hsize : 0 < sample_size) (Hcount : 0 < sample_count) (Hmul : (Z.of_nat sample_count * Z.of_nat sample_size <= 65535)%Z).
  Local Notation codec_compress := (codec_compress nb target_bytes target_rows above_one exceeds insert).
  Local Notation can_compress := (can_compress long_runs).
  Local Notation find_go := (find_go nb target_bytes target_rows overhead above_one exceeds long_runs insert).
  Local Notation find_best := (find_best nb target_bytes target_rows overhead above_one exceeds long_runs insert).
  Local Notation step_array := (step_array nb target_bytes target_rows sample_size sample_count max_cost overhead draw above_one exceeds long_runs insert).
  Local Notation step := (step nb target_bytes target_rows sample_size sample_count max_cost overhead draw above_one exceeds long_runs insert).
  Local Notation both := (both nb target_bytes target_rows sample_size sample_count max_cost overhead draw above_one exceeds long_runs insert).

  Section Step.
    Variable rec : recursion.
    Variable reca : ctx -> array -> result compressed.
    Variables n m : nat.
    Hypothesis rec_fine : forall x k e, small n m e -> tokl (adtype e) k = true -> fine (rec x k e) e.
    Hypothesis reca_fine : forall x e, small n m e -> fine (reca x e) e.
    Hypothesis rec_empty : forall x k e, alen e = 0 -> rec x k e = Ok (uncompressed e).
    Hypothesis Hm : Z.of_nat m = pmax I32.
    Hypothesis Hn : (Z.of_nat n <= pmax U64)%Z.
    Definition ready (a : array) : Prop := wf g a /\ input_ok a /\ S (alen a) <= n /\ sbytes a <= m.

    Lemma codec_ready c like x a : ready a -> alen a <> 0 -> tokl (adtype a) like = true -> rooted c like -> can_compress c a = true -> fine (codec_compress rec reca c like x a) a.
    Proof.
      intros (W & C & L & B) N T R Ap. apply (fine_codec nb target_bytes target_rows above_one exceeds long_runs insert rec reca n m); auto.
      - generalize dependent (pmax I32). intros. lia.
      - generalize dependent (pmax U64). intros. lia.
      - generalize dependent (pmax I32). intros. lia.
    Qed.
    Definition from (cs : list codec) (a : array) (t : option tree) : Prop := forall u, t = Some u -> In (troot u) cs /\ can_compress (troot u) a = true.
    Lemma find_go_ok x a : ready a -> alen a <> 0 -> forall cs obj best, (forall z, best = Some z -> fine (Ok z) a) ->
      exists best', find_go rec reca cs a x obj best = Ok best' /\
        (forall z, best' = Some z -> fine (Ok z) a /\ (best = Some z \/ from cs a (snd z))).
    Proof.
      intros Ra N. induction cs as [|c cs IH]; intros obj best Hb; [exists best; split; [reflexivity|]; auto|].
      cbn [Chooser.find_go]. destruct (can_compress c a) eqn:Ap.
      - destruct (codec_ready c None (for_compressor c x) a Ra N eq_refl ltac:(intros t H; discriminate H) Ap) as (b & t & E & Sm & Tt).
        rewrite E. cbn [bind]. assert (fine (Ok (b, t)) a) as Fz by (exists b, t; auto).
        assert (from (c :: cs) a t) as Fr by (intros u ->; apply codec_root in E; rewrite E; split; [left; reflexivity|exact Ap]).
        destruct (_ <? obj).
        + destruct (IH (objective nb overhead (b, t)) (Some (b, t))) as (best' & E' & H'); [intros z [= <-]; exact Fz|]. exists best'. split; [exact E'|].
          intros z Hz. destruct (H' z Hz) as [H1 [[= <-]|H2]]; (split; [exact H1|]); right; [exact Fr|]. intros u Hu. destruct (H2 u Hu) as [H3 H4]. split; [right; exact H3|exact H4].
        + destruct (IH obj best Hb) as (best' & E' & H'). exists best'. split; [exact E'|].
          intros z Hz. destruct (H' z Hz) as [H1 [H2|H2]]; (split; [exact H1|]); [left; exact H2|right]. intros u Hu. destruct (H2 u Hu) as [H3 H4]. split; [right; exact H3|exact H4].
      - destruct (IH obj best Hb) as (best' & E' & H'). exists best'. split; [exact E'|].
        intros z Hz. destruct (H' z Hz) as [H1 [H2|H2]]; (split; [exact H1|]); [left; exact H2|right]. intros u Hu. destruct (H2 u Hu) as [H3 H4]. split; [right; exact H3|exact H4].
    Qed.
    Lemma find_best_ok cs x a : ready a -> alen a <> 0 -> fine (find_best rec reca cs a x) a /\ forall b t, find_best rec reca cs a x = Ok (b, t) -> from cs a t.
    Proof.
      intros Ra N. destruct (find_go_ok x a Ra N cs (nb a) None ltac:(discriminate)) as (best & E & H). unfold Chooser.find_best. rewrite E. cbn [bind].
      destruct best as [z|].
      - destruct (H z eq_refl) as [H1 [H2|H2]]; [discriminate H2|]. split; [exact H1|]. intros b t [= ->]. exact H2.
      - split; [apply fine_keep, Ra|]. intros b t [= <- <-]. intros u Hu. discriminate Hu.
    Qed.
    Lemma candidates_in x a c : In c (candidates max_cost long_runs x a) -> can_compress c a = true.
    Proof.
      unfold candidates. set (cs := filter _ (enabled x)). intros H.
      assert (In c cs) as H'. { destruct (1 <? length cs); [apply filter_In in H; apply H|exact H]. }
      apply filter_In in H'. destruct H' as [_ H']. apply andb_true_iff in H'. destruct H' as [H' _]. apply andb_true_iff in H'. apply H'.
    Qed.
    (** Arrays with candidates. *)
    Lemma candidate_kind x a c : In c (candidates max_cost long_runs x a) -> can_compress CConst a = false ->
      match a with AConst _ _ _ | AChunked _ _ | AStruct _ _ _ _ => False | _ => True end -> sampled a \/ (c = CSparse /\ exists ix vs o len fl, a = ASparse ix vs o len fl).
    Proof.
      intros H NC K. apply candidates_in in H. destruct a; try contradiction K; try (left; exact I);
        try (destruct c; first [congruence|discriminate H]).
      destruct c; try (first [congruence|discriminate H]). right. split; [reflexivity|]. eauto 10.
    Qed.
    Lemma sparse_nothing cs s x obj best : Forall (eq CSparse) cs -> can_compress CSparse s = false -> find_go rec reca cs s x obj best = Ok best.
    Proof. intros F N. revert obj. induction F as [|c cs <- F IH]; intros obj; [reflexivity|]. cbn [Chooser.find_go]. rewrite N. apply IH. Qed.

    Lemma step_array_fine x a : ready a -> fine (step_array rec reca x a) a.
    Proof.
      intros Ra. unfold Chooser.step_array. destruct (Nat.eqb_spec (alen a) 0) as [_|N]; [apply fine_keep, Ra|].
      assert (match a with AConst _ _ _ | AChunked _ _ | AStruct _ _ _ _ => False | _ => True end \/ match a with AConst _ _ _ | AChunked _ _ | AStruct _ _ _ _ => True | _ => False end) as [K|K] by (destruct a; auto).
      2:{ destruct a; try contradiction K; [apply codec_ready| apply fine_keep, Ra|apply codec_ready]; auto; intros t H; discriminate H. }
      set (body := if can_compress CConst a then _ else _).
      assert (fine body a) as G.
      2:{ destruct a; try contradiction K; exact G. }
      unfold body. clear body. destruct (can_compress CConst a) eqn:EC; [apply codec_ready; auto; intros t H; discriminate H|].
      destruct (candidates max_cost long_runs x a) as [|c0 r] eqn:Ecs; [apply fine_keep, Ra|]. rewrite <- Ecs.
      destruct (Nat.leb_spec (alen a) (sample_size * sample_count)) as [_|Hlen]; [apply find_best_ok; assumption|].
      destruct (candidate_kind x a c0 ltac:(rewrite Ecs; left; reflexivity) EC K) as [Sa|(-> & ix & vs & o & len & fl & ->)].
      - pose proof Ra as (W & C & L & B). destruct (take_sample_ok draw sample_size sample_count a Sa W C Hsize Hcount Hmul ltac:(lia)) as (s & Es & S1 & S2 & S3 & S4 & S5).
        rewrite Es. cbn [bind].
        assert (ready s) as Rs by (split; [exact S1|split; [exact S2|lia]]).
        destruct (find_best_ok (candidates max_cost long_runs x a) x s Rs ltac:(nia)) as [(b & t & Eb & _ & Tt) Fr]. rewrite Eb. cbn [bind]. destruct t as [u|]; [|apply fine_keep, W].
        destruct (Fr b (Some u) Eb u eq_refl) as [F1 _]. apply codec_ready; [exact Ra|exact N|rewrite <- S3; exact Tt|intros t [= <-]; reflexivity|].
        apply (candidates_in x), F1.
      - pose proof Ra as (W & C & L & B). set (a := ASparse ix vs o len fl) in *.
        assert (wf f_dec a) as Wd by (cbn [input_ok a] in C; apply C; reflexivity).
        destruct (sample_is_a_subsequence draw sample_size sample_count a Wd) as (s & ss & Es & _ & _ & _ & Ls & _).
        { unfold a. cbn [adtype]. cbn [wf a] in W. cbv zeta in W. destruct W as (_ & _ & _ & _ & _ & _ & _ & _ & _ & W10 & _). destruct (adtype vs); try exact I; discriminate W10. }
        { exact Hsize. } { exact Hcount. } { exact Hmul. } { rewrite logical_length. lia. }
        rewrite Es. cbn [bind]. unfold Chooser.find_best. rewrite sparse_nothing.
        + cbn [bind]. apply fine_keep, W.
        + apply Forall_forall. intros c Hc. destruct (candidate_kind x a c Hc EC K) as [[]|[-> _]]. reflexivity.
        + unfold take_sample in Es. destruct (stratified_slices _ _ _ _) as [ss'| |]; try discriminate Es. cbn [bind] in Es. destruct (mapM _ ss') as [cs| |]; try discriminate Es. cbn [bind] in Es.
          unfold try_chunked in Es. destruct (forallb _ cs); [|discriminate Es]. cbn [bind] in Es.
          destruct s; try reflexivity. exfalso. apply (canon_chunked_not_sparse _ _ _ _ _ _ _ Es).
    Qed.
    Lemma step_fine x like a : ready a -> tokl (adtype a) like = true -> fine (step rec reca x like a) a.
    Proof.
      intros Ra T. unfold Chooser.step. destruct (Nat.eqb_spec (alen a) 0) as [_|N]; [apply fine_keep, Ra|]. destruct like as [t|]; [|apply step_array_fine, Ra].
      destruct (can_compress (troot t) a) eqn:Ap; [|apply step_array_fine, Ra]. apply codec_ready; auto. intros u [= <-]. reflexivity.
    Qed.
  End Step.

  Lemma both_fine fuel : forall x like a, wf g a -> input_ok a -> (Z.of_nat (alen a + fuel) < pmax U64)%Z -> (Z.of_nat (sbytes a) <= pmax I32)%Z ->
    (tokl (adtype a) like = true -> fine (fst (both fuel) x like a) a) /\ fine (snd (both fuel) x a) a.
  Proof.
    induction fuel as [|fuel IH]; intros x like a W C Hu Hs; [split; [intros _|]; apply fine_keep, W|].
    cbn [Chooser.both fst snd].
    assert (forall e, small (S (alen a)) (Z.to_nat (pmax I32)) e -> wf g e /\ input_ok e /\ (Z.of_nat (alen e + fuel) < pmax U64)%Z /\ (Z.of_nat (sbytes e) <= pmax I32)%Z) as Sm.
    { intros e (E1 & E2 & E3 & E4). split; [exact E1|]. split; [exact E2|]. assert (0 <= pmax I32)%Z as P by (vm_compute; discriminate). generalize dependent (pmax U64). generalize dependent (pmax I32). intros. lia. }
    assert (Z.of_nat (Z.to_nat (pmax I32)) = pmax I32) as Hm by (apply Z2Nat.id; vm_compute; discriminate).
    assert (Z.of_nat (S (alen a)) <= pmax U64)%Z as Hn by (generalize dependent (pmax U64); intros; lia).
    assert (ready (S (alen a)) (Z.to_nat (pmax I32)) a) as Ra.
    { split; [exact W|]. split; [exact C|]. split; [lia|]. generalize dependent (pmax I32). intros. lia. }
    assert (forall x k e, small (S (alen a)) (Z.to_nat (pmax I32)) e -> tokl (adtype e) k = true -> fine (fst (both fuel) x k e) e) as F1.
    { intros x' k e He Tk. destruct (Sm e He) as (E1 & E2 & E3 & E4). apply (IH x' k e E1 E2 E3 E4), Tk. }
    assert (forall x e, small (S (alen a)) (Z.to_nat (pmax I32)) e -> fine (snd (both fuel) x e) e) as F2.
    { intros x' e He. destruct (Sm e He) as (E1 & E2 & E3 & E4). apply (IH x' None e E1 E2 E3 E4). }
    assert (forall x k e, alen e = 0 -> fst (both fuel) x k e = Ok (uncompressed e)) as F3.
    { intros x' k e He. destruct fuel; [reflexivity|]. cbn [Chooser.both fst]. unfold Chooser.step. rewrite He. reflexivity. }
    split; [intros T; apply (step_fine _ _ _ _ F1 F2 F3 Hm Hn); assumption|apply (step_array_fine _ _ _ _ F1 F2 F3 Hm Hn); assumption].
  Qed.
End Chooser.
