(** C53: the choices the sampling compressor makes — by trying encodings on samples, comparing sizes and reusing the choices made for
    earlier chunks — never lose data, never fail, and follow its configuration. *)
From Verif Require Import Base Spec SearchModel Arr ArrRead ArrWf ArrSlice ValidityModel StatsModel StatsProofs PropStats ArrOps IntEnc RunEnc DictEnc Sampling PropIntEnc PropDict PropRead PropOps PropOpsX
  Compressor CompressorSpec CompressorProofs CompressorProofs4 Chooser ChooserProofs ChooserProofs2 ChooserProofs3 ChooserCost.
Local Notation g := decodable.
Local Existing Instance careful_inputs.

(** * Specification of the cost limit *)
(** Frame of reference, run-end and dictionary encoding cost one each; everything else is free. *)
Definition price (c : codec) : nat :=
  match c with CFoR => 1 | CRunEnd => 1 | CDict => 1 | CZigZag => 0 | CBit _ => 0 | CConst => 0 | CSparse => 0 | CChunked => 0 | CStruct => 0 end.
(** The largest total price of encodings nested in each other, and the number of encodings inside the outermost one. *)
Fixpoint nesting (t : tree) : nat :=
  match t with Tree c ts _ => price c + list_max (map (fun o => match o with Some u => nesting u | None => 0 end) ts) end.
Fixpoint inner (t : tree) : nat :=
  match t with Tree _ ts _ => list_sum (map (fun o => match o with Some u => inner u + 1 | None => 0 end) ts) end.

Section Chooser.
  (** Everything the choices depend on is arbitrary: the sizes of arrays, the configuration, the random numbers, the comparisons of
      ratios, the run-length test, the order of the set of compressors; and so are the context and the depth of the recursion. *)
  Variable nb : array -> nat.
  Variables target_bytes target_rows sample_size sample_count max_cost overhead : nat.
  Variable draw : nat -> nat.
  Variable above_one : ratio -> bool.
  Variable exceeds : ratio -> ratio -> bool.
  Variable long_runs : array -> bool.
  Variable insert : codec -> list codec -> list codec.
  Local Notation compress := (compress nb target_bytes target_rows sample_size sample_count max_cost overhead draw above_one exceeds long_runs insert).
  Local Notation compress_array := (compress_array nb target_bytes target_rows sample_size sample_count max_cost overhead draw above_one exceeds long_runs insert).
  Local Notation try_codec := (codec_compress nb target_bytes target_rows above_one exceeds insert).
  Local Notation can_compress := (can_compress long_runs).

  Section Safe.
    (** Samples are not empty and their number fits in 16 bits (see [sampling_overflow_refuted], [empty_samples_refuted]). *)
    Hypotheses (Hsize : 0 < sample_size) (Hcount : 0 < sample_count) (Hmul : (Z.of_nat sample_count * Z.of_nat sample_size <= 65535)%Z).

    (** Compressing succeeds, and neither the type nor the values change. *)
Theorem chosen_encodings_preserve_values :
      forall (fuel : nat) (x : ctx) (a : array),
      wf g a -> input_ok a -> (Z.of_nat (alen a + fuel) < pmax U64)%Z -> (Z.of_nat (sbytes a) <= pmax I32)%Z ->
      exists b t, compress fuel x None a = Ok (b, t) /\ wf g b /\ adtype b = adtype a /\ logical b = logical a.
    Proof.
      intros fuel x a W C Hu Hs.
      destruct (proj1 (both_fine nb target_bytes target_rows sample_size sample_count max_cost overhead draw above_one exceeds long_runs insert Hsize Hcount Hmul fuel x None a W C Hu Hs) eq_refl)
        as (b & t & E & (B1 & B2 & B3 & _) & _).
      exists b, t. auto.
    Qed.

    (** The choices made for one array may be reused for any other array of the same type, whatever they were. *)
Theorem reused_choices_preserve_values :
      forall (fuel fuel' : nat) (x x' : ctx) (a a' b : array) (t : option tree),
      wf g a -> input_ok a -> (Z.of_nat (alen a + fuel) < pmax U64)%Z -> (Z.of_nat (sbytes a) <= pmax I32)%Z ->
      wf g a' -> input_ok a' -> (Z.of_nat (alen a' + fuel') < pmax U64)%Z -> (Z.of_nat (sbytes a') <= pmax I32)%Z ->
      adtype a' = adtype a -> compress fuel x None a = Ok (b, t) ->
      exists b' t', compress fuel' x' t a' = Ok (b', t') /\ wf g b' /\ adtype b' = adtype a' /\ logical b' = logical a'.
    Proof.
      intros fuel fuel' x x' a a' b t W C Hu Hs W' C' Hu' Hs' D E.
      destruct (proj1 (both_fine nb target_bytes target_rows sample_size sample_count max_cost overhead draw above_one exceeds long_runs insert Hsize Hcount Hmul fuel x None a W C Hu Hs) eq_refl)
        as (b0 & t0 & E0 & _ & T0). unfold Chooser.compress in E. rewrite E0 in E. injection E as -> ->. rewrite <- D in T0.
      destruct (proj1 (both_fine nb target_bytes target_rows sample_size sample_count max_cost overhead draw above_one exceeds long_runs insert Hsize Hcount Hmul fuel' x' t a' W' C' Hu' Hs') T0)
        as (b' & t' & E' & (B1 & B2 & B3 & _) & _).
      exists b', t'. auto.
    Qed.
  End Safe.

  (** Arrays whose encoding is chosen by trying: not constants, chunks or structs, which have their own rules. *)
  Definition tried (a : array) : Prop :=
    alen a <> 0 /\ match a with AConst _ _ _ | AChunked _ _ | AStruct _ _ _ _ => False | _ => True end /\ s_const (stats_after KConst a) <> Some true.
  (** The compressors that may be tried. *)
  Definition allowed (x : ctx) (a : array) (c : codec) : Prop :=
    In c (enabled x) /\ mem c (disabled x) = false /\ can_compress c a = true /\ cdepth x + price c <= max_cost.

  Lemma tried_const a : tried a -> can_compress CConst a = false.
  Proof.
    intros (N & _ & H). cbn [Chooser.can_compress]. rewrite (proj2 (Nat.eqb_neq _ _) N). cbn [negb andb]. destruct (s_const _) as [[]|]; congruence.
  Qed.
  Lemma candidates_allowed x a c : In c (candidates max_cost long_runs x a) -> allowed x a c.
  Proof.
    unfold candidates. set (cs := filter _ (enabled x)). intros H.
    assert (In c cs) as H'. { destruct (1 <? length cs); [apply filter_In in H; apply H|exact H]. }
    apply filter_In in H'. destruct H' as [H0 H']. apply andb_true_iff in H'. destruct H' as [H' H3]. apply andb_true_iff in H'. destruct H' as [H1 H2].
    split; [exact H0|]. split; [apply negb_true_iff, H1|]. split; [exact H2|]. change price with cost. apply Nat.leb_le, H3.
  Qed.
  Lemma codec_eqb_eq c c' : codec_eqb c c' = true -> c = c'.
  Proof. destruct c, c'; cbn; try discriminate; try reflexivity. intros H. apply Bool.eqb_prop in H. congruence. Qed.
  Lemma allowed_candidates x a c : allowed x a c -> own_codec a <> Some c -> In c (candidates max_cost long_runs x a).
  Proof.
    intros (H0 & H1 & H2 & H3) No. unfold candidates. set (cs := filter _ (enabled x)).
    assert (In c cs) as H'. { apply filter_In. split; [exact H0|]. rewrite H1, H2. cbn [negb andb]. apply Nat.leb_le, H3. }
    destruct (1 <? length cs); [|exact H']. apply filter_In. split; [exact H'|]. destruct (own_codec a) as [o|]; [|reflexivity]. apply negb_true_iff.
    destruct (codec_eqb c o) eqn:E; [|reflexivity]. apply codec_eqb_eq in E. congruence.
  Qed.
  Lemma find_go_best rec reca s x : forall cs obj best z0, (forall z, best = Some z -> objective nb overhead z = obj) ->
    find_go nb target_bytes target_rows overhead above_one exceeds long_runs insert rec reca cs s x obj best = Ok z0 ->
    match z0 with
    | Some z => objective nb overhead z <= obj /\ (best = Some z \/ exists c, In c cs /\ objective nb overhead z < obj /\ can_compress c s = true /\ try_codec rec reca c None (for_compressor c x) s = Ok z)
    | None => best = None
    end /\
    (forall c z, In c cs -> can_compress c s = true -> try_codec rec reca c None (for_compressor c x) s = Ok z ->
      match z0 with Some z' => objective nb overhead z' <= objective nb overhead z | None => obj <= objective nb overhead z end).
  Proof.
    induction cs as [|c cs IH]; intros obj best z0 Hb E; cbn [find_go] in E.
    - injection E as <-. split; [|intros ? ? []]. destruct best as [z|]; [|reflexivity]. split; [rewrite (Hb z eq_refl); lia|left; reflexivity].
    - destruct (can_compress c s) eqn:Ap.
      + destruct (try_codec rec reca c None (for_compressor c x) s) as [z| |] eqn:Ez; try discriminate E. cbn [bind] in E.
        destruct (Nat.ltb_spec (objective nb overhead z) obj) as [Hlt|Hge].
        * assert (forall y, Some z = Some y -> objective nb overhead y = objective nb overhead z) as Hz by (intros y [= <-]; reflexivity).
          destruct (IH _ _ _ Hz E) as [H1 H2]. split.
          -- destruct z0 as [z'|]; [|discriminate H1]. destruct H1 as [H1 [[= <-]|(c' & K1 & K2 & K3 & K4)]].
             ++ split; [lia|]. right. exists c. split; [left; reflexivity|]. auto.
             ++ split; [lia|]. right. exists c'. split; [right; exact K1|]. split; [lia|]. auto.
          -- intros c' y [<-|Hc] A B; [|pose proof (H2 c' y Hc A B) as H3; destruct z0; [exact H3|discriminate H1]].
             rewrite Ez in B. injection B as <-. destruct z0 as [z'|]; [apply H1|discriminate H1].
        * destruct (IH _ _ _ Hb E) as [H1 H2]. split.
          -- destruct z0 as [z'|]; [|exact H1]. destruct H1 as [H1 [K|(c' & K1 & K2)]]; (split; [exact H1|]); [left; exact K|]. right. exists c'. split; [right; exact K1|exact K2].
          -- intros c' y [<-|Hc] A B; [|exact (H2 c' y Hc A B)]. rewrite Ez in B. injection B as <-. destruct z0 as [z'|]; [destruct H1; lia|lia].
      + destruct (IH _ _ _ Hb E) as [H1 H2]. split.
        * destruct z0 as [z'|]; [|exact H1]. destruct H1 as [H1 [K|(c' & K1 & K2)]]; (split; [exact H1|]); [left; exact K|]. right. exists c'. split; [right; exact K1|exact K2].
        * intros c' y [<-|Hc] A B; [congruence|exact (H2 c' y Hc A B)].
  Qed.

  (** An array no longer than a sample is only re-encoded if that makes it smaller (counting [overhead] bytes per nested encoding), and
      then into the smallest result that an allowed compressor gives. *)
Theorem small_arrays_get_the_best_encoding :
    forall (fuel : nat) (x : ctx) (a b : array) (t : option tree),
    tried a -> alen a <= sample_size * sample_count -> compress_array (S fuel) x a = Ok (b, t) ->
    (t = None /\ b = a \/ nb b + overhead * (match t with Some u => inner u | None => 0 end) < nb a) /\
    (forall c b' u, allowed x a c -> own_codec a <> Some c ->
      try_codec (compress fuel) (compress_array fuel) c None (for_compressor c x) a = Ok (b', u) ->
      nb b + overhead * (match t with Some u => inner u | None => 0 end) <= nb b' + overhead * (match u with Some u => inner u | None => 0 end)).
  Proof.
    change inner with descendants.
    intros fuel x a b t Ta Hl E. pose proof (tried_const a Ta) as NC. destruct Ta as (N & K & _).
    unfold Chooser.compress_array in E. cbn [both snd] in E. unfold step_array in E. rewrite (proj2 (Nat.eqb_neq _ _) N) in E. rewrite NC in E. rewrite (proj2 (Nat.leb_le _ _) Hl) in E.
    set (body := match candidates max_cost long_runs x a with [] => _ | _ => _ end) in E.
    assert (body = Ok (b, t)) as Eb by (destruct a; try contradiction K; exact E). clear E.
    assert (exists cs, candidates max_cost long_runs x a = cs /\ find_best nb target_bytes target_rows overhead above_one exceeds long_runs insert (compress fuel) (compress_array fuel) cs a x = Ok (b, t)) as (cs & Ec & Ef).
    { exists (candidates max_cost long_runs x a). split; [reflexivity|]. unfold body in Eb. destruct (candidates max_cost long_runs x a); [exact Eb|exact Eb]. }
    unfold find_best in Ef. destruct (find_go _ _ _ _ _ _ _ _ _ _ cs a x (nb a) None) as [best| |] eqn:Eg; try discriminate Ef. cbn [bind] in Ef.
    destruct (find_go_best _ _ a x cs (nb a) None best ltac:(discriminate) Eg) as [H1 H2].
    assert (forall z, nb (fst z) + overhead * (match snd z with Some u => descendants u | None => 0 end) = objective nb overhead z) as Ob by (intros z; unfold objective; nia).
    destruct best as [z|].
    - injection Ef as ->. destruct H1 as [_ [H1|(c & C1 & C2 & _)]]; [discriminate H1|]. rewrite <- Ob in C2. split; [right; exact C2|].
      intros c' b' u Al Ow Ez. pose proof (allowed_candidates x a c' Al Ow) as Hin. rewrite Ec in Hin. specialize (H2 c' (b', u) Hin ltac:(apply Al) Ez). rewrite <- !Ob in H2. exact H2.
    - injection Ef as <- <-. split; [left; auto|]. intros c' b' u Al Ow Ez. pose proof (allowed_candidates x a c' Al Ow) as Hin. rewrite Ec in Hin.
      specialize (H2 c' (b', u) Hin ltac:(apply Al) Ez). rewrite <- !Ob in H2. cbn [fst snd] in *. lia.
  Qed.

  Lemma codec_none rec reca c like x a b : try_codec rec reca c like x a = Ok (b, None) -> b = a.
  Proof.
    Ltac bndn H := match type of H with
    | bind ?r _ = Ok _ => destruct r as [?v| |]; cbn [bind] in H; [|discriminate H|discriminate H]
    | (let '(_, _) := ?p in _) = Ok _ => destruct p
    | (if ?b then _ else _) = Ok _ => destruct b
    | match ?m with _ => _ end = Ok _ => destruct m; try discriminate H
    end.
    intros H. destruct c; cbn [codec_compress] in H; unfold c_const, c_chunked, c_struct, c_for, c_zigzag, c_bit, c_runend, c_dict, c_sparse, leaf, uncompressed in H; cbv zeta in H;
      repeat (first [discriminate H|injection H as <-; reflexivity|bndn H]).
  Qed.
  Lemma find_go_root rec reca s x (P : codec -> Prop) : forall cs obj best z, (forall c, In c cs -> P c) ->
    (forall b u, best = Some (b, Some u) -> P (troot u)) -> (forall b, best = Some (b, None) -> b = s) ->
    find_go nb target_bytes target_rows overhead above_one exceeds long_runs insert rec reca cs s x obj best = Ok z ->
    (forall b u, z = Some (b, Some u) -> P (troot u)) /\ (forall b, z = Some (b, None) -> b = s).
  Proof.
    induction cs as [|c cs IH]; intros obj best z Hc H1 H2 E; cbn [find_go] in E.
    - injection E as <-. auto.
    - assert (forall c, In c cs -> P c) as Hc' by (intros c' K; apply Hc; right; exact K).
      destruct (can_compress c s); [|exact (IH _ _ _ Hc' H1 H2 E)].
      destruct (try_codec rec reca c None (for_compressor c x) s) as [y| |] eqn:Ey; try discriminate E. cbn [bind] in E.
      destruct (_ <? obj); [|exact (IH _ _ _ Hc' H1 H2 E)]. refine (IH _ _ _ Hc' _ _ E).
      + intros b u [= ->]. rewrite (codec_root _ _ _ _ _ _ _ _ _ _ _ _ _ _ Ey). apply Hc. left. reflexivity.
      + intros b [= ->]. exact (codec_none _ _ _ _ _ _ _ Ey).
  Qed.

  (** Whatever the length, the encoding chosen is enabled, not excluded, applicable to the whole array, and within the cost limit; if
      none is chosen, the array is returned as it is. *)
Theorem chosen_encoding_is_allowed :
    forall (fuel : nat) (x : ctx) (a b : array) (t : option tree),
    tried a -> compress_array (S fuel) x a = Ok (b, t) ->
    match t with Some u => allowed x a (troot u) | None => b = a end.
  Proof.
    intros fuel x a b t Ta E. pose proof (tried_const a Ta) as NC. destruct Ta as (N & K & _).
    unfold Chooser.compress_array in E. cbn [both snd] in E. unfold step_array in E. rewrite (proj2 (Nat.eqb_neq _ _) N) in E. rewrite NC in E.
    set (body := match candidates max_cost long_runs x a with [] => _ | _ => _ end) in E.
    assert (body = Ok (b, t)) as Eb by (destruct a; try contradiction K; exact E). clear E. unfold body in Eb. clear body.
    destruct (candidates max_cost long_runs x a) as [|c0 cs0] eqn:Ec; [injection Eb as <- <-; reflexivity|]. rewrite <- Ec in Eb.
    assert (forall s b' t', find_best nb target_bytes target_rows overhead above_one exceeds long_runs insert (compress fuel) (compress_array fuel) (candidates max_cost long_runs x a) s x = Ok (b', t') ->
      match t' with Some u => allowed x a (troot u) | None => b' = s end) as Fb.
    { intros s b' t' Ef. unfold find_best in Ef. destruct (find_go _ _ _ _ _ _ _ _ _ _ _ s x (nb s) None) as [best| |] eqn:Eg; try discriminate Ef. cbn [bind] in Ef.
      destruct (find_go_root _ _ s x (allowed x a) _ _ None _ (candidates_allowed x a) ltac:(discriminate) ltac:(discriminate) Eg) as [H1 H2].
      destruct best as [[b1 [u|]]|]; injection Ef as <- <-; [exact (H1 _ _ eq_refl)|exact (H2 _ eq_refl)|reflexivity]. }
    destruct (alen a <=? sample_size * sample_count); [exact (Fb a b t Eb)|].
    destruct (take_sample draw sample_size sample_count a) as [s| |]; try discriminate Eb. cbn [bind] in Eb.
    destruct (find_best _ _ _ _ _ _ _ _ _ _ _ s x) as [[b' t']| |] eqn:Ef; try discriminate Eb. cbn [bind] in Eb. specialize (Fb _ _ _ Ef).
    destruct t' as [u|]; [|injection Eb as <- <-; reflexivity].
    destruct t as [v|]; [|exact (codec_none _ _ _ _ _ _ _ Eb)]. rewrite (codec_root _ _ _ _ _ _ _ _ _ _ _ _ _ _ Eb). exact Fb.
  Qed.
  (** The costs of encodings nested in each other never add up to more than the limit, also where choices are reused. *)
Theorem nesting_cost_is_limited :
    forall (fuel : nat) (x : ctx) (a b : array) (t : tree),
    cdepth x <= max_cost -> compress fuel x None a = Ok (b, Some t) -> cdepth x + nesting t <= max_cost.
  Proof.
    change nesting with nested. intros fuel x a b t H E.
    exact (proj1 (cost_both nb target_bytes target_rows sample_size sample_count max_cost overhead draw above_one exceeds long_runs insert fuel) x None a b (Some t) (conj H I) E).
  Qed.
End Chooser.
Print Assumptions chosen_encodings_preserve_values.
Print Assumptions reused_choices_preserve_values.
Print Assumptions small_arrays_get_the_best_encoding.
Print Assumptions chosen_encoding_is_allowed.
Print Assumptions nesting_cost_is_limited.

(** * Examples *)
(** A size in bytes, roughly that of the buffers. *)
Definition vsize (v : validity) (n : nat) : nat := match v with VBits _ => (n + 7) / 8 | _ => 0 end.
Fixpoint size_of (a : array) : nat :=
  match a with
  | ANull _ => 0
  | ABool _ _ _ _ | AByteBool _ _ => alen a
  | APrim p l v => nbits p / 8 * length l + vsize v (length l)
  | AView _ vs bs v => 16 * length vs + list_sum (map (length (A:=Z)) bs) + vsize v (length vs)
  | AVarBin _ o bs v => size_of o + length bs
  | AStruct _ fls n v => list_sum (map size_of fls) + vsize v n
  | AExt _ s => size_of s
  | AConst _ _ _ => 8
  | ASparse i vs _ _ _ => size_of i + size_of vs
  | AChunked _ cs => list_sum (map size_of cs)
  | ADict c vs => size_of c + size_of vs
  | ARunEnd e vs _ _ _ => size_of e + size_of vs
  | AFoR _ e _ _ => size_of e
  | AZigZag e => size_of e
  | ABitPacked _ _ w _ n v q => Z.to_nat w * n / 8 + vsize v n + match q with Some q => size_of q | None => 0 end
  end.
Definition every : list codec := [CConst; CChunked; CStruct; CFoR; CZigZag; CBit true; CRunEnd; CDict; CSparse].
(** Samples of one slice; costs up to 3; two bytes of overhead per nested encoding; ratios compared as fractions. *)
Definition compress_with (size : array -> nat) (rows_per_chunk sample_rows : nat) (enabled : list codec) (like : option tree) (a : array) : result compressed :=
  compress size 100 rows_per_chunk sample_rows 1 3 2 (fun _ => 0) (fun r => snd r <? fst r) (fun r s => 6 * fst s * snd r <? 5 * fst r * snd s)
    (fun _ => true) cons 8 (Ctx enabled [] 0) like a.

(** Two chunks of three columns. The first chunk is sampled; its choices (bit-packing; none; bit-packing of differences) are reused for
    the second chunk, although its last column is constant. *)
Definition rows (l m : list Z) (s : list (list Z)) : array :=
  AStruct [0; 1; 2] [APrim U32 l (VBits (map (fun z => negb (z =? 0)%Z) l)); AView true (map VInl s) [] VNonNull; APrim I64 m VNonNull] (length l) VNonNull.
Definition two_chunks : array :=
  AChunked (DStruct [0; 1; 2] [DPrim U32 true; DUtf8 false; DPrim I64 false] false)
    [rows [7; 0; 7; 7]%Z [5; 5; 5; 9]%Z [[97]; [98]; [97]; [97]]%Z; rows [0; 0; 7]%Z [9; 9; 9]%Z [[97]; [98]; [98]]%Z].
Example two_chunks_hypotheses :
  wf decodable two_chunks /\ input_ok two_chunks /\ (Z.of_nat (alen two_chunks + 8) < pmax U64)%Z /\ (Z.of_nat (sbytes two_chunks) <= pmax I32)%Z.
Proof.
  split; [|split; [|split]].
  - unfold two_chunks. apply wf_chunked_g; [reflexivity|]. constructor; [|constructor; [|constructor]]; (split; [|reflexivity]);
      (apply wf_struct_iff; split; [reflexivity|]; split; [reflexivity|]; constructor; [|constructor; [|constructor; [|constructor]]]; (split; [|reflexivity]); wf_tac; intros _ s Hs; cbn in Hs;
        repeat (destruct Hs as [Hs|Hs]; [injection Hs as <-; reflexivity|]); contradiction).
  - unfold two_chunks. cbn. repeat split; try (repeat constructor; unfold no_neg_zero; cbn; discriminate).
  - apply Z.ltb_lt. reflexivity.
  - apply Z.leb_le. reflexivity.
Qed.
Example two_chunks_choices :
  match compress_with size_of 1 2 every None two_chunks with
  | Ok (AChunked _ [_; AStruct _ [ABitPacked _ _ _ _ _ _ _; AView _ _ _ _; AFoR _ _ _ _] _ _], t) =>
      t = Some (Tree CChunked [Some (Tree CStruct [Some (Tree (CBit true) [None] None); None; Some (Tree CFoR [Some (Tree (CBit true) [None] None)] None)] None)]
                  (Some (Some (67, 113))))
  | _ => False
  end.
Proof. vm_compute. reflexivity. Qed.

(** A column for which choices are tried, shorter than a sample. *)
Definition small : array := APrim U64 [1000; 1001; 1000; 1003]%Z VNonNull.
Example small_tried : tried small /\ alen small <= 4 * 1 /\ allowed 3 (fun _ => true) (Ctx every [] 0) small CFoR.
Proof. repeat split; try discriminate; try (cbn; lia). right. right. right. left. reflexivity. Qed.
Example small_choice :
  match compress_with size_of 1 4 every None small with
  | Ok (AFoR _ (ABitPacked _ _ w _ _ _ _) m _, Some t) => w = 2%Z /\ m = 1000%Z /\ nested t = 1
  | _ => False
  end.
Proof. vm_compute. repeat split. Qed.

(** * Outside these hypotheses, and what is not promised *)

(** Chunks that share a dictionary are taken for a constant column if each of them is constant:
    their values are not compared, only the minima of the dictionaries (dict/src/stats.rs:9-47, stats/statsset.rs:133-142). *)
Definition dict_chunk (k : Z) : array := ADict (APrim U8 [k; k]%Z VNonNull) (APrim U32 [7; 8]%Z VNonNull).
Definition shared_dictionary : array := AChunked (DPrim U32 false) [dict_chunk 0; dict_chunk 1].
Theorem shared_dictionary_constant_refuted :
  wf decodable shared_dictionary /\ logical shared_dictionary = [VInt 7; VInt 7; VInt 8; VInt 8] /\
  s_const (stats_after KConst shared_dictionary) = Some true.
Proof.
  split; [|split; vm_compute; reflexivity].
  apply wf_chunked_g; [reflexivity|]. constructor; [|constructor; [|constructor]]; (split; [|reflexivity]); wf_tac.
Qed.
Print Assumptions shared_dictionary_constant_refuted.

(** So the compressor can lose data: the choice made for the first chunk of a table, a constant column, is reused for the second
    chunk, whose column is such a chunked array. *)
Definition table_shared : array :=
  AChunked (DStruct [0] [DPrim U32 false] false) [AStruct [0] [APrim U32 [5; 5]%Z VNonNull] 2 VNonNull; AStruct [0] [shared_dictionary] 4 VNonNull].
Theorem compressor_loses_data_refuted :
  (wf decodable table_shared /\ @input_ok false table_shared /\ (Z.of_nat (alen table_shared + 8) < pmax U64)%Z /\ (Z.of_nat (sbytes table_shared) <= pmax I32)%Z) /\
  exists b t, compress_with (fun _ => 8) 1 2 every None table_shared = Ok (b, t) /\
    scalar_at table_shared 4 = Ok (VStruct [VInt 8]) /\ scalar_at b 4 = Ok (VStruct [VInt 7]).
Proof.
  split; [split; [|split; [|split]]|].
  - unfold table_shared. apply wf_chunked_g; [reflexivity|]. constructor; [|constructor; [|constructor]]; (split; [|reflexivity]);
      (apply wf_struct_iff; split; [reflexivity|]; split; [reflexivity|]; constructor; [|constructor]; (split; [|reflexivity])).
    + wf_tac.
    + exact (proj1 shared_dictionary_constant_refuted).
  - cbn. repeat split; try discriminate; try (repeat constructor; unfold no_neg_zero; cbn; discriminate).
    all: try (cbn; auto).
  - apply Z.ltb_lt. reflexivity.
  - apply Z.leb_le. reflexivity.
  - eexists _, _. split; [vm_compute; reflexivity|]. split; vm_compute; reflexivity.
Qed.
Print Assumptions compressor_loses_data_refuted.

(** Choices can only be reused for arrays of the same type: for a struct with another number of fields the compressor panics. *)
Definition one_field : array := AStruct [0] [APrim U32 [5; 5]%Z VNonNull] 2 VNonNull.
Definition two_fields : array := AStruct [0; 1] [APrim U32 [5; 5]%Z VNonNull; APrim U32 [5; 5]%Z VNonNull] 2 VNonNull.
Theorem reuse_across_types_refuted :
  exists b t, compress_with size_of 1 2 every None one_field = Ok (b, t) /\ compress_with size_of 1 2 every t two_fields = Panic /\
    exists b' t', compress_with size_of 1 2 every None two_fields = Ok (b', t').
Proof. eexists _, _. split; [vm_compute; reflexivity|]. split; [vm_compute; reflexivity|]. eexists _, _. vm_compute. reflexivity. Qed.
Print Assumptions reuse_across_types_refuted.

(** An array longer than a sample may become larger: the sample repeats a long string, the rest does not. *)
Definition long_string (k : Z) : list Z := repeat k 12.
Definition strings : array := AView true (map (fun k => VInl (long_string k)) [97; 97; 97; 97; 98; 99; 100; 101]%Z) [] VNonNull.
Theorem compressed_may_grow_refuted :
  tried strings /\ exists b t, compress_with size_of 1 4 [CConst; CDict] None strings = Ok (b, t) /\ size_of strings < size_of b.
Proof.
  split; [repeat split; vm_compute; discriminate|]. eexists _, _. split; [vm_compute; reflexivity|]. vm_compute. lia.
Qed.
Print Assumptions compressed_may_grow_refuted.
