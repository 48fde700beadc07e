(** C36 (files), C37, C38, C39: more theorems about files: whole-file read, filtered scans, projections, opening, and what does not hold. *)
From Verif Require Import Base Spec Arr ArrRead ArrWf ArrSlice IntEnc ArrOps OpsBase PropIntEnc Ipc PropIpc PropOps Layout LayoutRead LayoutWrite PropLayout.

Lemma fits_names c fc ac known f ns ts bs : file_fits c fc ac known f ns ts bs -> length ns = length ts.
Proof. intros (_ & _ & H3 & H4 & _). destruct bs as [|b r]; [congruence|]. inversion H4 as [|? ? B1 _]; subst. destruct (batch_shape _ _ _ _ _ _ _ B1) as (_ & _ & _ & Q & _). exact Q. Qed.

(** C37: reading everything without a projection gives the rows written. *)
Theorem file_round_trip :
  forall c fc ac known f ns ts calls bs, fn f = true -> 0 < bs -> (Z.of_nat bs <= pmax U64)%Z -> file_fits c fc ac known f ns ts (concat calls) ->
  exists file, write_file c fc ac (DStruct ns ts false) calls = Ok file /\
  (schema_near fc file -> exists K, forall k fuel bfuel, K <= k -> K <= fuel -> K <= bfuel ->
   exists l, scan k fuel bfuel (Env c fc ac known file) bs PAll None = Ok l /\ concat (map logical l) = concat (map logical (concat calls)) /\
     Forall (fun b => wf f b /\ adtype b = DStruct ns ts false) l /\
     (forall i b, nth_error l i = Some b -> logical b = firstn bs (skipn (i * bs) (concat (map logical (concat calls)))) /\ logical b <> [])).
Proof.
  intros c fc ac known f ns ts calls bs Fn B0 BM H. pose proof (fits_names _ _ _ _ _ _ _ _ H) as NT. pose proof H as (H1 & _ & _ & H4 & _).
  destruct (file_scan_returns_the_rows c fc ac known f ns ts calls bs PAll (seq 0 (length ns)) Fn B0 BM H eq_refl) as (file & E & OP).
  { rewrite NT. destruct (length ts); [lia|discriminate]. }
  exists file. split; [exact E|]. intros SN. destruct (OP SN) as (K & HK). exists K. intros k fuel bfuel A B C. destruct (HK k fuel bfuel A B C) as (l & L1 & L2 & L3 & L4).
  cbv zeta in *. rewrite NT in L2, L3, L4. change (concat (map logical (concat calls))) with (rows_of (concat calls)) in *. rewrite (proj_row_all c ac known f ns ts _ H4) in L2, L4. rewrite map_nth_seq in L3.
  rewrite <- NT in L3. rewrite map_nth_seq in L3. exists l. auto.
Qed.
Print Assumptions file_round_trip.

(** ... also when collected into one array. *)
Theorem read_all_returns_the_rows :
  forall c fc ac known f ns ts calls bs p idxs, fn f = true -> 0 < bs -> (Z.of_nat bs <= pmax U64)%Z -> file_fits c fc ac known f ns ts (concat calls) ->
  selects ns p idxs -> idxs <> [] ->
  exists file, write_file c fc ac (DStruct ns ts false) calls = Ok file /\
  (schema_near fc file -> exists K, forall k fuel bfuel, K <= k -> K <= fuel -> K <= bfuel ->
   exists a, read_all k fuel bfuel (Env c fc ac known file) bs p None = Ok a /\ logical a = map (proj_row idxs) (concat (map logical (concat calls))) /\
     adtype a = DStruct (map (fun i => nth i ns 0) idxs) (map (fun i => nth i ts DNull) idxs) false).
Proof.
  intros c fc ac known f ns ts calls bs p idxs Fn B0 BM H HS NI. pose proof (fits_names _ _ _ _ _ _ _ _ H) as NT.
  destruct (file_scan_returns_the_rows c fc ac known f ns ts calls bs p idxs Fn B0 BM H HS NI) as (file & E & OP). exists file. split; [exact E|]. intros SN. destruct (OP SN) as (K & HK). exists K. intros k fuel bfuel A B C.
  destruct (HK k fuel bfuel A B C) as (l & L1 & L2 & L3 & L4). unfold read_all. rewrite L1. cbn [bind]. cbv zeta in L2.
  assert (exists x, (do desc <- read_footer fc file; do d <- desc_dtype c desc; do pd <- projected d p; try_chunked l pd) = Ok x /\ logical x = concat (map logical l) /\ adtype x = DStruct (map (fun i => nth i ns 0) idxs) (map (fun i => nth i ts DNull) idxs) false) as (x & X1 & X2 & X3).
  { destruct H as (H1 & H2 & H3 & H4 & H5 & H6 & H7 & H8).
    assert (Forall (is_batch (length ts)) (concat calls)) as HI by (eapply Forall_impl; [|exact H4]; intros b Hb; eapply batch_fields; exact Hb).
    destruct (written c fc ac (DStruct ns ts false) (length ts) calls HI H3 H1 H7 H8) as (file' & out & rest & ls & rss & E' & _ & _ & _ & OP'). rewrite E in E'. assert (file' = file) as -> by congruence. destruct (OP' SN) as (desc & O1 & O2 & _).
    rewrite O1. cbn [bind]. rewrite O2. cbn [bind]. rewrite (projected_ok _ _ _ _ _ NT HS). cbn [bind]. exists (AChunked (DStruct (map (fun i => nth i ns 0) idxs) (map (fun i => nth i ts DNull) idxs) false) l).
    split; [|split; reflexivity]. unfold try_chunked. rewrite (proj2 (forallb_forall _ _)); [reflexivity|]. intros b Hb. rewrite Forall_forall in L3. destruct (L3 b Hb) as [_ ->]. apply dtype_eqb_refl. }
  destruct l as [|a [|b l]].
  - exists x. split; [exact X1|]. split; [congruence|exact X3].
  - exists a. split; [reflexivity|]. inversion L3 as [|? ? [_ D] _]; subst. split; [|exact D]. rewrite <- L2. cbn. rewrite app_nil_r. reflexivity.
  - exists x. split; [exact X1|]. split; [congruence|exact X3].
Qed.
Print Assumptions read_all_returns_the_rows.

(** The byte range recorded in the footer for each chunk holds that chunk's message, and nothing else. *)
Theorem footer_ranges_hold_the_chunks :
  forall c fc ac known f ns ts calls, file_fits c fc ac known f ns ts (concat calls) ->
  exists file, write_file c fc ac (DStruct ns ts false) calls = Ok file /\
  (schema_near fc file -> exists desc ls, read_footer fc file = Ok desc /\ desc_dtype c desc = Ok (DStruct ns ts false) /\
     desc_layout fc desc = Ok (lay_column ls, list_sum (map alen (concat calls))) /\ length ls = length ts /\
     forall j k a, j < length ts -> nth_error (flat_map (fun b => chunks_of (nth j (fields_of b) (ANull 0))) (concat calls)) k = Some a ->
     exists ml rs b n, nth_error ls j = Some (lay_chunked (ml :: map lay_flat rs) true) /\ nth_error rs k = Some (b, n) /\
       b < n /\ n <= length file /\ firstn (n - b) (skipn b file) = item_bytes c (IBatch (alen a) (a_ser ac a))).
Proof.
  intros c fc ac known f ns ts calls (H1 & H2 & H3 & H4 & H5 & H6 & H7 & H8).
  assert (Forall (is_batch (length ts)) (concat calls)) as HI by (eapply Forall_impl; [|exact H4]; intros b Hb; eapply batch_fields; exact Hb).
  destruct (written c fc ac (DStruct ns ts false) (length ts) calls HI H3 H1 H7 H8) as (file & out & rest & ls & rss & E & FE & R1 & R2 & OP). exists file. split; [exact E|]. intros SN. destruct (OP SN) as (desc & O1 & O2 & O3).
  exists desc, ls. split; [exact O1|]. split; [exact O2|]. split; [exact O3|]. split; [apply Forall2_len in R1; apply Forall2_len in R2; rewrite columns_length in R2; congruence|]. intros j k a Hj Hk.
  rewrite <- (columns_nth (length ts)) in Hk by exact Hj. destruct (Forall2_nth_error_r _ _ _ j _ R2 (nth_error_nth_lt _ _ [] ltac:(rewrite columns_length; exact Hj))) as (rs & N2 & HR). destruct (Forall2_nth_error_r _ _ _ _ _ R1 N2) as (l & N3 & ml & ->).
  destruct (Forall2_nth_error_r _ _ _ _ _ HR Hk) as ([b n] & N4 & HH). apply (holds_app _ _ _ rest) in HH. rewrite <- FE in HH. destruct HH as (A1 & A2 & A3). cbn [fst snd] in *. exists ml, rs, b, n. auto.
Qed.
Print Assumptions footer_ranges_hold_the_chunks.

(** * Filtered scans *)

(** C38: the row filter [ev] computes the mask [q] of a batch of the columns [fidxs]. If in every block of [bs] rows but the last some row
    matches, the scan returns exactly the matching rows, in order. *)
Theorem filtered_scan_returns_the_matching_rows :
  forall c fc ac known f ns ts calls bs p idxs fp fidxs (ev : array -> result (list bool)) (q : value -> bool),
  fn f = true -> ArrWf.fc f = true -> ft f = true -> fF f = true -> 0 < bs -> (Z.of_nat bs <= pmax U64)%Z -> file_fits c fc ac known f ns ts (concat calls) ->
  selects ns p idxs -> idxs <> [] -> selects ns (PFlat fp) fidxs -> fidxs <> [] ->
  (forall a, wf f a -> adtype a = DStruct (map (fun i => nth i ns 0) fidxs) (map (fun i => nth i ts DNull) fidxs) false -> ev a = Ok (map q (logical a))) ->
  let rows := concat (map logical (concat calls)) in
  (forall j, (j + 1) * bs < length rows -> exists i, j * bs <= i < (j + 1) * bs /\ q (proj_row fidxs (nth i rows VNull)) = true) ->
  exists file, write_file c fc ac (DStruct ns ts false) calls = Ok file /\
  (schema_near fc file -> exists K, forall k fuel bfuel, K <= k -> K <= fuel -> K <= bfuel ->
   exists l, scan k fuel bfuel (Env c fc ac known file) bs p (Some (fp, ev)) = Ok l /\
     concat (map logical l) = map (proj_row idxs) (filter (fun r => q (proj_row fidxs r)) rows)).
Proof.
  intros c fc ac known f ns ts calls bs p idxs fp fidxs ev q Fn Fc Ft FF B0 BM H HS NI HP NP EV rows BL. pose proof (fits_names _ _ _ _ _ _ _ _ H) as NT. destruct H as (H1 & H2 & H3 & H4 & H5 & H6 & H7 & H8).
  destruct (opened c fc ac known f ns ts calls bs H1 H2 H3 H4 H5 H6 H7 H8) as (file & E & OP). exists file. split; [exact E|]. intros SN. destruct (OP SN) as (asg & K & AF & AI & CO). cbv zeta in CO.
  set (e := Env c fc ac known file) in *. set (n := row_count (concat calls)) in *. set (ps := list_sum (map (fun i => chunk_count i (concat calls)) idxs)). set (fs := list_sum (map (fun i => chunk_count i (concat calls)) fidxs)).
  exists (S (K + n + 2 * ps + fs + 4)). intros k fuel bfuel Hk Hf Hb. destruct (CO p idxs HS NI bfuel ltac:(lia)) as (st & S1 & S2 & S3 & _ & S5). destruct (CO (PFlat fp) fidxs HP NP bfuel ltac:(lia)) as (fl & T1 & T2 & _ & T4 & T5).
  unfold scan. rewrite S3, T4. cbn [bind].
  assert (forall is, Forall (fun i => i < length ts) is -> zip_rows n (map snd (spec_of ts (columns (length ts) (concat calls)) is)) = map (proj_row is) rows) as ER.
  { intros is LT. unfold spec_of. rewrite map_map. cbn [snd]. unfold rows. change (concat (map logical (concat calls))) with (rows_of (concat calls)). rewrite <- (rows_projected c ac known f ns ts _ is H4 LT). fold n. f_equal. apply map_ext_in. intros i Hi. rewrite Forall_forall in LT. apply (columns_facts c ac known f ns ts _ i H4 (LT i Hi)). }
  assert (Forall (fun i => i < length ts) idxs) as LT by (apply selects_lt in HS; rewrite NT in HS; exact HS). assert (Forall (fun i => i < length ts) fidxs) as LTf by (apply selects_lt in HP; rewrite NT in HP; exact HP).
  assert (length rows = n) as LR by (unfold rows, n; rewrite (row_count_rows (concat calls)); reflexivity).
  pose proof (collect_filtered e bs f B0 BM Fn asg AF AI bfuel ev q Fc Ft k fuel n _ _ st fl [] ltac:(lia) S2 T2) as CF.
  rewrite S5, T5, T1 in CF. fold ps fs in CF. unfold spec_of in CF at 1. rewrite map_map in CF. cbn [fst] in CF. rewrite (ER idxs LT), (ER fidxs LTf) in CF.
  specialize (CF ltac:(intros ? ? ? Q; discriminate Q) ltac:(lia) EV).
  destruct (collect k fuel bfuel e bs ev (SS st (Some fl) [] None false)) as [l| |].
  - exists l. split; [reflexivity|]. change (concat (map logical l)) with (rows_of l). rewrite CF.
    + rewrite map_map. clear. induction rows as [|r rows IH]; [reflexivity|]. cbn [map spec_filter filter]. destruct (q (proj_row fidxs r)); cbn [map]; rewrite IH; reflexivity.
    + intros j Hj. rewrite LR in BL. destruct (BL j Hj) as (i & I1 & I2). exists i. split; [exact I1|]. rewrite (map_nth_lt _ _ VNull) by lia. exact I2.
  - exfalso. assert (fF f = false) as X; [|congruence]. apply CF. intros j Hj. rewrite LR in BL. destruct (BL j Hj) as (i & I1 & I2). exists i. split; [exact I1|]. rewrite (map_nth_lt _ _ VNull) by lia. exact I2.
  - exfalso. assert (fF f = false) as X; [|congruence]. apply CF. intros j Hj. rewrite LR in BL. destruct (BL j Hj) as (i & I1 & I2). exists i. split; [exact I1|]. rewrite (map_nth_lt _ _ VNull) by lia. exact I2.
Qed.
Print Assumptions filtered_scan_returns_the_matching_rows.

(** C38, what does not hold: when no row of the first block matches, the first batch returned is the second block, unfiltered. *)
Theorem all_false_block_refuted :
  forall c fc ac known f ns ts calls bs p idxs fp fidxs (ev : array -> result (list bool)) (q : value -> bool),
  fn f = true -> 0 < bs -> (Z.of_nat bs <= pmax U64)%Z -> file_fits c fc ac known f ns ts (concat calls) ->
  selects ns p idxs -> idxs <> [] -> selects ns (PFlat fp) fidxs -> fidxs <> [] ->
  (forall a, wf f a -> adtype a = DStruct (map (fun i => nth i ns 0) fidxs) (map (fun i => nth i ts DNull) fidxs) false -> ev a = Ok (map q (logical a))) ->
  let rows := concat (map logical (concat calls)) in
  bs < length rows -> (forall i, i < bs -> q (proj_row fidxs (nth i rows VNull)) = false) ->
  exists file, write_file c fc ac (DStruct ns ts false) calls = Ok file /\
  (schema_near fc file -> exists K, forall fuel bfuel, K <= fuel -> K <= bfuel ->
   exists s b s', build (Env c fc ac known file) p (Some fp) = Ok s /\ poll fuel bfuel (Env c fc ac known file) bs ev s = Ok (Some b, s') /\
     logical b = map (proj_row idxs) (firstn bs (skipn bs rows))).
Proof.
  intros c fc ac known f ns ts calls bs p idxs fp fidxs ev q Fn B0 BM H HS NI HP NP EV rows BL NO. pose proof (fits_names _ _ _ _ _ _ _ _ H) as NT. destruct H as (H1 & H2 & H3 & H4 & H5 & H6 & H7 & H8).
  destruct (opened c fc ac known f ns ts calls bs H1 H2 H3 H4 H5 H6 H7 H8) as (file & E & OP). exists file. split; [exact E|]. intros SN. destruct (OP SN) as (asg & K & AF & AI & CO). cbv zeta in CO.
  set (e := Env c fc ac known file) in *. set (n := row_count (concat calls)) in *. set (ps := list_sum (map (fun i => chunk_count i (concat calls)) idxs)). set (fs := list_sum (map (fun i => chunk_count i (concat calls)) fidxs)).
  exists (S (K + n + 2 * ps + fs + 4)). intros fuel bfuel Hf Hb. destruct (CO p idxs HS NI bfuel ltac:(lia)) as (st & S1 & S2 & S3 & _ & S5). destruct (CO (PFlat fp) fidxs HP NP bfuel ltac:(lia)) as (fl & T1 & T2 & _ & T4 & T5).
  rewrite S3, T4. cbn [bind].
  assert (forall is, Forall (fun i => i < length ts) is -> zip_rows n (map snd (spec_of ts (columns (length ts) (concat calls)) is)) = map (proj_row is) rows) as ER.
  { intros is LT. unfold spec_of. rewrite map_map. cbn [snd]. unfold rows. change (concat (map logical (concat calls))) with (rows_of (concat calls)). rewrite <- (rows_projected c ac known f ns ts _ is H4 LT). fold n. f_equal. apply map_ext_in. intros i Hi. rewrite Forall_forall in LT. apply (columns_facts c ac known f ns ts _ i H4 (LT i Hi)). }
  assert (Forall (fun i => i < length ts) idxs) as LT by (apply selects_lt in HS; rewrite NT in HS; exact HS). assert (Forall (fun i => i < length ts) fidxs) as LTf by (apply selects_lt in HP; rewrite NT in HP; exact HP).
  assert (length rows = n) as LR by (unfold rows, n; rewrite (row_count_rows (concat calls)); reflexivity).
  assert (cache_ok e asg []) as C0 by (intros ? ? ? Q; discriminate Q).
  pose proof (missing_len e bs f B0 asg AF AI bfuel [] (all_paths (co_children fl))) as M1. pose proof (missing_len e bs f B0 asg AF AI bfuel [] (all_paths (co_children st))) as M0. rewrite T5 in M1. rewrite S5 in M0. fold ps in M0. fold fs in M1.
  destruct (poll_filter e bs f B0 BM Fn asg AF AI bfuel ev (missing [] (all_paths (co_children fl))) fuel [] st fl None n _ (le_n _) ltac:(lia) T2 C0)
      as [[Z _]|(Z & j & a & fl' & ch1 & J & PE & Y1 & Y2 & Y3 & Y4 & Y5 & Y6 & Y7 & Y8)]; [lia|].
  eexists. rewrite T1 in Y2. unfold spec_of in Y2. rewrite map_map in Y2. cbn [fst] in Y2. rewrite (EV a Y1 Y2) in PE. cbn [bind] in PE.
  pose proof (missing_len e bs f B0 asg AF AI bfuel ch1 (all_paths (co_children st))) as M2. rewrite S5 in M2. fold ps in M2.
  destruct (poll_data e bs f B0 BM Fn asg AF AI bfuel ev (missing ch1 (all_paths (co_children st))) j ch1 st (Some fl') (Some (map q (logical a))) n _ (le_n _) ltac:(lia) S2 Y7)
      as [[-> _]|(_ & j2 & b & d' & ch2 & J2 & PE2 & X1 & X2 & X3 & X4 & X5 & X6 & X7 & X8)]; [lia|]. rewrite PE2 in PE. clear PE2.
  unfold data_step in PE. fold data_step in PE.
  assert (count id (map q (logical a)) = 0) as CZ.
  { rewrite Y3, (ER fidxs LTf). unfold count. apply length_zero_iff_nil. destruct (filter id (map q (firstn bs (map (proj_row fidxs) rows)))) as [|x l] eqn:EF; [reflexivity|]. exfalso.
    assert (In x (filter id (map q (firstn bs (map (proj_row fidxs) rows))))) as IX by (rewrite EF; left; reflexivity). apply filter_In in IX. destruct IX as [IX XT]. apply in_map_iff in IX. destruct IX as (r & QR & IR).
    apply (In_nth _ _ VNull) in IR. destruct IR as (i & Hi & IR). rewrite firstn_length, map_length in Hi. rewrite nth_firstn in IR by lia. rewrite (map_nth_lt _ _ VNull) in IR by lia. rewrite <- IR, NO in QR by lia. subst x. discriminate XT. }
  rewrite CZ in PE. cbn [Nat.eqb] in PE.
  assert (length (all_paths (co_children d')) <= ps) as M3 by (pose proof (within_paths e bs f B0 asg AI bfuel _ _ X6); rewrite S5 in *; fold ps in H; exact H). pose proof (missing_len e bs f B0 asg AF AI bfuel ch2 (all_paths (co_children d'))) as M4.
  fold (drop bs (spec_of ts (columns (length ts) (concat calls)) idxs)) in X4.
  destruct (poll_data e bs f B0 BM Fn asg AF AI bfuel ev (missing ch2 (all_paths (co_children d'))) j2 ch2 d' (Some fl') None (n - bs) _ (le_n _) ltac:(lia) X4 X7)
      as [[Z2 _]|(_ & j3 & b3 & d3 & ch3 & J3 & PE3 & V1 & V2 & V3 & _)]; [lia|]. rewrite PE3 in PE. unfold data_step in PE.
  eexists. eexists. split; [reflexivity|]. split; [exact PE|]. rewrite V3, (drop_rows e bs f B0 asg AI), (ER idxs LT). rewrite skipn_map, firstn_map. reflexivity.
Qed.
Print Assumptions all_false_block_refuted.

(** * Projections *)

(** C39: looking a field up by name or index, in the schema of an in-memory struct type and in the schema read from a file: all agree. *)
Theorem field_lookup_agrees :
  forall ns ts nl p idxs, length ns = length ts -> Forall2 (picks ns) p idxs ->
  let d := DStruct (map (fun i => nth i ns 0) idxs) (map (fun i => nth i ts DNull) idxs) nl in
  schema_project (DStruct ns ts nl) (PFlat p) = Ok d /\ projected (DStruct ns ts nl) (PFlat p) = Ok d /\
  Forall2 (fun fd i => field_info ns ts fd = Ok (i, nth i ns 0, nth i ts DNull) /\ field_type (DStruct ns ts nl) fd = Ok (nth i ts DNull)) p idxs.
Proof.
  intros ns ts nl p idxs L H d.
  assert (Forall2 (fun fd i => field_info ns ts fd = Ok (i, nth i ns 0, nth i ts DNull) /\ field_type (DStruct ns ts nl) fd = Ok (nth i ts DNull)) p idxs) as FI.
  { induction H as [|fd i p idxs Hf _ IH]; constructor; [|exact IH]. pose proof (picks_lt _ _ _ Hf) as Li. split.
    - unfold field_info. rewrite (resolve_ok _ _ _ Hf). cbn [bind]. rewrite (proj2 (Nat.ltb_ge _ _)) by lia. unfold read_field. rewrite (nth_error_nth_lt ns i 0), (nth_error_nth_lt ts i DNull) by lia. reflexivity.
    - unfold field_type. pose proof (resolve_ok _ _ _ Hf) as R. unfold resolve_field in R. destruct fd as [m|j].
      + destruct (position ns m) as [j|]; [|discriminate R]. assert (j = i) as -> by congruence. rewrite (nth_error_nth_lt ts i DNull) by lia. reflexivity.
      + assert (j = i) as -> by congruence. rewrite (nth_error_nth_lt ts i DNull) by lia. reflexivity. }
  split; [|split; [apply projected_ok; assumption|exact FI]]. cbn [schema_project]. unfold struct_project.
  assert (mapM (field_info ns ts) p = Ok (map (fun i => (i, nth i ns 0, nth i ts DNull)) idxs)) as ->.
  { clear -FI. induction FI as [|fd i p idxs [Hf _] _ IH]; [reflexivity|]. cbn [mapM map]. rewrite Hf. cbn [bind]. rewrite IH. reflexivity. }
  cbn [bind]. rewrite !map_map. reflexivity.
Qed.
Print Assumptions field_lookup_agrees.
(** A successful lookup found the right field; an unknown name is an error. *)
Theorem field_lookup_sound :
  forall ns ts fd i n t, field_info ns ts fd = Ok (i, n, t) -> picks ns fd i /\ nth_error ns i = Some n /\ nth_error ts i = Some t.
Proof.
  intros ns ts fd i n t H. unfold field_info in H. destruct (resolve_field ns fd) as [j| |] eqn:R; cbn [bind] in H; try discriminate. destruct (length ns <? j); [discriminate|]. unfold read_field in H.
  destruct (nth_error ns j) as [m|] eqn:N1; [|discriminate]. destruct (nth_error ts j) as [u|] eqn:N2; [|discriminate]. cbn [bind] in H. injection H as -> -> ->. split; [|auto].
  destruct fd as [m|k]; cbn [resolve_field picks] in *.
  - destruct (position ns m) as [k|] eqn:P; [|discriminate]. assert (k = i) as -> by congruence. apply position_spec. exact P.
  - assert (k = i) as -> by congruence. split; [reflexivity|]. apply nth_error_Some. congruence.
Qed.
Theorem unknown_name_is_an_error :
  forall ns ts nl n, ~ In n ns -> field_info ns ts (FName n) = Err /\ field_type (DStruct ns ts nl) (FName n) = Err /\
    forall p, In (FName n) p -> forall d, projected (DStruct ns ts nl) (PFlat p) <> Ok d /\ schema_project (DStruct ns ts nl) (PFlat p) <> Ok d.
Proof.
  intros ns ts nl n H. assert (position ns n = None) as P. { destruct (position ns n) as [i|] eqn:E; [|reflexivity]. apply position_spec in E. destruct E as [E _]. apply nth_error_In in E. contradiction. }
  assert (field_info ns ts (FName n) = Err) as FI by (unfold field_info; cbn [resolve_field]; rewrite P; reflexivity).
  split; [exact FI|]. split; [unfold field_type; rewrite P; reflexivity|]. intros p IN d.
  assert (forall {B} (g : field -> result B) r, g (FName n) = Err -> mapM g p <> Ok r) as N.
  { intros B g r G. revert r. induction p as [|x p IH]; intros r E; [destruct IN|]. cbn [mapM] in E. destruct IN as [->|IN]; [rewrite G in E; discriminate E|].
    destruct (g x) as [y| |]; cbn [bind] in E; try discriminate. destruct (mapM g p) as [z| |]; cbn [bind] in E; try discriminate. exact (IH IN z eq_refl). }
  split.
  - cbn [projected project_dtype]. destruct (mapM _ p) as [z| |] eqn:E; cbn [bind]; try discriminate. intros _. refine (N _ _ z _ E). cbn [resolve_field]. rewrite P. reflexivity.
  - cbn [schema_project]. unfold struct_project. destruct (mapM _ p) as [z| |] eqn:E; cbn [bind]; try discriminate. intros _. exact (N _ _ z FI E).
Qed.
Print Assumptions unknown_name_is_an_error.
(** What does not hold: an index just past the end panics instead of giving an error, any index out of range panics when a file's schema is
    projected, and a scan of no columns is an error. *)
Theorem index_past_the_end_refuted :
  forall ns ts nl, length ns = length ts -> field_info ns ts (FIndex (length ns)) = Panic /\ schema_project (DStruct ns ts nl) (PFlat [FIndex (length ns)]) = Panic /\
    (forall k, length ns < k -> field_info ns ts (FIndex k) = Err) /\ (forall k, length ns <= k -> projected (DStruct ns ts nl) (PFlat [FIndex k]) = Panic).
Proof.
  intros ns ts nl L.
  assert (forall k, length ns <= k -> read_field ns ts k = Panic) as RF by (intros k Hk; unfold read_field; rewrite (proj2 (nth_error_None ns k)) by exact Hk; reflexivity).
  assert (field_info ns ts (FIndex (length ns)) = Panic) as FI by (unfold field_info; cbn [resolve_field bind]; rewrite Nat.ltb_irrefl, RF by lia; reflexivity).
  split; [exact FI|]. split; [cbn [schema_project]; unfold struct_project; cbn [mapM]; rewrite FI; reflexivity|]. split.
  - intros k Hk. unfold field_info. cbn [resolve_field bind]. rewrite (proj2 (Nat.ltb_lt _ _)) by exact Hk. reflexivity.
  - intros k Hk. cbn [projected project_dtype mapM resolve_field bind]. rewrite RF by exact Hk. reflexivity.
Qed.
Theorem empty_projection_refuted :
  forall e bs ev d l ns ts nl cs, d = DStruct ns ts nl -> l = lay_column cs ->
  exists st, open_column d (PFlat []) l = Ok st /\ forall fuel bfuel k, collect (S k) (S fuel) bfuel e bs ev (SS st None [] None true) = Err.
Proof.
  intros e bs ev d l ns ts nl cs -> ->. exists (CO [] [] []). split; [reflexivity|]. intros fuel bfuel k. reflexivity.
Qed.

(** * Opening *)

(** C36: opening a file of any size and content: never reads outside it; too short or without the end marker, an error. The only panic is
    a file of 8 to 39 bytes that ends with a good end marker. *)
Definition good_end (file : list Z) : Prop :=
  skipn (length file - 4) file = magic /\ (nth (length file - 8) file 0 + 256 * nth (length file - 7) file 0 = 1)%Z.
Theorem opening_any_file :
  forall fc file, (length file < 8 -> read_footer fc file = Err) /\ (~ good_end file -> read_footer fc file = Err) /\
    (40 <= length file -> read_footer fc file <> Panic).
Proof.
  intros fc file. assert (40 <= initial_read_size) as I40 by (unfold initial_read_size; apply Nat2Z.inj_le; rewrite Z2Nat.id; lia). set (ir := initial_read_size) in *. 
  assert (length file < 8 -> read_footer fc file = Err) as A by (intros H; unfold read_footer; rewrite (proj2 (Nat.ltb_lt _ _)) by exact H; reflexivity). split; [exact A|].
  destruct (Nat.lt_ge_cases (length file) 8) as [L|L]; [split; [intros _; apply A, L|intros H; lia]|]. clear A. unfold read_footer. rewrite (proj2 (Nat.ltb_ge _ _)) by exact L. fold ir.
  set (rs := Nat.min ir (length file)). assert (8 <= rs <= length file /\ (40 <= length file -> 40 <= rs)) as (HR & HR2) by (unfold rs; lia). clearbody rs.
  unfold read_at. rewrite (proj2 (Nat.ltb_ge _ _)) by lia. cbn [bind]. set (off := length file - rs). rewrite (firstn_all2 (n := rs)) by (rewrite skipn_length; lia).
  rewrite skipn_plus, !nth_skipn. replace (off + (rs - 8 + 4)) with (length file - 4) by (unfold off; lia). replace (off + (rs - 8)) with (length file - 8) by (unfold off; lia). replace (off + (rs - 8 + 1)) with (length file - 7) by (unfold off; lia).
  split.
  - intros NG. unfold zlist_eqb. destruct (list_eq_dec Z.eq_dec (skipn (length file - 4) file) magic) as [M|M]; cbn [negb]; [|reflexivity].
    destruct (Z.eqb_spec (nth (length file - 8) file 0 + 256 * nth (length file - 7) file 0)%Z 1) as [V|V]; cbn [negb]; [|reflexivity]. exfalso. apply NG. split; assumption.
  - intros H. destruct (negb (zlist_eqb _ _)); [discriminate|]. destruct (negb (_ =? 1)%Z); [discriminate|]. rewrite (proj2 (Nat.ltb_ge _ _)) by (specialize (HR2 H); lia). destruct (p_dec fc _) as [[a b]|]; discriminate.
Qed.
Print Assumptions opening_any_file.
Theorem opening_small_file_panics_refuted :
  forall fc file, 8 <= length file < 40 -> good_end file -> read_footer fc file = Panic.
Proof.
  intros fc file L [M V]. assert (40 <= initial_read_size) as I40 by (unfold initial_read_size; apply Nat2Z.inj_le; rewrite Z2Nat.id; lia). set (ir := initial_read_size) in *.
  unfold read_footer. rewrite (proj2 (Nat.ltb_ge _ _)) by lia. fold ir. set (rs := Nat.min ir (length file)). assert (rs = length file) as -> by (unfold rs; lia).
  unfold read_at. rewrite (proj2 (Nat.ltb_ge _ _)) by lia. cbn [bind]. rewrite Nat.sub_diag. cbn [skipn]. rewrite firstn_all. replace (length file - 8 + 4) with (length file - 4) by lia. replace (length file - 8 + 1) with (length file - 7) by lia.
  rewrite M. unfold zlist_eqb. destruct (list_eq_dec Z.eq_dec magic magic) as [_|N]; [|congruence]. cbn [negb]. rewrite (proj2 (Z.eqb_eq _ _)) by exact V. cbn [negb]. rewrite (proj2 (Nat.ltb_lt _ _)) by lia. reflexivity.
Qed.
Example small_file : 8 <= length eof_bytes < 40 /\ good_end eof_bytes.
Proof. split; [cbn; lia|]. split; reflexivity. Qed.
(** The schema must lie within the last 8 MiB of the file: beyond that, opening panics. *)
Theorem far_schema_panics_refuted :
  forall fc file desc c, read_footer fc file = Ok desc -> d_schema desc < d_off desc -> desc_dtype c desc = Panic.
Proof. intros fc file desc c _ H. unfold desc_dtype, desc_slice. rewrite (proj2 (Nat.ltb_lt _ _)) by exact H. reflexivity. Qed.
(** A file cut anywhere is an error, unless the bytes before the cut happen to end with the end marker. *)
Theorem cut_file_is_an_error :
  forall fc file k, ~ good_end (firstn k file) -> read_footer fc (firstn k file) = Err.
Proof. intros fc file k. apply opening_any_file. Qed.

(** * What does not hold of the round trip *)

(** A file with columns but no batch cannot be read. *)
Theorem no_batches_panics_refuted :
  forall ns ts nl, 0 < length ts -> open_column (DStruct ns ts nl) PAll (lay_column []) = Panic.
Proof. intros ns ts nl H. unfold open_column. cbn [projected bind lay_column length]. destruct (length ts); [lia|reflexivity]. Qed.
Theorem no_batches_file : forall c fc ac d, exists out, write_file c fc ac d [[]] = Ok (file_of c fc out d (lay_column [], 0)).
Proof.
  intros c fc ac d. unfold write_file. cbn [write_calls write_array_stream new_writer lw_dtype write_batches bind].
  destruct (finalize_ok c fc ac (LW (W [] 0) 0 (Some d) []) d []) as (out & ls & E & H & _); [split; reflexivity|constructor|reflexivity|]. inversion H; subst. exists out. exact E.
Qed.
(** The nulls of the struct itself are not written: batches that differ only in them give the same file. *)
Theorem struct_nulls_lost_refuted :
  forall c fc ac ns fls n v v', write_file c fc ac (adtype (AStruct ns fls n v)) [[AStruct ns fls n v]] = write_file c fc ac (adtype (AStruct ns fls n v)) [[AStruct ns fls n v']] /\
    logical (AStruct [0] [APrim U8 [7]%Z VNonNull] 1 VAllInvalid) <> logical (AStruct [0] [APrim U8 [7]%Z VNonNull] 1 VAllValid).
Proof. intros. split; [reflexivity|]. discriminate. Qed.
(** The 65537th child of a column has the message id of the first: the bytes of the wrong chunk are used. *)
Theorem chunk_ids_collide_refuted :
  forall path d cs st k, open_chunked path d (lay_chunked cs false) = Ok st -> forall x y, nth_error (ck_layouts st) k = Some x -> nth_error (ck_layouts st) (Z.to_nat 65536 + k) = Some y ->
    fl_path x = fl_path y.
Proof.
  intros path d cs st k H x y Hx Hy. unfold open_chunked, lay_chunked in H. cbn [has_meta] in H. change (negb (0 =? 0)%Z) with false in H. cbv iota in H. cbn [skipn] in H.
  destruct (mapM _ _) as [fl| |] eqn:E; cbn [bind] in H; try discriminate. assert (st = CS fl []) as -> by congruence. cbn [ck_layouts] in *.
  assert (forall cs s fl, mapM (fun ic => open_flat (path ++ [as_u16 (fst ic)]) d (snd ic)) (combine (seq s (length cs)) cs) = Ok fl -> forall j x, nth_error fl j = Some x -> fl_path x = path ++ [as_u16 (s + j)]) as G.
  { clear. induction cs as [|l cs IH]; intros s fl E j x Hx; cbn [length seq combine mapM fst snd] in E; [assert (fl = []) as -> by congruence; destruct j; discriminate Hx|].
    destruct (open_flat (path ++ [as_u16 s]) d l) as [z| |] eqn:EO; cbn [bind] in E; try discriminate. destruct (mapM _ _) as [fl'| |] eqn:EM; cbn [bind] in E; try discriminate. assert (fl = z :: fl') as -> by congruence.
    destruct j as [|j]; cbn [nth_error] in Hx.
    - assert (z = x) as -> by congruence. rewrite Nat.add_0_r. unfold open_flat in EO. destruct l as [id b c m]. destruct id as [|[|id]]; try discriminate. destruct b as [[|r b]|]; try discriminate. assert (x = FS (path ++ [as_u16 s]) r d false None) as -> by congruence. reflexivity.
    - rewrite (IH _ _ EM j x Hx). do 3 f_equal. lia. }
  rewrite (G cs 0 fl E k x Hx), (G cs 0 fl E _ y Hy). do 2 f_equal. cbn [plus]. unfold as_u16. rewrite Nat2Z.inj_add, Z2Nat.id by lia. f_equal. rewrite Z.add_comm, Z.add_mod, Z.mod_same, Z.add_0_r, Z.mod_mod by lia. reflexivity.
Qed.
(** A batch size of zero ends the scan at once. *)
Theorem batch_size_zero_refuted :
  forall fuel bfuel e ev l ls cs ns o ch flt, exists s, poll (S fuel) (S bfuel) e 0 ev (SS (CO ns (CS (l :: ls) [] :: cs) (None :: o)) flt ch None true) = Ok (None, s).
Proof. intros. eexists. reflexivity. Qed.
