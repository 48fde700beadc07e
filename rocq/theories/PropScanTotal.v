(** C48 and C52: exports to record batches and scans of in-memory tables succeed. *)
From Verif Require Import Base Spec SearchProofs CmpSpec ExprSpec Arr ArrRead ArrWf ArrReadProofs ArrSlice ArrSliceProofs ValidityModel IntEnc PropIntEnc ArrOps OpsBase OpsFlat OpsCanon OpsCanon2 OpsMain PropOps PropOpsX DateTime Temporal PropTemporal Arrow ArrowSpec ArrowProofs ArrowProofs2 PropArrow Compare CmpProofs
  PropCompare StructOps PropStructOps Layout PropLayout Expr PropExpr MemTable PropMemTable.

(** * Record batches *)
(** A struct without null rows whose columns are numbers, booleans or strings, in any encoding, becomes a record batch. *)
Theorem record_batch_export_succeeds :
  forall lossy f ns fls n v, wf f (AStruct ns fls n v) -> ArrWf.fc f = true -> fC f = true -> fls <> [] -> Forall (fun c => flat (adtype c) = true) fls ->
  ~ In VNull (logical (AStruct ns fls n v)) -> exists r, to_record_batch lossy (AStruct ns fls n v) = Ok r.
Proof.
  intros lossy f ns fls n v W C CC NE F NN. set (a := AStruct ns fls n v) in *.
  assert (exportable lossy a) as X.
  { unfold a. cbn [exportable]. clear -F. induction F as [|c fls Hc _ IH]; [exact I|]. split; [|exact IH]. destruct c; try discriminate Hc; exact Hc. }
  assert (has_fields (adtype a)) as HF.
  { unfold a. cbn [adtype]. apply has_fields_cols; [destruct fls; [contradiction NE; reflexivity|discriminate]|]. rewrite Forall_map. eapply Forall_impl; [|exact F]. intros c Hc. cbv beta in Hc. destruct (adtype c); try discriminate Hc; exact I. }
  destruct (canonical_is_lossless f a W C) as [CL CT]. destruct (CT CC) as [c Ec]. assert (c = a) as -> by (unfold canon in Ec; cbn in Ec; congruence).
  destruct (export_total lossy f C CC (ddepth (adtype a)) a W X HF (le_n _)) as (c & r & E1 & E2). rewrite Ec in E1. injection E1 as <-.
  unfold to_record_batch. rewrite Ec. cbn [bind]. unfold a at 1. rewrite E2. cbn [bind].
  assert (exported lossy a r) as EX by (exact (into_arrow_ok lossy _ f a r W C HF E2)).
  destruct EX as (L & N & NF & _). destruct r as [| | | | | |rns rnl cols k nb] eqn:ER; eauto. destruct nb as [b|]; [|eauto]. subst r.
  assert (count negb b = 0) as ->; [|rewrite Nat.eqb_refl; eauto]. cbn [rnulls nulls_fit rlen] in NF, N. apply SearchProofs.count_zero. intros y Hy. apply In_nth with (d := false) in Hy.
  destruct Hy as (i & Hi & <-). destruct (nth i b false) eqn:B; [reflexivity|]. contradiction NN. rewrite <- L. pose proof (rnull_value (RStruct rns rnl cols k (Some b)) i b eq_refl) as V. cbn [rlen] in V. rewrite <- (V ltac:(lia) B).
  apply nth_In. rewrite L, logical_length. lia.
Qed.
Print Assumptions record_batch_export_succeeds.

(** * Scans *)
Lemma total_col_ext ns fls ns' fls' c d : col_of ns' fls' c = col_of ns fls c -> total_col ns fls c d -> total_col ns' fls' c d.
Proof. unfold total_col. intros ->. auto. Qed.
Lemma total_ext ns fls ns' fls' e : total_filter ns fls e -> (forall c, In c (refs e) -> col_of ns' fls' c = col_of ns fls c) -> total_filter ns' fls' e.
Proof.
  induction 1 as [c n H|c c' d op H H'|c d x op H H' X|c d x op H H' X|l r H1 IH1 H2 IH2|l r H1 IH1 H2 IH2]; intros E; cbn [refs] in E.
  - eapply T_col, total_col_ext; [apply E; left; reflexivity|exact H].
  - eapply T_cols; (eapply total_col_ext; [apply E; cbn; auto|eassumption]).
  - apply (T_lit_r _ _ c d); [eapply total_col_ext; [apply E; cbn; auto|exact H]|exact H'|exact X].
  - apply (T_lit_l _ _ c d); [eapply total_col_ext; [apply E; cbn; auto|exact H]|exact H'|exact X].
  - apply T_and; [apply IH1|apply IH2]; intros c Hc; apply E, in_or_app; auto.
  - apply T_or; [apply IH1|apply IH2]; intros c Hc; apply E, in_or_app; auto.
Qed.

(** Tables that can be scanned: StructArrays without null rows and with a column at least, all columns numbers, booleans or strings. *)
Definition simple_chunk (f : flags) (ns : list nat) (ts : list dtype) (a : array) : Prop :=
  wf f a /\ ~ In VNull (logical a) /\ (Z.of_nat (length (logical a)) <= pmax U64)%Z /\ exists fls n v, a = AStruct ns fls n v /\ map adtype fls = ts.
Definition columns (ns : list nat) (ts : list dtype) (out : list nat) : Prop := length ns = length ts /\ Forall (fun t => flat t = true) ts /\ out <> [] /\ Forall (fun i => i < length ns) out.

Lemma canon_of_struct ns fls n v : canon (AStruct ns fls n v) = Ok (AStruct ns fls n v).
Proof. unfold canon. reflexivity. Qed.
Lemma picks_out ns out : Forall (fun i => i < length ns) out -> Forall2 (picks ns) (map FIndex out) out.
Proof. induction 1; constructor; [split; [reflexivity|assumption]|assumption]. Qed.
Lemma chosen_types ns ts out : columns ns ts out -> Forall (fun t => flat t = true) (map (fun i => nth i ts DNull) out).
Proof.
  intros (L & F & _ & B). apply Forall_forall. intros t Ht. apply in_map_iff in Ht. destruct Ht as (i & <- & Hi). rewrite Forall_forall in F, B. apply F, nth_In. rewrite <- L. auto.
Qed.
Lemma chosen f ns ts fls n v out : columns ns ts out -> wf f (AStruct ns fls n v) -> map adtype fls = ts -> ~ In VNull (logical (AStruct ns fls n v)) ->
  exists fls', project (map FIndex out) (AStruct ns fls n v) = Ok (AStruct (map (fun i => nth i ns 0) out) fls' n v) /\
    wf f (AStruct (map (fun i => nth i ns 0) out) fls' n v) /\ fls' <> [] /\ Forall (fun c => flat (adtype c) = true) fls' /\
    ~ In VNull (logical (AStruct (map (fun i => nth i ns 0) out) fls' n v)).
Proof.
  intros CO W T NN. pose proof CO as (L & F & NE & B). pose proof (picks_out _ _ B) as P. assert (adtype (AStruct ns fls n v) = DStruct ns ts (vnullable v)) as D by (cbn [adtype]; rewrite T; reflexivity).
  destruct (project_succeeds f _ _ _ _ _ _ W D L P) as [r E]. destruct (project_selects_the_columns f _ _ _ _ _ _ W D E) as (idxs & P' & Dr & Lr & Wr).
  apply picks_index in P'. subst idxs. destruct (project_struct_shape _ _ _ _ _ _ E) as (idxs & P' & _ & ->). apply picks_index in P'. subst idxs.
  eexists. split; [exact E|]. split; [exact Wr|]. split; [destruct out; [contradiction NE; reflexivity|discriminate]|]. cbn [adtype] in Dr. injection Dr as Dr. split.
  - apply Forall_forall. intros c Hc. pose proof (chosen_types ns ts out CO) as FT. rewrite <- Dr in FT. rewrite Forall_forall in FT. apply FT, in_map, Hc.
  - rewrite Lr. intros Hin. apply in_map_iff in Hin. destruct Hin as (x & Hx & Hi). destruct x; try discriminate Hx. exact (NN Hi).
Qed.

(** A scan without a filter succeeds. *)
Theorem full_scan_succeeds :
  forall lossy f table ns ts out, ArrWf.fc f = true -> fC f = true -> columns ns ts out -> Forall (simple_chunk f ns ts) table -> exists bs, full_scan lossy table out = Ok bs.
Proof.
  intros lossy f table ns ts out C CC CO F. unfold full_scan. apply mapM_exists. intros a Ha. rewrite Forall_forall in F. destruct (F a Ha) as (W & NN & _ & fls & n & v & -> & T).
  rewrite canon_of_struct. cbn [bind]. destruct (chosen f ns ts fls n v out CO W T NN) as (fls' & E & W' & NE & Fl & NN'). rewrite E. cbn [bind].
  exact (record_batch_export_succeeds lossy f _ _ _ _ W' C CC NE Fl NN').
Qed.
Print Assumptions full_scan_succeeds.

Lemma keep_of f : fT f = true -> pf f = keep f.
Proof. unfold pf. intros ->. reflexivity. Qed.
Lemma take_of_struct ns fls n v idx t : take (AStruct ns fls n v) U64 idx = Ok t -> exists fls' v', t = AStruct ns fls' (length idx) v'.
Proof.
  unfold take. cbn [is_int depth ops ops_step o_take]. intros E. destruct (mapM _ fls) as [fls'| |]; cbn [bind] in E; try discriminate E. destruct (vtake v idx) as [v'| |]; cbn [bind] in E; try discriminate E.
  unfold try_struct in E. repeat match type of E with (if ?b then _ else _) = _ => destruct b; try discriminate E end. injection E as <-. eauto.
Qed.
Lemma take_batch_succeeds lossy f ns ts fls n v out idx : ArrWf.fc f = true -> fC f = true -> ft f = true -> fT f = true -> columns ns ts out -> wf f (AStruct ns fls n v) -> map adtype fls = ts ->
  ~ In VNull (logical (AStruct ns fls n v)) -> Forall (fun i => i < n) idx -> (Z.of_nat (length idx) <= pmax U64)%Z -> exists b, take_batch lossy (map FIndex out) (AStruct ns fls n v) idx = Ok b.
Proof.
  intros C CC FT TT CO W T NN B LI. unfold take_batch. rewrite canon_of_struct. cbn [bind].
  destruct (chosen f ns ts fls n v out CO W T NN) as (fls' & E & W' & NE & Fl & NN'). rewrite E. cbn [bind]. set (q := AStruct _ fls' n v) in *.
  assert (Forall (fun i => i < length (logical q)) idx) as B' by (rewrite logical_length; exact B).
  destruct (take_commutes_with_decoding f q U64 idx W' C FT eq_refl LI B') as [TK TE]. destruct (TE (or_introl TT)) as [t Et]. rewrite Et. cbn [bind].
  destruct (TK t Et) as (T1 & _ & T3 & _ & Wt). destruct (take_of_struct _ _ _ _ _ _ Et) as (gls & v' & ->). rewrite keep_of in Wt by exact TT.
  rewrite spec_take_pick in T1 by exact B'. apply (f_equal (fun o => match o with Some l => l | None => [] end)) in T1. cbv beta iota in T1. unfold same_kind in T3. unfold q in T3. cbn [adtype derase] in T3. injection T3 as T3.
  apply (record_batch_export_succeeds lossy (keep f) _ _ _ _ Wt).
  - exact C.
  - exact CC.
  - destruct gls; [|discriminate]. destruct fls'; [contradiction NE; reflexivity|discriminate T3].
  - clear -T3 Fl. revert gls T3. induction Fl as [|c fls' Hc _ IH]; intros [|g gls] E; try discriminate E; constructor.
    + cbn [map] in E. injection E as E _. rewrite (derase_flat _ _ E). exact Hc.
    + cbn [map] in E. injection E as _ E. exact (IH gls E).
  - rewrite <- T1. intros Hin. apply NN'. unfold pick in Hin. apply in_map_iff in Hin. destruct Hin as (i & Hi & Hx). rewrite <- Hi. apply nth_In. rewrite Forall_forall in B'. exact (B' i Hx).
Qed.
Lemma row_indices_succeed g ns fls n v e p : fs g = true -> ArrWf.fc g = true -> fC g = true -> fv g = true -> wf g (AStruct ns fls n v) -> total_filter ns fls e ->
  (forall c, In c p -> exists m, c = FName m) -> filter_columns e p -> length ns = length fls -> exists idx, row_indices e p (AStruct ns fls n v) = Ok idx /\ Forall (fun i => i < n) idx /\ length idx <= n.
Proof.
  intros FS C1 C2 C3 W TF NM FP L. unfold row_indices.
  assert (forall c, In c (refs e) -> exists a, col_of ns fls c = Some a) as RC.
  { clear -TF. induction TF as [c n H|c c' d op H H'|c d x op H H' X|c d x op H H' X|l r H1 IH1 H2 IH2|l r H1 IH1 H2 IH2]; cbn [refs]; intros k Hk.
    5-6: apply in_app_or in Hk; destruct Hk; auto.
    all: destruct H as (a & Ha & _); try destruct H' as (a' & Ha' & _); cbn in Hk; intuition (subst; eauto). }
  assert (exists idxs, Forall2 (picks ns) p idxs) as [idxs P].
  { assert (forall c, In c p -> exists i, picks ns c i) as PC.
    { intros c Hc. destruct (NM c Hc) as [m ->]. destruct (RC (FName m)) as [a Ha]; [apply FP, Hc|]. unfold col_of, col_pos in Ha. destruct (position ns m) as [i|] eqn:Pm; [|discriminate Ha]. exists i. apply position_spec. exact Pm. }
    clear -PC. induction p as [|c p IH]; [exists []; constructor|]. destruct (PC c (or_introl eq_refl)) as [i Hi]. destruct IH as [q Q]; [intros k Hk; apply PC; right; exact Hk|]. exists (i :: q). constructor; assumption. }
  destruct (project_succeeds g _ p idxs ns (map adtype fls) _ W eq_refl ltac:(rewrite map_length; exact L) P) as [s PE]. rewrite PE. cbn [bind].
  destruct (project_selects_the_columns g _ _ _ _ _ _ W eq_refl PE) as (_ & _ & _ & _ & Ws).
  destruct (project_struct_shape _ _ _ _ _ _ PE) as (idxs' & P' & B & ->).
  assert (forall c, In c (refs e) -> col_of (map (fun i => nth i ns 0) idxs') (map (fun i => nth i fls (ANull 0)) idxs') c = col_of ns fls c) as CO.
  { intros c Hc. apply (projected_col ns fls p idxs' L P' NM). apply FP, Hc. }
  set (ns' := map (fun i => nth i ns 0) idxs') in *. set (fls' := map (fun i => nth i fls (ANull 0)) idxs') in *. clearbody ns' fls'.
  pose proof (total_ext _ _ ns' fls' e TF CO) as TF'. destruct (evaluate_total g ns' fls' n v e FS C1 C2 C3 Ws TF') as [m Em]. rewrite Em. cbn [bind].
  destruct (total_covered _ _ _ TF') as [CV BT]. destruct (evaluate_ok ns' fls' n v (wf_fr _ g C1 C2 C3 Ws) e m CV Em) as (R1 & R2 & R3 & _).
  destruct (canonical_is_lossless fr m R3 eq_refl) as [K KT]. destruct (KT eq_refl) as [c Ec]. rewrite Ec. cbn [bind]. destruct (K c Ec) as (Kc & L1 & L2 & _ & TD & Wc).
  assert (is_bool (adtype c) = true) as IB. { rewrite TD; [rewrite R2; exact BT|]. rewrite R2. destruct (etype _ e); try discriminate BT; reflexivity. }
  destruct c as [|off buf len w| | | | | | | | | | | | | | ]; try discriminate Kc; try discriminate IB; try (cbn in IB; destruct utf8; discriminate IB).
  cbn [wf] in Wc. destruct Wc as (B1 & B2 & _). cbn [alen] in L2. assert (len = n) as -> by (rewrite L2, <- logical_length, R1; apply tab_length).
  eexists. split; [reflexivity|]. assert (length (lslice buf off (off + n)) = n) as LS by (rewrite lslice_length by lia; lia).
  pose proof (set_indices_lt (lslice buf off (off + n))) as LT. rewrite LS in LT. split; [exact LT|]. rewrite set_indices_length. rewrite <- LS at 2. unfold count. clear. induction (lslice _ _ _) as [|x l IH]; [apply le_n|]. cbn [filter]. destruct (id x); cbn [length]; lia.
Qed.

(** A filtered scan succeeds for filters of comparisons between columns, or of columns and non-null literals, of like types, and boolean columns, joined by
    and/or; over chunks that can be decoded, filtered and taken from. *)
Theorem filtered_scan_succeeds :
  forall lossy f table d e p ns ts out, fs f = true -> ArrWf.fc f = true -> fC f = true -> fv f = true -> ft f = true -> fT f = true ->
  convert d = Ok e -> filter_columns e p -> columns ns ts out ->
  Forall (fun a => simple_chunk f ns ts a /\ forall fls n v, a = AStruct ns fls n v -> total_filter ns fls e) table -> exists bs, filtered_scan lossy table e p out = Ok bs.
Proof.
  intros lossy f table d e p ns ts out F1 F2 F3 F4 F5 F6 CV FP CO F. unfold filtered_scan.
  assert (exists sels, mapM (row_indices e p) table = Ok sels /\ Forall2 (fun a idx => Forall (fun i => i < alen a) idx /\ length idx <= alen a) table sels) as (sels & -> & S2).
  { clear CO. induction F as [|a table [(W & NN & LN & fls & n & v & -> & T) TF] _ IH]; [exists []; split; [reflexivity|constructor]|]. destruct IH as (sels & E & S2).
    pose proof W as W'. apply wf_struct_iff in W'. destruct W' as (L & _ & _).
    destruct (row_indices_succeed f ns fls n v e p F1 F2 F3 F4 W (TF _ _ _ eq_refl)) as (idx & Ei & Bi & Li); [intros c Hc; apply (convert_names d e CV), FP, Hc|exact FP|exact L|].
    exists (idx :: sels). cbn [mapM]. rewrite Ei. cbn [bind]. rewrite E. split; [reflexivity|]. constructor; [split; [exact Bi|exact Li]|exact S2]. }
  cbn [bind]. pose proof CO as (_ & _ & NE & _).
  assert (forall pre t sels, table = pre ++ t -> Forall2 (fun a idx => Forall (fun i => i < alen a) idx /\ length idx <= alen a) t sels -> exists bs, take_rows lossy (map FIndex out) table (length pre) sels = Ok bs) as G.
  { intros pre t. revert pre. induction t as [|a t IH]; intros pre ss E S; inversion S as [|? idx ? ss' [S1 S3] S4]; subst; cbn [take_rows]; [eauto|].
    rewrite (proj2 (Nat.ltb_ge _ _)) by (rewrite app_length; lia). destruct (map FIndex out) eqn:MO; [destruct out; [contradiction NE; reflexivity|discriminate MO]|]. rewrite <- MO in *. clear MO.
    rewrite nth_error_app2, Nat.sub_diag by lia. cbn [nth_error]. apply Forall_app in F. destruct F as [_ F]. inversion F as [|? ? [(W & NN & LN & fls & n & v & -> & T) _] _]; subst. rewrite logical_length in LN. cbn [alen] in *.
    destruct (take_batch_succeeds lossy f ns (map adtype fls) fls n v out idx F2 F3 F5 F6 CO W eq_refl NN S1 ltac:(lia)) as [b Eb]. rewrite Eb. cbn [bind].
    specialize (IH (pre ++ [AStruct ns fls n v]) ss'). rewrite <- app_assoc, app_length in IH. cbn [app length] in IH. rewrite Nat.add_1_r in IH. destruct (IH eq_refl S4) as [r Er]. rewrite Er. cbn [bind]. eauto. }
  exact (G [] table sels eq_refl S2).
Qed.
Print Assumptions filtered_scan_succeeds.

(** Non-vacuity: the table and the query of C52. *)
Definition f_scan : flags := Flags true false true true true true true false false false.
Example scan_hypotheses :
  fs f_scan = true /\ ArrWf.fc f_scan = true /\ fC f_scan = true /\ fv f_scan = true /\ ft f_scan = true /\ fT f_scan = true /\ convert query = Ok (as_e query) /\
  filter_columns (as_e query) [FName 2; FName 1] /\ columns [1; 2] cols2 [1; 0] /\
  Forall (fun a => simple_chunk f_scan [1; 2] cols2 a /\ forall fls n v, a = AStruct [1; 2] fls n v -> total_filter [1; 2] fls (as_e query)) table2.
Proof.
  do 7 (split; [reflexivity|]). split; [intros c; cbn; tauto|]. split; [repeat split; [repeat constructor|discriminate|repeat constructor]|].
  apply Forall_forall. intros a Ha. destruct Ha as [<-|[<-|[]]].
  all: split; [split; [unfold f_scan; wf_tac; do 2 eexists; split; reflexivity|]; split; [cbn; intuition discriminate|]; split; [vm_compute; discriminate|]; do 3 eexists; split; reflexivity|].
  all: intros fls n v [= <- <- <-]; cbn [as_e convert query df_scalar from_arrow_type bind].
  all: apply T_and; (eapply T_lit_r; [eexists; split; [reflexivity|]; split; [exact I|]; split; [exact I|]; split; [reflexivity|]; split; [|reflexivity]; unfold plain; apply Forall_forall; intros x _; destruct x; try exact I; intros F; discriminate F
    |cbn [covered]; split; [first [exact I|reflexivity|cbn; unfold in_range; cbn; lia]|]; split; [reflexivity|]; split; [discriminate|first [exact I|intros F; discriminate F]]|discriminate]).
Qed.
