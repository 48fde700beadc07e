(** C37, C38, C39, C36 (files): what is written to a file is what a scan returns. *)
From Verif Require Import Base Spec Arr ArrRead ArrWf ArrSlice IntEnc ArrOps OpsBase PropIntEnc Ipc PropIpc PropOps Layout LayoutRead LayoutWrite.

(** * Specification *)

(** Writing a file: any number of calls of write_array_columns_stream, then finalize. *)
Fixpoint write_calls (c : codec) (ac : acodec) (s : lwriter) (d : dtype) (calls : list (list array)) : result lwriter :=
  match calls with [] => Ok s | b :: r => do s <- write_array_stream c ac s d b; write_calls c ac s d r end.
Definition write_file (c : codec) (fc : fcodec) (ac : acodec) (d : dtype) (calls : list (list array)) : result (list Z) :=
  do s <- write_calls c ac new_writer d calls; finalize c fc ac s.

(** A field stands for column [i]: the first column of that name, or the index, which must be in range. *)
Definition picks (ns : list nat) (fd : field) (i : nat) : Prop :=
  match fd with
  | FName n => nth_error ns i = Some n /\ forall j, j < i -> nth_error ns j <> Some n
  | FIndex k => k = i /\ i < length ns
  end.
Definition selects (ns : list nat) (p : projection) (idxs : list nat) : Prop :=
  match p with PAll => idxs = seq 0 (length ns) | PFlat l => Forall2 (picks ns) l idxs end.
(** The columns [idxs] of a row. *)
Definition proj_row (idxs : list nat) (r : value) : value := match r with VStruct vs => VStruct (map (fun i => nth i vs VNull) idxs) | x => x end.

(** The libraries' encodings of this file's messages are readable: the chunks, the schema, the footer (up to 8 MiB) and the postscript.
    The chunks' arrays come back with the same data type and the same elements. *)
Definition chunk_fits (c : codec) (ac : acodec) (known : nat -> bool) (f : flags) (a : array) : Prop :=
  item_fits c (IBatch (alen a) (a_ser ac a)) /\ item_known known (IBatch (alen a) (a_ser ac a)) /\
  exists a', a_de ac (adtype a) (alen a) (a_ser ac a) = Ok a' /\ wf f a' /\ adtype a' = adtype a /\ logical a' = logical a.
Definition footer_codec (fc : fcodec) : Prop :=
  (forall x k, length (f_enc fc x) <= initial_read_size -> f_dec fc (f_enc fc x ++ zeros k) = Some x) /\
  (forall s o, 0 < s -> 0 < o -> length (p_enc fc (s, o)) = 32 /\ p_dec fc (p_enc fc (s, o)) = Some (s, o)).
(** The schema of the file is within the part read first. *)
Definition schema_near (fc : fcodec) (file : list Z) : Prop := forall desc, read_footer fc file = Ok desc -> d_off desc <= d_schema desc.

(** A batch to be written: a struct array without nulls at the top, whose chunks are readable. *)
Definition batch_fits (c : codec) (ac : acodec) (known : nat -> bool) (f : flags) (ns : list nat) (ts : list dtype) (b : array) : Prop :=
  wf f b /\ adtype b = DStruct ns ts false /\ (exists fls n v, b = AStruct ns fls n v) /\ Forall (chunk_fits c ac known f) (flat_map chunks_of (fields_of b)).
(** Number of chunks of column [j] in the file. *)
Definition chunk_count (j : nat) (bs : list array) : nat := list_sum (map (fun b => length (chunks_of (nth j (fields_of b) (ANull 0)))) bs).

(** * Rows and columns *)
Lemma position_spec ns n i : position ns n = Some i <-> nth_error ns i = Some n /\ forall j, j < i -> nth_error ns j <> Some n.
Proof.
  revert i; induction ns as [|m r IH]; intros i; cbn [position].
  - split; [discriminate|]. intros [H _]. destruct i; discriminate H.
  - destruct (Nat.eqb_spec m n) as [->|N].
    + split; [intros H; assert (i = 0) as -> by congruence; split; [reflexivity|lia]|]. intros [H1 H2]. destruct i as [|i]; [reflexivity|]. exfalso. apply (H2 0); [lia|reflexivity].
    + specialize (IH (i - 1)). destruct (position r n) as [k|].
      * split.
        -- intros H. assert (i = S k) as -> by congruence. replace (S k - 1) with k in IH by lia. destruct (proj1 IH eq_refl) as [A B]. split; [exact A|]. intros [|j] Hj; [cbn; congruence|]. apply B. lia.
        -- intros [H1 H2]. destruct i as [|i]; [cbn in H1; congruence|]. replace (S i - 1) with i in IH by lia. assert (Some k = Some i) as E by (apply IH; split; [exact H1|intros j Hj; apply (H2 (S j)); lia]). congruence.
      * split; [discriminate|]. intros [H1 H2]. destruct i as [|i]; [cbn in H1; congruence|]. replace (S i - 1) with i in IH by lia. assert (None = Some i) as E by (apply IH; split; [exact H1|intros j Hj; apply (H2 (S j)); lia]). discriminate E.
Qed.
Lemma picks_lt ns fd i : picks ns fd i -> i < length ns.
Proof. destruct fd; [intros [H _]; apply nth_error_Some; congruence|intros [_ H]; exact H]. Qed.
Lemma resolve_ok ns fd i : picks ns fd i -> resolve_field ns fd = Ok i.
Proof. destruct fd as [n|k]; cbn; [intros H; apply position_spec in H; rewrite H; reflexivity|intros [-> _]; reflexivity]. Qed.
Lemma selects_lt ns p idxs : selects ns p idxs -> Forall (fun i => i < length ns) idxs.
Proof.
  destruct p as [|l]; cbn [selects].
  - intros ->. apply Forall_forall. intros i H. apply in_seq in H. lia.
  - induction 1; constructor; eauto using picks_lt.
Qed.
Lemma nth_error_nth_lt {A} (l : list A) i d : i < length l -> nth_error l i = Some (nth i l d).
Proof. revert i; induction l as [|x l IH]; intros [|i] H; cbn in *; try lia; [reflexivity|]. apply IH. lia. Qed.
Lemma map_nth_seq {A} (l : list A) d : map (fun i => nth i l d) (seq 0 (length l)) = l.
Proof. apply nth_ext with (d := d) (d' := d); [rewrite map_length, seq_length; reflexivity|]. intros i H. rewrite map_length, seq_length in H. rewrite (map_nth_lt _ _ 0) by (rewrite seq_length; exact H). rewrite seq_nth by exact H. reflexivity. Qed.
Lemma projected_ok ns ts nl p idxs : length ns = length ts -> selects ns p idxs ->
  projected (DStruct ns ts nl) p = Ok (DStruct (map (fun i => nth i ns 0) idxs) (map (fun i => nth i ts DNull) idxs) nl).
Proof.
  intros L H. destruct p as [|l]; cbn [projected selects project_dtype] in *.
  - subst idxs. rewrite map_nth_seq, L, map_nth_seq. reflexivity.
  - assert (mapM (fun f => do i <- resolve_field ns f; read_field ns ts i) l = Ok (map (fun i => (nth i ns 0, nth i ts DNull)) idxs)) as ->.
    { induction H as [|fd i l idxs Hf _ IH]; [reflexivity|]. cbn [mapM map]. rewrite (resolve_ok _ _ _ Hf). cbn [bind]. pose proof (picks_lt _ _ _ Hf) as Li. unfold read_field at 1.
      rewrite (nth_error_nth_lt ns i 0), (nth_error_nth_lt ts i DNull) by lia. cbn [bind]. rewrite IH. reflexivity. }
    cbn [bind]. rewrite !map_map. reflexivity.
Qed.

(** * Opening the columns *)
Section Open.
  Variables (e : env) (f : flags) (ns : list nat) (ts : list dtype).
  Variables (out : list Z) (rest : list Z) (ls : list layout) (css : list (list array)).
  Hypothesis NT : length ns = length ts.
  Hypothesis file_eq : e_file e = out ++ rest.
  Hypothesis CL : length css = length ts.
  Hypothesis few_cols : (Z.of_nat (length ts) <= 65536)%Z.
  Hypothesis few_chunks : Forall (fun cs => (Z.of_nat (length cs) < 65536)%Z) css.
  Hypothesis cs_dtype : forall i, i < length ts -> Forall (fun a => adtype a = nth i ts DNull) (nth i css []).
  Hypothesis cs_fits : Forall (Forall (chunk_fits (e_c e) (e_ac e) (e_known e) f)) css.
  Variable rss : list (list (nat * nat)).
  Hypothesis RS1 : Forall2 (fun l rs => exists ml, l = lay_chunked (ml :: map lay_flat rs) true) ls rss.
  Hypothesis RS2 : Forall2 (Forall2 (holds (e_c e) (e_ac e) out)) rss css.

  Definition col_msgs (i : nat) (rs : list (nat * nat)) : list message := map (fun kr => ([as_u16 i; as_u16 (fst kr)], snd kr)) (combine (seq 1 (length rs)) rs).
  Definition asg : list message := concat (map (fun ir => col_msgs (fst ir) (snd ir)) (combine (seq 0 (length rss)) rss)).

  Lemma in_combine_seq {A} (l : list A) : forall s i x, In (i, x) (combine (seq s (length l)) l) <-> s <= i /\ nth_error l (i - s) = Some x.
  Proof.
    induction l as [|y l IH]; intros s i x; cbn [length seq combine]; [split; [intros []|intros [_ H]; destruct (i - s); discriminate H]|]. cbn [In]. rewrite IH. split.
    - intros [H|[H1 H2]]; [assert (s = i /\ y = x) as [<- <-] by (split; congruence); rewrite Nat.sub_diag; split; [lia|reflexivity]|]. split; [lia|]. replace (i - s) with (S (i - S s)) by lia. exact H2.
    - intros [H1 H2]. destruct (Nat.eq_dec i s) as [->|N]; [left; rewrite Nat.sub_diag in H2; cbn in H2; congruence|right]. split; [lia|]. replace (i - s) with (S (i - S s)) in H2 by lia. exact H2.
  Qed.
  Lemma in_asg p r : In (p, r) asg <-> exists i k rs, nth_error rss i = Some rs /\ nth_error rs k = Some r /\ p = [as_u16 i; as_u16 (S k)].
  Proof.
    unfold asg. rewrite in_concat. split.
    - intros (x & H1 & H2). apply in_map_iff in H1. destruct H1 as ([i rs] & <- & H1). apply in_combine_seq in H1. destruct H1 as [_ H1]. rewrite Nat.sub_0_r in H1. unfold col_msgs in H2. cbn [fst snd] in H2. apply in_map_iff in H2. destruct H2 as ([k r'] & H2 & H3).
      apply in_combine_seq in H3. cbn [fst snd] in H2. exists i, (k - 1), rs. destruct H3 as [H3 H4]. replace (S (k - 1)) with k by lia. split; [exact H1|]. split; congruence.
    - intros (i & k & rs & H1 & H2 & ->). exists (col_msgs i rs). split; [apply in_map_iff; exists (i, rs); split; [reflexivity|]; apply in_combine_seq; rewrite Nat.sub_0_r; split; [lia|exact H1]|].
      unfold col_msgs. apply in_map_iff. exists (S k, r). split; [reflexivity|]. apply in_combine_seq. split; [lia|]. replace (S k - 1) with k by lia. exact H2.
  Qed.
  Lemma as_u16_small i : (Z.of_nat i < 65536)%Z -> as_u16 i = i.
  Proof. intros H. unfold as_u16. rewrite Z.mod_small by lia. apply Nat2Z.id. Qed.
  Lemma Forall2_nth_error {A B} (R : A -> B -> Prop) l l' i x : Forall2 R l l' -> nth_error l i = Some x -> exists y, nth_error l' i = Some y /\ R x y.
  Proof. intros H. revert i; induction H as [|a b l l' Hab _ IH]; intros [|i] E; cbn in *; try discriminate; [exists b; split; [reflexivity|congruence]|apply IH, E]. Qed.
  Lemma Forall2_nth_error_r {A B} (R : A -> B -> Prop) l l' i y : Forall2 R l l' -> nth_error l' i = Some y -> exists x, nth_error l i = Some x /\ R x y.
  Proof. intros H. revert i; induction H as [|a b l l' Hab _ IH]; intros [|i] E; cbn in *; try discriminate; [exists a; split; [reflexivity|congruence]|apply IH, E]. Qed.
  Lemma rss_bounds i k rs r : nth_error rss i = Some rs -> nth_error rs k = Some r ->
    (Z.of_nat i < 65536)%Z /\ (Z.of_nat (S k) < 65536)%Z /\ exists cs a, nth_error css i = Some cs /\ nth_error cs k = Some a /\ holds (e_c e) (e_ac e) out r a.
  Proof.
    intros H1 H2. destruct (Forall2_nth_error _ _ _ _ _ RS2 H1) as (cs & E1 & E2). destruct (Forall2_nth_error _ _ _ _ _ E2 H2) as (a & E3 & E4).
    assert (i < length css) as L1 by (apply nth_error_Some; congruence). assert (k < length cs) as L2 by (apply nth_error_Some; congruence).
    rewrite Forall_forall in few_chunks. pose proof (few_chunks cs (nth_error_In _ _ E1)) as L3. cbv beta in L3. split; [lia|]. split; [lia|]. exists cs, a. auto.
  Qed.
  Lemma asg_functional p r r' : In (p, r) asg -> In (p, r') asg -> r = r'.
  Proof.
    rewrite !in_asg. intros (i & k & rs & H1 & H2 & ->) (i' & k' & rs' & H3 & H4 & E). destruct (rss_bounds i k rs r H1 H2) as (B1 & B2 & _). destruct (rss_bounds i' k' rs' r' H3 H4) as (B3 & B4 & _).
    rewrite !as_u16_small in E by assumption. assert (i = i' /\ k = k') as [<- <-] by (split; congruence). congruence.
  Qed.
  Lemma asg_in_file p b n : In (p, (b, n)) asg -> b <= n <= length (e_file e).
  Proof.
    rewrite in_asg. intros (i & k & rs & H1 & H2 & ->). destruct (rss_bounds i k rs _ H1 H2) as (_ & _ & cs & a & _ & _ & A & B & _). cbn [fst snd] in *. rewrite file_eq, app_length. lia.
  Qed.

  Lemma flats_ok i d rs : forall s cs, nth_error rss i = Some rs \/ True -> Forall2 (holds (e_c e) (e_ac e) out) rs cs -> Forall (chunk_fits (e_c e) (e_ac e) (e_known e) f) cs -> Forall (fun a => adtype a = d) cs ->
    (forall k r, nth_error rs k = Some r -> In ([as_u16 i; as_u16 (s + k)], r) asg) ->
    exists fl, mapM (fun ic => open_flat ([as_u16 i] ++ [as_u16 (fst ic)]) d (snd ic)) (combine (seq s (length rs)) (map lay_flat rs)) = Ok fl /\
      Forall2 (flat_ok e f asg d) fl (map logical cs).
  Proof.
    intros s cs _ H. revert s. induction H as [|r a rs cs Hr _ IH]; intros s FT DT IN.
    - exists []. split; [reflexivity|constructor].
    - inversion FT as [|? ? F1 F2]; inversion DT as [|? ? D1 D2]; subst. destruct (IH (S s) F2 D2) as (fl & E & G). { intros k r' Hk. replace (S s + k) with (s + S k) by lia. apply IN. exact Hk. }
      cbn [length seq map combine mapM fst snd]. unfold open_flat at 1, lay_flat at 1. cbn [bind]. rewrite E. cbn [bind]. eexists. split; [reflexivity|]. constructor; [|exact G].
      split; [cbn [fl_path fl_range]; pose proof (IN 0 r eq_refl) as Q; rewrite Nat.add_0_r in Q; exact Q|]. split; [reflexivity|]. right. split; [reflexivity|].
      destruct F1 as (I1 & I2 & a' & A1 & A2 & A3 & A4). exists a'. split; [exact A2|]. split; [exact A3|]. split; [exact A4|]. cbn [fl_arr fl_range].
      assert (extract e r = chunk_bytes (e_c e) (e_ac e) a) as ->. { unfold extract. rewrite file_eq. apply (holds_app _ _ _ rest) in Hr. apply Hr. }
      unfold chunk_bytes. rewrite array_from_bytes_ok by assumption. exact A1.
  Qed.
  Lemma open_child_ok i : i < length ts ->
    exists ch, open_child ls i (nth i ts DNull) = Ok ch /\ chunk_ok e f asg (nth i ts DNull) ch (rows_of (nth i css [])) /\ length (ck_layouts ch) = length (nth i css []).
  Proof.
    intros Hi. assert (nth_error css i = Some (nth i css [])) as N1 by (apply nth_error_nth_lt; lia). destruct (Forall2_nth_error_r _ _ _ _ _ RS2 N1) as (rs & N2 & H). destruct (Forall2_nth_error_r _ _ _ _ _ RS1 N2) as (l & N3 & ml & ->).
    unfold open_child. rewrite N3. unfold open_chunked, lay_chunked. cbn [has_meta]. change (negb (1 =? 0)%Z) with true. cbv iota. cbn [length seq combine skipn]. rewrite map_length.
    destruct (flats_ok i (nth i ts DNull) rs 1 (nth i css []) (or_intror I) H) as (fl & E & G).
    { rewrite Forall_forall in cs_fits. apply cs_fits. apply (nth_error_In _ _ N1). } { apply cs_dtype, Hi. } { intros k r Hk. apply in_asg. exists i, k, rs. auto. }
    rewrite E. cbn [bind]. exists (CS fl []). split; [reflexivity|]. split; [exists (map logical (nth i css [])); cbn; split; [exact G|split; [constructor|reflexivity]]|].
    cbn [ck_layouts]. apply Forall2_len in G. rewrite map_length in G. exact G.
  Qed.
  Definition spec_of (idxs : list nat) : list (dtype * list value) := map (fun i => (nth i ts DNull, rows_of (nth i css []))) idxs.
  Lemma children_ok (g : nat -> result chunk_st) idxs : Forall (fun i => i < length ts) idxs -> (forall i, In i idxs -> g i = open_child ls i (nth i ts DNull)) ->
    exists chs, mapM g idxs = Ok chs /\ length chs = length idxs /\
      Forall2 (fun ch i => chunk_ok e f asg (nth i ts DNull) ch (rows_of (nth i css [])) /\ length (ck_layouts ch) = length (nth i css [])) chs idxs.
  Proof.
    induction 1 as [|i idxs Hi _ IH]; intros HG; [exists []; repeat split; constructor|]. destruct IH as (chs & E & L & G); [intros j Hj; apply HG; right; exact Hj|].
    destruct (open_child_ok i Hi) as (ch & E1 & E2 & E3). exists (ch :: chs). cbn [mapM]. rewrite HG by (left; reflexivity). rewrite E1. cbn [bind]. rewrite E. cbn [bind]. split; [reflexivity|]. split; [cbn; congruence|]. constructor; auto.
  Qed.
  Lemma mapM_map_ {A B C} (g : B -> result C) (h : A -> B) l : mapM g (map h l) = mapM (fun x => g (h x)) l.
  Proof. induction l as [|x l IH]; [reflexivity|]. cbn [map mapM]. rewrite IH. reflexivity. Qed.
  Lemma mapM_ext_ {A B} (g h : A -> result B) l : (forall x, In x l -> g x = h x) -> mapM g l = mapM h l.
  Proof. induction l as [|x l IH]; intros H; [reflexivity|]. cbn [mapM]. rewrite H by (left; reflexivity). rewrite IH by (intros y Hy; apply H; right; exact Hy). reflexivity. Qed.

  Lemma open_column_ok bs F p idxs : selects ns p idxs -> idxs <> [] -> Forall (chunkable f) ts -> (forall i, i < length ts -> length (rows_of (nth i css [])) = length (rows_of (nth 0 css []))) ->
    (forall i, i < length ts -> 2 * length (nth i css []) + length (rows_of (nth 0 css [])) < F) ->
    exists st, open_column (DStruct ns ts false) p (lay_column ls) = Ok st /\ co_names st = map (fun i => nth i ns 0) idxs /\
      col_ok e bs f asg F (length (rows_of (nth 0 css []))) (spec_of idxs) st /\
      length (all_paths (co_children st)) = list_sum (map (fun i => length (nth i css [])) idxs).
  Proof.
    intros HS NE HC HR HF. pose proof (selects_lt _ _ _ HS) as LT. rewrite NT in LT. unfold open_column. rewrite (projected_ok _ _ _ _ _ NT HS). cbn [bind lay_column].
    assert (length ls = length ts) as LL by (apply Forall2_len in RS1; apply Forall2_len in RS2; lia).
    assert (exists chs, match p with
                     | PAll => if length ls =? length (map (fun i => nth i ts DNull) idxs) then mapM (fun it => open_child ls (fst it) (snd it)) (combine (seq 0 (length ls)) (map (fun i => nth i ts DNull) idxs)) else Panic
                     | PFlat p => mapM (fun ft => do i <- resolve_field ns (fst ft); open_child ls i (snd ft)) (combine p (map (fun i => nth i ts DNull) idxs))
                     end = Ok chs /\ length chs = length idxs /\
      Forall2 (fun ch i => chunk_ok e f asg (nth i ts DNull) ch (rows_of (nth i css [])) /\ length (ck_layouts ch) = length (nth i css [])) chs idxs) as (chs & E & L & G).
    { destruct p as [|l]; cbn [selects] in HS.
      - rewrite HS, map_length, seq_length, NT, LL, Nat.eqb_refl.
        assert (forall q, combine (seq 0 q) (map (fun i => nth i ts DNull) (seq 0 q)) = map (fun i => (i, nth i ts DNull)) (seq 0 q)) as CQ. { intros q. induction (seq 0 q) as [|x y IHq]; [reflexivity|]. cbn. rewrite IHq. reflexivity. }
        rewrite CQ, mapM_map_. rewrite NT in HS. destruct (children_ok (fun i => open_child ls i (nth i ts DNull)) (seq 0 (length ts))) as (chs & Q1 & Q2 & Q3); [rewrite <- HS; exact LT|reflexivity|]. rewrite seq_length in Q2. exists chs. split; [exact Q1|]. split; [exact Q2|exact Q3].
      - assert (mapM (fun ft => do i <- resolve_field ns (fst ft); open_child ls i (snd ft)) (combine l (map (fun i => nth i ts DNull) idxs)) = mapM (fun i => open_child ls i (nth i ts DNull)) idxs) as ->.
        { clear -HS. induction HS as [|fd i l idxs Hf _ IH]; [reflexivity|]. cbn [map combine mapM fst snd]. rewrite (resolve_ok _ _ _ Hf). cbn [bind]. rewrite IH. reflexivity. }
        apply children_ok; [exact LT|]. intros i _. reflexivity. }
    rewrite E. cbn [bind]. eexists. split; [reflexivity|]. split; [reflexivity|]. cbn [co_children].
    assert (spec_of idxs <> []) as NS by (unfold spec_of; intros Z; apply map_eq_nil in Z; congruence). split.
    - split; [exact NS|]. split; [unfold spec_of; cbn [co_names]; rewrite !map_length; reflexivity|]. cbn [co_children co_arrays]. split; [|split].
      + clear -G. unfold spec_of. induction G as [|ch i chs idxs [G1 G2] _ IH]; cbn [length repeat map]; constructor; [exact G1|exact IH].
      + unfold spec_ok, spec_of. apply Forall_map. eapply Forall_impl; [|exact LT]. intros i Hi. cbn [fst snd]. split; [apply HR, Hi|]. rewrite Forall_forall in HC. apply HC, nth_In, Hi.
      + unfold fuel_ok. clear -G LT HF. induction G as [|ch i chs idxs [G1 G2] _ IH]; constructor; inversion LT; subst; auto. rewrite G2. apply HF. assumption.
    - clear -G. unfold all_paths. induction G as [|ch i chs idxs [G1 G2] _ IH]; [reflexivity|]. cbn [flat_map map]. change (list_sum (?a :: ?b)) with (a + list_sum b). rewrite app_length, IH. unfold paths at 1. rewrite map_length, G2. reflexivity.
  Qed.
End Open.

(** * Batches as columns *)
Section Batches.
  Variables (c : codec) (ac : acodec) (known : nat -> bool) (f : flags) (ns : list nat) (ts : list dtype).
  Let fits := batch_fits c ac known f ns ts.
  Lemma batch_shape b : fits b -> exists fls n, b = AStruct ns fls n VNonNull /\ length ns = length ts /\ map adtype fls = ts /\ Forall (fun x => wf f x /\ alen x = n) fls /\ Forall (chunk_fits c ac known f) (flat_map chunks_of fls).
  Proof.
    intros (W & D & (fls & n & v & ->) & FT). apply wf_struct_iff in W. destruct W as (W1 & W2 & W3). cbn [adtype] in D. injection D as D1 D2. exists fls, n. destruct v; try discriminate D2.
    split; [reflexivity|]. split; [rewrite <- D1, map_length; exact W1|]. split; [exact D1|]. split; [exact W3|exact FT].
  Qed.
  Lemma batch_fields b : fits b -> is_batch (length ts) b.
  Proof. intros H. destruct (batch_shape b H) as (fls & n & -> & _ & E & _). cbn. rewrite <- E, map_length. reflexivity. Qed.
  Lemma chunks_rows a : wf f a -> Forall (fun x => adtype x = adtype a) (chunks_of a) /\ rows_of (chunks_of a) = logical a.
  Proof.
    unfold rows_of. intros W. destruct a; cbn [chunks_of map concat]; try (rewrite app_nil_r; split; [repeat constructor|reflexivity]). cbn [wf] in W. destruct W as [W _]. apply wf_chunks_iff in W. split; [|reflexivity].
    eapply Forall_impl; [|exact W]. intros x [_ Hx]. exact Hx.
  Qed.
  Lemma rows_app a b : rows_of (a ++ b) = rows_of a ++ rows_of b.
  Proof. unfold rows_of. rewrite map_app, concat_app. reflexivity. Qed.
  Lemma columns_nth m bs i : i < m -> nth i (columns m bs) [] = flat_map (fun b => chunks_of (nth i (fields_of b) (ANull 0))) bs.
  Proof. intros H. unfold columns. rewrite (map_nth_lt _ _ 0) by (rewrite seq_length; exact H). rewrite seq_nth by exact H. reflexivity. Qed.
  Definition col_rows (i : nat) (bs : list array) : list value := concat (map (fun b => logical (nth i (fields_of b) (ANull 0))) bs).
  Lemma field_facts b i : fits b -> i < length ts -> let a := nth i (fields_of b) (ANull 0) in wf f a /\ alen a = alen b /\ adtype a = nth i ts DNull /\ Forall (chunk_fits c ac known f) (chunks_of a).
  Proof.
    intros H Hi a. destruct (batch_shape b H) as (fls & n & -> & _ & E & W & FT). cbn [fields_of alen] in *. assert (i < length fls) as Hl by (rewrite <- E, map_length in Hi; exact Hi).
    pose proof (nth_In fls (ANull 0) Hl) as I. fold a in I. rewrite Forall_forall in W. destruct (W a I) as [W1 W2]. split; [exact W1|]. split; [exact W2|]. split.
    - rewrite <- E. symmetry. apply map_nth_lt. exact Hl.
    - apply Forall_forall. intros x Hx. rewrite Forall_forall in FT. apply FT. apply in_flat_map. exists a. auto.
  Qed.
  Lemma columns_facts bs i : Forall fits bs -> i < length ts ->
    rows_of (nth i (columns (length ts) bs) []) = col_rows i bs /\ length (col_rows i bs) = row_count bs /\
    Forall (fun a => adtype a = nth i ts DNull) (nth i (columns (length ts) bs) []) /\ Forall (chunk_fits c ac known f) (nth i (columns (length ts) bs) []) /\
    length (nth i (columns (length ts) bs) []) = chunk_count i bs.
  Proof.
    intros H Hi. rewrite columns_nth by exact Hi. induction H as [|b bs Hb _ IH]; [repeat split; constructor|]. destruct IH as (I1 & I2 & I3 & I4 & I5). destruct (field_facts b i Hb Hi) as (F1 & F2 & F3 & F4).
    cbn [flat_map]. destruct (chunks_rows _ F1) as [C1 C2]. unfold col_rows. cbn [map concat]. fold (col_rows i bs). change (row_count (b :: bs)) with (alen b + row_count bs).
    split; [rewrite rows_app, C2, I1; reflexivity|]. split; [rewrite app_length, logical_length, F2, I2; reflexivity|]. split; [apply Forall_app; split; [|exact I3]; rewrite <- F3; exact C1|]. split; [apply Forall_app; auto|].
    rewrite app_length, I5. reflexivity.
  Qed.
  Lemma zip_app {I : Type} n m (A B : I -> list value) idxs : (forall i, In i idxs -> length (A i) = n) -> zip_rows (n + m) (map (fun i => A i ++ B i) idxs) = zip_rows n (map A idxs) ++ zip_rows m (map B idxs).
  Proof.
    intros H. apply nth_ext with (d := VNull) (d' := VNull); [rewrite app_length, !zip_length; reflexivity|]. intros i Hi. rewrite zip_length in Hi. unfold zip_rows. rewrite nth_tab by exact Hi.
    destruct (Nat.lt_ge_cases i n) as [L|L].
    - rewrite app_nth1 by (rewrite tab_length; exact L). rewrite nth_tab by exact L. f_equal. rewrite !map_map. apply map_ext_in. intros j Hj. apply app_nth1. rewrite H by exact Hj. exact L.
    - rewrite app_nth2 by (rewrite tab_length; exact L). rewrite tab_length, nth_tab by lia. f_equal. rewrite !map_map. apply map_ext_in. intros j Hj. rewrite app_nth2 by (rewrite H by exact Hj; exact L). rewrite H by exact Hj. reflexivity.
  Qed.
  Lemma rows_projected bs idxs : Forall fits bs -> Forall (fun i => i < length ts) idxs ->
    zip_rows (row_count bs) (map (fun i => col_rows i bs) idxs) = map (proj_row idxs) (rows_of bs).
  Proof.
    intros H HI. induction H as [|b bs Hb _ IH]; [reflexivity|]. change (row_count (b :: bs)) with (alen b + row_count bs). unfold rows_of, col_rows in *. cbn [map concat]. rewrite map_app, <- IH, zip_app.
    - f_equal. destruct (batch_shape b Hb) as (fls & n & -> & _ & E & W & _). cbn [fields_of alen logical vvalid]. apply nth_ext with (d := VNull) (d' := VNull); [rewrite zip_length, map_length, tab_length; reflexivity|].
      intros j Hj. rewrite zip_length in Hj. rewrite (map_nth_lt _ _ VNull) by (rewrite tab_length; exact Hj). rewrite nth_tab by exact Hj. unfold zip_rows. rewrite nth_tab by exact Hj. cbn [proj_row]. f_equal. rewrite map_map.
      apply map_ext_in. intros i Ii. rewrite Forall_forall in HI. specialize (HI i Ii). cbv beta in HI. rewrite <- E, map_length in HI. symmetry. rewrite map_map. rewrite (map_nth_lt _ _ (ANull 0)) by exact HI. reflexivity.
    - intros i Ii. rewrite Forall_forall in HI. destruct (field_facts b i Hb (HI i Ii)) as (F1 & F2 & _). rewrite logical_length. exact F2.
  Qed.
  Lemma proj_row_all bs : Forall fits bs -> map (proj_row (seq 0 (length ts))) (rows_of bs) = rows_of bs.
  Proof.
    intros H. rewrite <- (map_id (rows_of bs)) at 2. apply map_ext_in. intros r Hr. unfold rows_of in Hr. apply in_concat in Hr. destruct Hr as (l & H1 & H2). apply in_map_iff in H1. destruct H1 as (b & <- & H1).
    rewrite Forall_forall in H. specialize (H b H1). destruct (batch_shape b H) as (fls & n & -> & _ & E & _). cbn [logical] in H2. apply In_tab in H2. destruct H2 as (i & _ & ->). cbn [vvalid proj_row]. f_equal.
    rewrite <- E, map_length. replace (length fls) with (length (map (fun l => nth i l VNull) (map logical fls))) by (rewrite !map_length; reflexivity). apply map_nth_seq.
  Qed.
End Batches.

(** * Writing *)
Lemma write_calls_ok c ac d m : forall calls s done, linv c ac m s done -> (lw_dtype s = None \/ lw_dtype s = Some d) -> Forall (is_batch m) (concat calls) ->
  exists s', write_calls c ac s d calls = Ok s' /\ linv c ac m s' (done ++ concat calls) /\ (calls <> [] -> lw_dtype s' = Some d).
Proof.
  induction calls as [|b r IH]; intros s done L D HB; cbn [write_calls].
  - exists s. cbn [concat]. rewrite app_nil_r. split; [reflexivity|]. split; [exact L|congruence].
  - cbn [concat] in HB. apply Forall_app in HB. destruct HB as [HB1 HB2].
    assert (exists s1, write_array_stream c ac s d b = Ok s1 /\ linv c ac m s1 (done ++ b) /\ lw_dtype s1 = Some d) as (s1 & -> & L1 & D1).
    { unfold write_array_stream. destruct D as [D|D]; rewrite D.
      - destruct (write_batches_ok c ac m b (LW (lw_w s) (lw_rows s) (Some d) (lw_cols s)) done L HB1) as (s1 & E1 & E2 & E3). exists s1. auto.
      - rewrite dtype_eqb_refl. destruct (write_batches_ok c ac m b s done L HB1) as (s1 & E1 & E2 & E3). exists s1. rewrite E3. auto. }
    cbn [bind]. destruct (IH s1 (done ++ b) L1 (or_intror D1) HB2) as (s' & E & L2 & D2). exists s'. split; [exact E|]. cbn [concat]. rewrite app_assoc. split; [exact L2|]. intros _. destruct r as [|b' r']; [cbn [write_calls] in E; congruence|]. apply D2. discriminate.
Qed.

Lemma written c fc ac d m calls : Forall (is_batch m) (concat calls) -> concat calls <> [] -> 0 < m -> decodes c (MSchema d) -> footer_codec fc ->
  exists file out rest ls rss, write_file c fc ac d calls = Ok file /\ file = out ++ rest /\
    Forall2 (fun l rs => exists ml, l = lay_chunked (ml :: map lay_flat rs) true) ls rss /\ Forall2 (Forall2 (holds c ac out)) rss (columns m (concat calls)) /\
    (schema_near fc file -> exists desc, read_footer fc file = Ok desc /\ desc_dtype c desc = Ok d /\ desc_layout fc desc = Ok (lay_column ls, row_count (concat calls))).
Proof.
  intros HB NE M0 DS [FC PC]. unfold write_file.
  destruct (write_calls_ok c ac d m calls new_writer []) as (s' & -> & (W & R & H) & D); [split; [split; reflexivity|split; [reflexivity|constructor]]|left; reflexivity|exact HB|]. cbn [bind app] in *.
  assert (calls <> []) as NC by (intros ->; apply NE; reflexivity). specialize (D NC).
  assert (cols_now m (concat calls) = columns m (concat calls)) as CN by (unfold cols_now; destruct (concat calls); [congruence|reflexivity]). rewrite CN in H.
  destruct (finalize_ok c fc ac s' d (columns m (concat calls)) W H D) as (out & ls & E & HL & PO). rewrite R in E.
  assert (columns m (concat calls) <> []) as NCol by (intros Z; apply (f_equal (@length _)) in Z; rewrite columns_length in Z; cbn in Z; lia). specialize (PO NCol).
  assert (exists rss, Forall2 (fun l rs => exists ml, l = lay_chunked (ml :: map lay_flat rs) true) ls rss /\ Forall2 (Forall2 (holds c ac out)) rss (columns m (concat calls))) as (rss & R1 & R2).
  { clear -HL. induction HL as [|l cs ls css (ml & rs & A & B) _ IH]; [exists []; split; constructor|]. destruct IH as (rss & R1 & R2). exists (rs :: rss). split; constructor; eauto. }
  set (x := (lay_column ls, row_count (concat calls))) in *. destruct (PC (length out) (length out + length (item_bytes c (IDType d))) PO ltac:(lia)) as [P1 P2].
  eexists. exists out. eexists. exists ls, rss. split; [exact E|]. split; [unfold file_of; rewrite <- !app_assoc; reflexivity|]. split; [exact R1|]. split; [exact R2|].
  intros SN. destruct (read_footer_ok c fc out d x P1 P2) as (off & RF & EO & LF). fold (file_of c fc out d x) in *. pose proof (SN _ RF) as SO. cbn [d_off d_schema] in SO. eexists. split; [exact RF|].
  apply desc_ok; auto. intros k. apply FC. pose proof (frame_length (f_enc fc x)) as FL. destruct (aligned_facts (4 + length (f_enc fc x))) as (A1 & _).
  set (fl := length (file_of c fc out d x)) in *. clearbody fl. set (ir := initial_read_size) in *. clearbody ir. fold x. clear -EO SO LF FL A1. lia.
Qed.

Lemma in_list_sum_le {A} (g : A -> nat) l x : In x l -> g x <= list_sum (map g l).
Proof. induction l as [|y l IH]; [intros []|]. cbn [map]. change (list_sum (g y :: map g l)) with (g y + list_sum (map g l)). intros [->|H]; [lia|]. specialize (IH H). lia. Qed.

(** What a written file is for the readers of LayoutRead.v. *)
Lemma opened c fc ac known f ns ts calls bs :
  0 < length ts -> (Z.of_nat (length ts) <= 65536)%Z -> concat calls <> [] -> Forall (batch_fits c ac known f ns ts) (concat calls) -> Forall (chunkable f) ts ->
  (forall j, j < length ts -> (Z.of_nat (chunk_count j (concat calls)) < 65536)%Z) -> decodes c (MSchema (DStruct ns ts false)) -> footer_codec fc ->
  exists file, write_file c fc ac (DStruct ns ts false) calls = Ok file /\
  (schema_near fc file -> let e := Env c fc ac known file in let n := row_count (concat calls) in let css := columns (length ts) (concat calls) in
    exists asg K, (forall p r r', In (p, r) asg -> In (p, r') asg -> r = r') /\ (forall p b n, In (p, (b, n)) asg -> b <= n <= length file) /\
    (forall p idxs, selects ns p idxs -> idxs <> [] -> forall F, K <= F ->
       exists st, co_names st = map (fun i => nth i ns 0) idxs /\ col_ok e bs f asg F n (spec_of ts css idxs) st /\
         (forall filter, build e p filter = do fl <- match filter with None => Ok None | Some fp => do x <- open_column (DStruct ns ts false) (PFlat fp) (match desc_layout fc (match read_footer fc file with Ok d => d | _ => Desc 0 0 [] 0 end) with Ok (l, _) => l | _ => lay_column [] end); Ok (Some x) end;
                           Ok (SS st fl [] None (match fl with None => true | Some _ => false end))) /\
         open_column (DStruct ns ts false) p (match desc_layout fc (match read_footer fc file with Ok d => d | _ => Desc 0 0 [] 0 end) with Ok (l, _) => l | _ => lay_column [] end) = Ok st /\
         length (all_paths (co_children st)) = list_sum (map (fun i => chunk_count i (concat calls)) idxs))).
Proof.
  intros M0 FEW NE HB CK FC DS FCO. assert (length ns = length ts) as NT. { destruct (concat calls) as [|b r]; [congruence|]. inversion HB as [|? ? B1 _]; subst. destruct (batch_shape _ _ _ _ _ _ _ B1) as (_ & _ & _ & E & _). exact E. }
  assert (Forall (is_batch (length ts)) (concat calls)) as HI by (eapply Forall_impl; [|exact HB]; intros b Hb; eapply batch_fields; exact Hb).
  destruct (written c fc ac (DStruct ns ts false) (length ts) calls HI NE M0 DS FCO) as (file & out & rest & ls & rss & E & FE & R1 & R2 & OP).
  exists file. split; [exact E|]. intros SN e n css. destruct (OP SN) as (desc & O1 & O2 & O3). fold css in R2.
  assert (length css = length ts) as CL by apply columns_length.
  assert (forall i, i < length ts -> rows_of (nth i css []) = col_rows i (concat calls) /\ length (col_rows i (concat calls)) = n /\ Forall (fun a => adtype a = nth i ts DNull) (nth i css []) /\ Forall (chunk_fits c ac known f) (nth i css []) /\ length (nth i css []) = chunk_count i (concat calls)) as CF by (intros i Hi; apply (columns_facts c ac known f ns ts); assumption).
  assert (Forall (fun cs => (Z.of_nat (length cs) < 65536)%Z) css) as FCs. { apply Forall_forall. intros cs Hc. apply (In_nth _ _ []) in Hc. destruct Hc as (i & Hi & <-). rewrite CL in Hi. destruct (CF i Hi) as (_ & _ & _ & _ & ->). apply FC, Hi. }
  assert (Forall (Forall (chunk_fits c ac known f)) css) as FF. { apply Forall_forall. intros cs Hc. apply (In_nth _ _ []) in Hc. destruct Hc as (i & Hi & <-). rewrite CL in Hi. apply CF, Hi. }
  set (asg1 := asg rss). exists asg1, (S (2 * list_sum (map (@length array) css) + n)). split; [|split].
  - intros p r r'. apply (asg_functional e ns ts out css NT CL FEW FCs (fun i Hi => proj1 (proj2 (proj2 (CF i Hi)))) rss R2).
  - intros p b k Hp. apply (asg_in_file e ns ts out rest css NT FE CL FEW FCs (fun i Hi => proj1 (proj2 (proj2 (CF i Hi)))) rss R2 p b k Hp).
  - intros p idxs HS NI F HF.
    destruct (open_column_ok e f ns ts out rest ls css NT FE CL (fun i Hi => proj1 (proj2 (proj2 (CF i Hi)))) FF rss R1 R2 bs F p idxs HS NI CK) as (st & S1 & S2 & S3 & S4).
    { intros i Hi. destruct (CF i Hi) as (-> & -> & _). destruct (CF 0 M0) as (-> & -> & _). reflexivity. }
    { intros i Hi. destruct (CF 0 M0) as (-> & -> & _). pose proof (in_list_sum_le (@length array) css (nth i css []) ltac:(apply nth_In; lia)). lia. }
    exists st. split; [exact S2|]. rewrite O1, O3. split; [|split; [|split; [exact S1|]]].
    + assert (length (rows_of (nth 0 css [])) = n) as E0 by (destruct (CF 0 M0) as (-> & -> & _); reflexivity). rewrite E0 in S3. exact S3.
    + intros fp. unfold build. unfold e. cbn [e_fc e_file e_c]. rewrite O1. cbn [bind]. rewrite O2. cbn [bind]. rewrite (projected_ok _ _ _ _ _ NT HS). cbn [bind]. rewrite O3. cbn [bind]. rewrite S1. cbn [bind]. reflexivity.
    + rewrite S4. f_equal. apply map_ext_in. intros i Hi. apply selects_lt in HS. rewrite Forall_forall in HS. specialize (HS i Hi). cbv beta in HS. rewrite NT in HS. apply CF, HS.
Qed.

(** * Theorems *)

(** What is assumed of the file: at least one column and one batch; fewer than 65536 chunks per column (message ids are 16 bits); readable
    messages; [f] are the conditions on the arrays under which slicing never fails ([fn]) and chunks can be glued ([chunkable]). *)
Definition file_fits (c : codec) (fc : fcodec) (ac : acodec) (known : nat -> bool) (f : flags) (ns : list nat) (ts : list dtype) (bs : list array) : Prop :=
  0 < length ts /\ (Z.of_nat (length ts) <= 65536)%Z /\ bs <> [] /\ Forall (batch_fits c ac known f ns ts) bs /\ Forall (chunkable f) ts /\
  (forall j, j < length ts -> (Z.of_nat (chunk_count j bs) < 65536)%Z) /\ decodes c (MSchema (DStruct ns ts false)) /\ footer_codec fc.

(** C37 and C39: the scan of a written file returns the rows written, in order, restricted to the selected columns; every batch but the last
    has exactly [bs] rows. Any number of calls, any chunking, any batch size. *)
Theorem file_scan_returns_the_rows :
  forall c fc ac known f ns ts calls bs p idxs, fn f = true -> 0 < bs -> (Z.of_nat bs <= pmax U64)%Z ->
  file_fits c fc ac known f ns ts (concat calls) -> selects ns p idxs -> idxs <> [] ->
  exists file, write_file c fc ac (DStruct ns ts false) calls = Ok file /\
  (schema_near fc file ->
   let rows := map (proj_row idxs) (concat (map logical (concat calls))) in
   exists K, forall k fuel bfuel, K <= k -> K <= fuel -> K <= bfuel ->
   exists l, scan k fuel bfuel (Env c fc ac known file) bs p None = Ok l /\ concat (map logical l) = rows /\
     Forall (fun b => wf f b /\ adtype b = DStruct (map (fun i => nth i ns 0) idxs) (map (fun i => nth i ts DNull) idxs) false) l /\
     (forall i b, nth_error l i = Some b -> logical b = firstn bs (skipn (i * bs) rows) /\ logical b <> [])).
Proof.
  intros c fc ac known f ns ts calls bs p idxs Fn B0 BM (H1 & H2 & H3 & H4 & H5 & H6 & H7 & H8) HS NI.
  destruct (opened c fc ac known f ns ts calls bs H1 H2 H3 H4 H5 H6 H7 H8) as (file & E & OP). exists file. split; [exact E|]. intros SN rows. destruct (OP SN) as (asg & K & AF & AI & CO). cbv zeta in CO.
  set (e := Env c fc ac known file) in *. set (n := row_count (concat calls)) in *. set (ps := list_sum (map (fun i => chunk_count i (concat calls)) idxs)).
  exists (S (K + n + ps)). intros k fuel bfuel Hk Hf Hb. destruct (CO p idxs HS NI bfuel ltac:(lia)) as (st & S1 & S2 & S3 & _ & S5).
  unfold scan. specialize (S3 None). cbn [bind] in S3. rewrite S3. cbn [bind].
  destruct (collect_all e bs f B0 BM Fn asg AF AI bfuel (fun _ => Err) k fuel n _ st [] ltac:(lia) S2) as (l & L1 & L2 & L3 & L4).
  { intros q b r Hq. discriminate Hq. } { rewrite S5. fold ps. lia. }
  assert (length ns = length ts) as NT. { destruct (concat calls) as [|b r]; [congruence|]. inversion H4 as [|? ? B1 _]; subst. destruct (batch_shape _ _ _ _ _ _ _ B1) as (_ & _ & _ & Q & _). exact Q. }
  assert (Forall (fun i => i < length ts) idxs) as LT by (apply selects_lt in HS; rewrite NT in HS; exact HS).
  assert (zip_rows n (map snd (spec_of ts (columns (length ts) (concat calls)) idxs)) = rows) as ER.
  { unfold spec_of. rewrite map_map. cbn [snd]. unfold rows. change (concat (map logical (concat calls))) with (rows_of (concat calls)). rewrite <- (rows_projected c ac known f ns ts _ idxs H4 LT). fold n. f_equal. apply map_ext_in. intros i Hi. rewrite Forall_forall in LT. apply (columns_facts c ac known f ns ts _ i H4 (LT i Hi)). }
  rewrite ER in L2, L4. rewrite S1 in L3. unfold spec_of in L3. rewrite map_map in L3. cbn [fst] in L3. exists l. auto.
Qed.
Print Assumptions file_scan_returns_the_rows.
