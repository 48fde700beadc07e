(** Proofs about the file readers of Layout.v (C37, C38, C39). *)
From Verif Require Import Base Spec Arr ArrRead ArrWf ArrSlice ArrOps OpsBase PropIntEnc Ipc PropIpc PropSlice PropOps Layout.

(** Rows [0, n) of a set of columns. *)
Definition zip_rows (n : nat) (cols : list (list value)) : list value := tab n (fun i => VStruct (map (fun l => nth i l VNull) cols)).

(** Chunks of this data type can be glued by a chunked array (the conditions of [wf] on AChunked). *)
Definition chunkable (f : flags) (d : dtype) : Prop :=
  fT f = false /\ (fN f = true -> fk f = true \/ is_prim d = true) /\
  (fF f = true -> (fk f = true \/ is_prim d = true) /\ fN f = true) /\
  (fc f = true -> fv f = true \/ (nullable d = false /\ flat d = true)) /\
  (fC f = true -> match d with DExt _ _ => False | DStruct ns ts _ => length ns = length ts | _ => True end).

Section Readers.
  Variables (e : env) (bs : nat) (f : flags).
  Hypothesis bs_pos : 0 < bs.
  Hypothesis bs_max : (Z.of_nat bs <= pmax U64)%Z.
  Hypothesis Fn : fn f = true.
  (** Which bytes each message stands for. *)
  Variable asg : list message.
  Hypothesis asg_fun : forall p r r', In (p, r) asg -> In (p, r') asg -> r = r'.
  Hypothesis asg_file : forall p b n, In (p, (b, n)) asg -> b <= n <= length (e_file e).
  Definition extract (r : nat * nat) : list Z := firstn (snd r - fst r) (skipn (fst r) (e_file e)).
  Definition cache_ok (ch : cache) : Prop := forall p b r, cache_get ch p = Some b -> In (p, r) asg -> b = extract r.

  (** ** Flat *)
  Definition flat_ok (d : dtype) (st : flat_st) (rem : list value) : Prop :=
    In (fl_path st, fl_range st) asg /\ fl_dtype st = d /\
    ((fl_done st = true /\ rem = []) \/
     (fl_done st = false /\ exists a, wf f a /\ adtype a = d /\ logical a = rem /\
        match fl_arr st with Some a' => a' = a | None => array_from_bytes e d (extract (fl_range st)) = Ok a end)).
  Definition flat_mu (st : flat_st) (rem : list value) : nat := if fl_done st then 1 else 2 + length rem.

  Lemma split_slice a n : wf f a -> 0 < n -> n < alen a ->
    exists x y, slice a 0 n = Ok x /\ slice a n (alen a) = Ok y /\ wf f x /\ wf f y /\ adtype x = adtype a /\ adtype y = adtype a /\
      logical x = firstn n (logical a) /\ logical y = skipn n (logical a).
  Proof.
    intros W H1 H2. pose proof (logical_length a) as L.
    destruct (slice_commutes_with_decoding f a 0 n W ltac:(lia) ltac:(lia) ltac:(right; split; [exact Fn|lia])) as (x & E1 & W1 & D1 & _ & L1).
    destruct (slice_commutes_with_decoding f a n (alen a) W ltac:(lia) ltac:(lia) ltac:(right; split; [exact Fn|lia])) as (y & E2 & W2 & D2 & _ & L2).
    exists x, y. do 6 (split; [assumption|]). split.
    - rewrite L1. unfold spec_slice. rewrite Nat.sub_0_r. reflexivity.
    - rewrite L2. unfold spec_slice. apply firstn_all2. rewrite skipn_length. lia.
  Qed.

  Lemma flat_emit_ok d st a : In (fl_path st, fl_range st) asg -> fl_dtype st = d -> wf f a -> adtype a = d ->
    exists a' st' rem', flat_emit bs st a = Ok (Some (Batch a'), st') /\ logical a = logical a' ++ rem' /\ wf f a' /\ adtype a' = d /\
      flat_ok d st' rem' /\ fl_path st' = fl_path st /\ flat_mu st' rem' < 2 + length (logical a).
  Proof.
    intros I D W A. unfold flat_emit. destruct (Nat.ltb_spec bs (alen a)) as [H|H].
    - rewrite Nat.min_l by lia. destruct (split_slice a bs W bs_pos H) as (x & y & -> & -> & W1 & W2 & D1 & D2 & L1 & L2). cbn [bind].
      exists x, (FS (fl_path st) (fl_range st) (fl_dtype st) false (Some y)), (logical y). split; [reflexivity|]. split; [rewrite L1, L2; symmetry; apply firstn_skipn|]. split; [exact W1|].
      split; [congruence|]. split; [|split; [reflexivity|]].
      + split; [exact I|]. split; [exact D|]. right. split; [reflexivity|]. exists y. cbn. repeat split; auto; congruence.
      + unfold flat_mu. cbn [fl_done]. rewrite L2, skipn_length. pose proof (logical_length a). lia.
    - exists a, (FS (fl_path st) (fl_range st) (fl_dtype st) true None), []. split; [reflexivity|]. split; [rewrite app_nil_r; reflexivity|]. split; [exact W|]. split; [exact A|].
      split; [|split; [reflexivity|]]. { split; [exact I|]. split; [exact D|]. left. split; reflexivity. } unfold flat_mu. cbn. lia.
  Qed.

  Lemma flat_read_ok d ch st rem : flat_ok d st rem -> cache_ok ch ->
    (flat_read e bs ch st = Ok (None, st) /\ rem = [] /\ fl_done st = true) \/
    (flat_read e bs ch st = Ok (Some (ReadMore [(fl_path st, fl_range st)]), st) /\ cache_get ch (fl_path st) = None) \/
    (exists a st' rem', flat_read e bs ch st = Ok (Some (Batch a), st') /\ rem = logical a ++ rem' /\ wf f a /\ adtype a = d /\
      flat_ok d st' rem' /\ fl_path st' = fl_path st /\ flat_mu st' rem' < flat_mu st rem).
  Proof.
    intros (I & D & H) C. unfold flat_read. destruct H as [[H1 H2]|[H1 (a & W & A & L & H2)]]; rewrite H1.
    - left. auto.
    - right. assert (flat_mu st rem = 2 + length (logical a)) as MU by (unfold flat_mu; rewrite H1, L; reflexivity). rewrite MU. rewrite <- L. destruct (fl_arr st) as [a'|] eqn:EA.
      + subst a'. right. apply flat_emit_ok; auto.
      + destruct (cache_get ch (fl_path st)) as [b|] eqn:EB; [right|left; auto]. rewrite (C _ _ _ EB I), D, H2. cbn [bind]. apply flat_emit_ok; auto.
  Qed.

  (** ** Chunked *)
  Definition arr_ok (d : dtype) (a : array) : Prop := wf f a /\ adtype a = d.
  Definition rows_of (l : list array) : list value := concat (map logical l).
  Definition chunk_ok (d : dtype) (st : chunk_st) (rem : list value) : Prop :=
    exists rems, Forall2 (flat_ok d) (ck_layouts st) rems /\ Forall (arr_ok d) (ck_arrays st) /\ rem = rows_of (ck_arrays st) ++ concat rems.
  Definition paths (st : chunk_st) : list (list nat) := map fl_path (ck_layouts st).
  Definition missing (ch : cache) (ps : list (list nat)) : nat := count (fun p => match cache_get ch p with None => true | Some _ => false end) ps.
  (** [st'] has no more layouts than [st]. *)
  Definition within (st' st : chunk_st) : Prop := exists k, paths st' = skipn k (paths st).

  Lemma row_count_rows l : row_count l = length (rows_of l).
  Proof. unfold row_count, rows_of. induction l as [|a r IH]; [reflexivity|]. cbn [map concat]. change (list_sum (alen a :: map alen r)) with (alen a + list_sum (map alen r)). rewrite app_length, logical_length, IH. reflexivity. Qed.
  Lemma within_refl st : within st st.
  Proof. exists 0. reflexivity. Qed.
  Lemma within_trans a b c : within a b -> within b c -> within a c.
  Proof. intros [k H] [j G]. exists (j + k). rewrite H, G. apply skipn_plus. Qed.

  Definition mus (ls : list flat_st) (rems : list (list value)) : nat := list_sum (map (fun x => flat_mu (fst x) (snd x)) (combine ls rems)).
  Lemma mus_cons l ls r rs : mus (l :: ls) (r :: rs) = flat_mu l r + mus ls rs.
  Proof. reflexivity. Qed.

  Lemma buffer_ok d : forall fuel ch ls arrays rems, Forall2 (flat_ok d) ls rems -> Forall (arr_ok d) arrays -> cache_ok ch -> mus ls rems < fuel ->
    exists x st', buffer_rows fuel e bs ch (CS ls arrays) = Ok (x, st') /\ chunk_ok d st' (rows_of arrays ++ concat rems) /\ within st' (CS ls arrays) /\
      match x with
      | Some m => exists l r, ck_layouts st' = l :: r /\ m = [(fl_path l, fl_range l)] /\ cache_get ch (fl_path l) = None
      | None => bs <= row_count (ck_arrays st') \/ ck_layouts st' = []
      end.
  Proof.
    induction fuel as [|fuel IH]; intros ch ls arrays rems HL HA HC HM; [lia|]. cbn [buffer_rows ck_arrays ck_layouts].
    destruct (Nat.leb_spec bs (row_count arrays)) as [Hb|Hb].
    { exists None, (CS ls arrays). split; [reflexivity|]. split; [exists rems; auto|]. split; [apply within_refl|]. left. exact Hb. }
    destruct HL as [|l rem ls rems Hl HL].
    { exists None, (CS [] arrays). split; [reflexivity|]. split; [exists []; split; [constructor|split; [exact HA|reflexivity]]|]. split; [apply within_refl|]. right. reflexivity. }
    rewrite mus_cons in HM.
    destruct (flat_read_ok d ch l rem Hl HC) as [(-> & -> & Hd)|[[-> Hn]|(a & l' & rem' & -> & -> & Wa & Da & Hl' & Pl & MU)]]; cbn [bind].
    - destruct (IH ch ls arrays rems HL HA HC) as (x & st' & E & K & Wi & X). { unfold flat_mu in HM. rewrite Hd in HM. lia. }
      exists x, st'. split; [exact E|]. split; [exact K|]. split; [|exact X]. apply (within_trans _ _ _ Wi). exists 1. reflexivity.
    - exists (Some [(fl_path l, fl_range l)]), (CS (l :: ls) arrays). split; [reflexivity|]. split; [exists (rem :: rems); split; [constructor; assumption|split; [exact HA|reflexivity]]|]. split; [apply within_refl|]. exists l, ls. auto.
    - destruct (IH ch (l' :: ls) (arrays ++ [a]) (rem' :: rems)) as (x & st' & E & K & Wi & X); auto.
      { apply Forall_app. split; [exact HA|]. constructor; [split; assumption|constructor]. } { rewrite mus_cons. lia. }
      exists x, st'. split; [exact E|]. split; [|split; [|exact X]].
      + unfold rows_of in *. rewrite map_app, concat_app in K. cbn [map concat] in *. rewrite app_nil_r, <- !app_assoc in K. rewrite <- app_assoc. exact K.
      + apply (within_trans _ _ _ Wi). exists 0. unfold paths. cbn. rewrite Pl. reflexivity.
  Qed.

  Lemma take_front_ok d : forall arrays n, Forall (arr_ok d) arrays -> n <= row_count arrays ->
    exists x rest, take_front arrays n = Ok (x, rest) /\ Forall (arr_ok d) x /\ Forall (arr_ok d) rest /\ rows_of x = firstn n (rows_of arrays) /\ rows_of rest = skipn n (rows_of arrays) /\
      (x = [] <-> n = 0).
  Proof.
    induction arrays as [|a r IH]; intros n HA HN.
    - cbn in HN. assert (n = 0) as -> by lia. exists [], []. cbn. repeat split; auto.
    - destruct n as [|n]; [exists [], (a :: r); cbn [take_front Nat.eqb]; repeat split; auto|]. cbn [take_front Nat.eqb]. inversion HA as [|? ? [Wa Da] Hr]; subst.
      change (row_count (a :: r)) with (alen a + row_count r) in HN. pose proof (logical_length a) as La. unfold rows_of in *. cbn [map concat].
      destruct (Nat.ltb_spec (S n) (alen a)) as [H|H].
      + destruct (split_slice a (S n) Wa ltac:(lia) H) as (x & y & -> & -> & W1 & W2 & D1 & D2 & L1 & L2). cbn [bind]. exists [x], (y :: r). split; [reflexivity|].
        split; [repeat constructor; assumption|]. split; [constructor; [split; [assumption|congruence]|exact Hr]|]. cbn [map concat]. rewrite app_nil_r, L1, L2.
        rewrite firstn_app, skipn_app. replace (S n - length (logical a)) with 0 by lia. cbn [firstn skipn]. rewrite app_nil_r. repeat split; try discriminate.
      + destruct (IH (S n - alen a) Hr ltac:(lia)) as (x & rest & -> & X1 & X2 & X3 & X4 & X5). cbn [bind]. exists (a :: x), rest. split; [reflexivity|]. split; [constructor; [split; auto|exact X1]|]. split; [exact X2|].
        cbn [map concat]. rewrite X3, X4, firstn_app, skipn_app, (firstn_all2 (logical a)), (skipn_all2 (logical a)) by lia. rewrite La. repeat split; discriminate.
  Qed.

  Lemma chunk_read_ok d ch st rem fuel : chunkable f d -> chunk_ok d st rem -> cache_ok ch -> (forall rems, Forall2 (flat_ok d) (ck_layouts st) rems -> length (concat rems) <= length rem -> mus (ck_layouts st) rems < fuel) ->
    exists x st', chunk_read fuel e bs ch st = Ok (x, st') /\ within st' st /\
      match x with
      | None => rem = []
      | Some (ReadMore m) => chunk_ok d st' rem /\ exists p r, m = [(p, r)] /\ In (p, r) asg /\ In p (paths st') /\ cache_get ch p = None
      | Some (Batch a) => rem <> [] /\ wf f a /\ adtype a = d /\ logical a = firstn bs rem /\ chunk_ok d st' (skipn bs rem)
      end.
  Proof.
    intros CK (rems & HL & HA & ->) HC HF. specialize (HF rems HL ltac:(rewrite app_length; lia)).
    assert (ck_layouts st = [] /\ ck_arrays st = [] \/ chunk_read fuel e bs ch st =
      (do (m, st) <- buffer_rows fuel e bs ch st;
      match m with
      | Some m => Ok (Some (ReadMore m), st)
      | None =>
          let n := match ck_layouts st with [] => Nat.min bs (row_count (ck_arrays st)) | _ => bs end in
          do (res, rest) <- take_front (ck_arrays st) n;
          let st := CS (ck_layouts st) rest in
          match res with
          | [] => Ok (None, st)
          | [a] => Ok (Some (Batch a), st)
          | a :: _ => do x <- try_chunked res (adtype a); Ok (Some (Batch x), st)
          end
      end)) as [[E1 E2]|E] by (unfold chunk_read; destruct (ck_layouts st), (ck_arrays st); auto).
    { unfold chunk_read. rewrite E1, E2 in *. inversion HL; subst. exists None, st. split; [reflexivity|]. split; [apply within_refl|]. reflexivity. }
    rewrite E. clear E. destruct st as [ls arrays]. cbn [ck_layouts ck_arrays] in *.
    destruct (buffer_ok d fuel ch ls arrays rems HL HA HC HF) as (x & st1 & -> & K & Wi & X). cbn [bind]. destruct x as [m|].
    { destruct X as (l & r & X1 & X2 & X3). exists (Some (ReadMore m)), st1. split; [reflexivity|]. split; [exact Wi|]. split; [exact K|]. exists (fl_path l), (fl_range l). split; [exact X2|].
      destruct K as (rs & K1 & _). rewrite X1 in K1. inversion K1 as [|? ? ? ? KA KB]; subst. split; [apply KA|]. split; [unfold paths; rewrite X1; left; reflexivity|exact X3]. }
    destruct K as (rs & K1 & K2 & K3). rewrite K3. clear rems HL HF K3. set (n := match ck_layouts st1 with [] => Nat.min bs (row_count (ck_arrays st1)) | _ => bs end).
    assert (n <= row_count (ck_arrays st1) /\ firstn n (rows_of (ck_arrays st1)) = firstn bs (rows_of (ck_arrays st1) ++ concat rs) /\
      skipn n (rows_of (ck_arrays st1)) ++ concat rs = skipn bs (rows_of (ck_arrays st1) ++ concat rs) /\ (n = 0 -> rows_of (ck_arrays st1) ++ concat rs = []) /\ n <= bs) as (N1 & N2 & N3 & N4 & N5).
    { unfold n. rewrite (row_count_rows (ck_arrays st1)) in *. destruct (ck_layouts st1) as [|l r].
      - inversion K1; subst. cbn [concat]. rewrite !app_nil_r. destruct (Nat.le_gt_cases bs (length (rows_of (ck_arrays st1)))).
        + rewrite Nat.min_l by lia. repeat split; auto; lia.
        + rewrite Nat.min_r by lia. rewrite !firstn_all2, !skipn_all2 by lia. repeat split; auto; try lia. intros Z. apply length_zero_iff_nil. exact Z.
      - destruct X as [X|X]; [|discriminate X]. split; [exact X|]. rewrite firstn_app, skipn_app. replace (bs - length (rows_of (ck_arrays st1))) with 0 by lia.
        cbn [firstn skipn]. rewrite app_nil_r. repeat split; auto; lia. }
    destruct (take_front_ok d (ck_arrays st1) n K2 N1) as (x & rest & E & Y1 & Y2 & Y3 & Y4 & Y5). cbv zeta. rewrite E. cbn [bind].
    assert (chunk_ok d (CS (ck_layouts st1) rest) (skipn bs (rows_of (ck_arrays st1) ++ concat rs))) as KN.
    { exists rs. cbn [ck_layouts ck_arrays]. split; [exact K1|]. split; [exact Y2|]. rewrite Y4. symmetry. exact N3. }
    destruct x as [|a [|b x]].
    - exists None, (CS (ck_layouts st1) rest). split; [reflexivity|]. split; [exact Wi|]. apply N4, Y5. reflexivity.
    - exists (Some (Batch a)), (CS (ck_layouts st1) rest). split; [reflexivity|]. split; [exact Wi|]. inversion Y1 as [|? ? [A1 A2] _]; subst. split.
      { intros Z. rewrite Z, firstn_nil in N2. rewrite N2 in Y3. assert (n <> 0) as NZ by (intros Z'; apply Y5 in Z'; discriminate). apply app_eq_nil in Z. rewrite row_count_rows in N1. destruct Z as [Z _]. rewrite Z in N1. cbn in N1. lia. }
      split; [exact A1|]. split; [reflexivity|]. split; [|exact KN]. rewrite <- N2, <- Y3. unfold rows_of. cbn. rewrite app_nil_r. reflexivity.
    - inversion Y1 as [|? ? [A1 A2] Y1']; subst. unfold try_chunked.
      rewrite (proj2 (forallb_forall _ _)). 2:{ intros z Hz. rewrite Forall_forall in Y1. destruct (Y1 z Hz) as [_ ->]. apply dtype_eqb_refl. }
      cbn [bind]. exists (Some (Batch (AChunked (adtype a) (a :: b :: x)))), (CS (ck_layouts st1) rest). split; [reflexivity|]. split; [exact Wi|]. split.
      { intros Z. assert (n <> 0) as NZ by (intros Z'; apply Y5 in Z'; discriminate). apply app_eq_nil in Z. rewrite row_count_rows in N1. destruct Z as [Z _]. rewrite Z in N1. cbn in N1. lia. }
      split; [|split; [reflexivity|split; [|exact KN]]].
      + destruct CK as (C1 & C2 & C3 & C4 & C5). assert (a :: b :: x <> []) as NE by discriminate. set (xs := a :: b :: x) in *. clearbody xs. cbn [wf]. split; [apply wf_chunks_iff; exact Y1|]. split; [intros _; exact NE|]. split; [exact C1|]. split; [exact C2|]. split; [exact C3|]. split; [exact C4|]. split; [|exact C5].
        intros _. assert (length (rows_of xs) <= bs). { rewrite Y3, firstn_length. lia. } rewrite <- row_count_rows in H. unfold row_count in H. eapply Z.le_trans; [|exact bs_max]. apply inj_le. exact H.
      + cbn [logical]. rewrite <- N2, <- Y3. reflexivity.
  Qed.
  Lemma mus_bound d ls rems : Forall2 (flat_ok d) ls rems -> mus ls rems <= 2 * length ls + length (concat rems).
  Proof. induction 1 as [|l r ls rs H _ IH]; [cbn; lia|]. rewrite mus_cons. cbn [length concat]. rewrite app_length. unfold flat_mu. destruct (fl_done l); lia. Qed.

  (** ** Columns *)
  Definition col_rel (d : dtype) (rem : list value) (c : chunk_st) (o : option array) : Prop :=
    match o with
    | None => chunk_ok d c rem
    | Some a => rem <> [] /\ wf f a /\ adtype a = d /\ logical a = firstn bs rem /\ chunk_ok d c (skipn bs rem)
    end.
  Inductive cols_rel : list chunk_st -> list (option array) -> list (dtype * list value) -> Prop :=
  | cr_nil : cols_rel [] [] []
  | cr_cons c cs o l d rem spec : col_rel d rem c o -> cols_rel cs l spec -> cols_rel (c :: cs) (o :: l) ((d, rem) :: spec).
  Definition spec_ok (n : nat) (spec : list (dtype * list value)) : Prop := Forall (fun dr => length (snd dr) = n /\ chunkable f (fst dr)) spec.
  Variable F : nat.
  Definition fuel_ok (n : nat) (cs : list chunk_st) : Prop := Forall (fun c => 2 * length (ck_layouts c) + n < F) cs.
  Definition all_paths (cs : list chunk_st) : list (list nat) := flat_map paths cs.
  Definition col_ok (n : nat) (spec : list (dtype * list value)) (st : col_st) : Prop :=
    spec <> [] /\ length (co_names st) = length spec /\ cols_rel (co_children st) (co_arrays st) spec /\ spec_ok n spec /\ fuel_ok n (co_children st).

  Lemma within_len st' st : within st' st -> length (ck_layouts st') <= length (ck_layouts st).
  Proof. intros [k H]. apply (f_equal (@length _)) in H. unfold paths in H. rewrite skipn_length, !map_length in H. lia. Qed.

  Lemma chunk_read_ok' d ch st rem : chunkable f d -> chunk_ok d st rem -> cache_ok ch -> 2 * length (ck_layouts st) + length rem < F ->
    exists x st', chunk_read F e bs ch st = Ok (x, st') /\ within st' st /\
      match x with
      | None => rem = []
      | Some (ReadMore m) => chunk_ok d st' rem /\ exists p r, m = [(p, r)] /\ In (p, r) asg /\ In p (paths st') /\ cache_get ch p = None
      | Some (Batch a) => rem <> [] /\ wf f a /\ adtype a = d /\ logical a = firstn bs rem /\ chunk_ok d st' (skipn bs rem)
      end.
  Proof. intros H1 H2 H3 H4. apply chunk_read_ok; auto. intros rems G1 G2. pose proof (mus_bound d _ _ G1). lia. Qed.

  Lemma fill_ok n ch : cache_ok ch -> forall cs l spec, cols_rel cs l spec -> spec_ok n spec -> fuel_ok n cs ->
    exists stop m cs' l', fill_cols F e bs ch cs l = Ok (stop, m, cs', l') /\
      (stop = true -> n = 0) /\
      (stop = false -> cols_rel cs' l' spec /\ Forall (fun x => In x asg) m /\ (m = [] -> Forall (fun o => o <> None) l') /\
        (m <> [] -> exists p, In p (all_paths cs') /\ cache_get ch p = None /\ In p (map fst m)) /\ Forall2 within cs' cs).
  Proof.
    intros HC. induction 1 as [|c cs o l d rem spec Hc Hr IH]; intros HS HF.
    - exists false, [], [], []. split; [reflexivity|]. split; [discriminate|]. intros _. split; [constructor|]. split; [constructor|]. split; [constructor|]. split; [congruence|constructor].
    - inversion HS as [|? ? [S1 S2] HS']; subst. inversion HF as [|? ? F1 HF']; subst. cbn [snd fst] in *. destruct (IH HS' HF') as (stop & m & cs' & l' & E & X1 & X2). destruct o as [a|].
      + cbn [fill_cols]. rewrite E. cbn [bind]. exists stop, m, (c :: cs'), (Some a :: l'). split; [reflexivity|]. split; [exact X1|]. intros Hs. destruct (X2 Hs) as (Y1 & Y2 & Y3 & Y4 & Y5).
        split; [constructor; assumption|]. split; [exact Y2|]. split; [intros Z; constructor; [discriminate|auto]|]. split; [|constructor; [apply within_refl|exact Y5]].
        intros Z. destruct (Y4 Z) as (p & P1 & P2 & P3). exists p. split; [apply in_or_app; right; exact P1|auto].
      + cbn [fill_cols]. cbn [col_rel] in Hc. destruct (chunk_read_ok' d ch c rem S2 Hc HC F1) as (x & c' & EC & Wi & X). rewrite EC. cbn [bind]. destruct x as [[m0|a]|].
        * rewrite E. cbn [bind]. exists stop, (m0 ++ m), (c' :: cs'), (None :: l'). split; [reflexivity|]. split; [exact X1|]. intros Hs. destruct (X2 Hs) as (Y1 & Y2 & Y3 & Y4 & Y5).
          destruct X as (K & p & r & -> & P1 & P2 & P3). split; [constructor; assumption|]. split; [constructor; assumption|]. split; [discriminate|]. split; [|constructor; assumption].
          intros _. exists p. split; [apply in_or_app; left; exact P2|]. split; [exact P3|]. left. reflexivity.
        * rewrite E. cbn [bind]. exists stop, m, (c' :: cs'), (Some a :: l'). split; [reflexivity|]. split; [exact X1|]. intros Hs. destruct (X2 Hs) as (Y1 & Y2 & Y3 & Y4 & Y5).
          split; [constructor; assumption|]. split; [exact Y2|]. split; [intros Z; constructor; [discriminate|auto]|]. split; [|constructor; assumption].
          intros Z. destruct (Y4 Z) as (p & P1 & P2 & P3). exists p. split; [apply in_or_app; right; exact P1|auto].
        * exists true, [], (c' :: cs), (None :: l). split; [reflexivity|]. split; [intros _; subst rem; reflexivity|discriminate].
  Qed.

  Lemma zip_firstn n cols : Forall (fun l => length l = n) cols -> firstn bs (zip_rows n cols) = zip_rows (Nat.min bs n) (map (firstn bs) cols).
  Proof.
    intros H. apply nth_ext with (d := VNull) (d' := VNull); [unfold zip_rows; rewrite firstn_length, !tab_length; reflexivity|]. intros i Hi.
    rewrite firstn_length in Hi. unfold zip_rows in *. rewrite tab_length in Hi. rewrite nth_firstn by lia. rewrite !nth_tab by lia. f_equal. rewrite map_map. apply map_ext. intros l. symmetry. apply nth_firstn. lia.
  Qed.
  Lemma zip_skipn n cols : skipn bs (zip_rows n cols) = zip_rows (n - bs) (map (skipn bs) cols).
  Proof.
    apply nth_ext with (d := VNull) (d' := VNull); [unfold zip_rows; rewrite skipn_length, !tab_length; reflexivity|]. intros i Hi.
    rewrite skipn_length in Hi. unfold zip_rows in *. rewrite tab_length in Hi. rewrite nth_skipn, !nth_tab by lia. f_equal. rewrite map_map. apply map_ext. intros l. symmetry. apply nth_skipn.
  Qed.

  Lemma cols_some cs l spec : cols_rel cs l spec -> Forall (fun o => o <> None) l ->
    exists fls, mapM (fun o => match o with Some a => Ok a | None => Err end) l = Ok fls /\ length fls = length spec /\ map adtype fls = map fst spec /\ Forall (wf f) fls /\
      map logical fls = map (fun dr => firstn bs (snd dr)) spec /\ cols_rel cs (repeat None (length cs)) (map (fun dr => (fst dr, skipn bs (snd dr))) spec) /\
      Forall (fun dr => snd dr <> []) spec.
  Proof.
    induction 1 as [|c cs o l d rem spec Hc Hr IH]; intros HN.
    - exists []. repeat split; constructor.
    - inversion HN as [|? ? N1 N2]; subst. destruct o as [a|]; [|congruence]. destruct (IH N2) as (fls & E & L & D & W & Lo & CR & NE). cbn [col_rel] in Hc. destruct Hc as (R1 & R2 & R3 & R4 & R5).
      exists (a :: fls). cbn [mapM]. rewrite E. cbn [bind]. split; [reflexivity|]. split; [cbn; congruence|]. split; [cbn; congruence|]. split; [constructor; assumption|]. split; [cbn; congruence|]. split.
      + cbn [length repeat map fst snd]. constructor; [exact R5|exact CR].
      + constructor; [exact R1|exact NE].
  Qed.

  Lemma fuel_within n n' cs' cs : Forall2 within cs' cs -> n' <= n -> fuel_ok n cs -> fuel_ok n' cs'.
  Proof.
    intros H L. induction H as [|c' c cs' cs H _ IH]; intros G; [constructor|]. inversion G as [|? ? G1 G2]; subst. constructor; [|apply IH; exact G2]. apply within_len in H. lia.
  Qed.

  Lemma col_read_ok n spec ch st : col_ok n spec st -> cache_ok ch ->
    exists x st', col_read F e bs ch st = Ok (x, st') /\ co_names st' = co_names st /\
      match x with
      | None => n = 0
      | Some (ReadMore m) => col_ok n spec st' /\ Forall (fun x => In x asg) m /\ Forall2 within (co_children st') (co_children st) /\
          exists p, In p (all_paths (co_children st')) /\ cache_get ch p = None /\ In p (map fst m)
      | Some (Batch a) => 0 < n /\ wf f a /\ adtype a = DStruct (co_names st) (map fst spec) false /\ logical a = firstn bs (zip_rows n (map snd spec)) /\
          Forall2 within (co_children st') (co_children st) /\ col_ok (n - bs) (map (fun dr => (fst dr, skipn bs (snd dr))) spec) st'
      end.
  Proof.
    intros (NE & LN & CR & HS & HF) HC. unfold col_read. destruct (fill_ok n ch HC _ _ _ CR HS HF) as (stop & m & cs' & l' & -> & X1 & X2). cbn [bind]. destruct stop.
    { exists None, (CO (co_names st) cs' l'). split; [reflexivity|]. split; [reflexivity|]. auto. }
    destruct (X2 eq_refl) as (Y1 & Y2 & Y3 & Y4 & Y5). destruct m as [|m0 m].
    - destruct (cols_some _ _ _ Y1 (Y3 eq_refl)) as (fls & -> & L & D & W & Lo & CR' & NEs). cbn [bind]. unfold from_fields.
      destruct fls as [|a fls]; [destruct spec; [congruence|discriminate L]|]. destruct spec as [|[d rem] spec]; [congruence|]. inversion HS as [|? ? [S1 S2] HS']; subst. inversion NEs as [|? ? NE1 _]; subst. cbn [fst snd] in *.
      set (n := length rem) in *. assert (0 < n) as NP by (unfold n; destruct rem; [congruence|cbn; lia]).
      assert (Forall (fun x => alen x = Nat.min bs n) (a :: fls)) as HA.
      { rewrite Forall_forall. intros x Hx. apply (in_map logical) in Hx. rewrite Lo in Hx. apply in_map_iff in Hx. destruct Hx as (dr & E1 & E2). rewrite <- logical_length, <- E1, firstn_length.
        rewrite (proj1 (proj1 (Forall_forall _ _) HS dr E2)). reflexivity. }
      assert (alen a = Nat.min bs n) as HA0 by (inversion HA; assumption).
      unfold try_struct. rewrite LN, L, Nat.eqb_refl. cbn [negb]. rewrite (proj2 (forallb_forall _ _)). 2:{ intros x Hx. rewrite Forall_forall in HA. rewrite (HA x Hx), HA0. apply Nat.eqb_refl. }
      cbn [negb vfits bind]. exists (Some (Batch (AStruct (co_names st) (a :: fls) (alen a) VNonNull))), (CO (co_names st) cs' (repeat None (length cs'))). split; [reflexivity|]. split; [reflexivity|].
      split; [exact NP|]. split; [|split; [|split; [|split; [exact Y5|]]]].
      + set (xs := a :: fls) in *. clearbody xs. apply wf_struct_iff. split; [congruence|]. split; [exact I|]. rewrite Forall_forall in *. intros x Hx. split; [apply W; exact Hx|]. rewrite HA0. apply HA. exact Hx.
      + set (xs := a :: fls) in *. clearbody xs. cbn [adtype vnullable]. rewrite D. reflexivity.
      + set (xs := a :: fls) in *. clearbody xs. cbn [logical]. rewrite Lo, HA0. change (map snd ((d, rem) :: spec)) with (map snd ((d, rem) :: spec)).
        rewrite zip_firstn. 2:{ apply Forall_forall. intros x Hx. apply in_map_iff in Hx. destruct Hx as (dr & <- & Hx). exact (proj1 (proj1 (Forall_forall _ _) HS dr Hx)). }
        unfold zip_rows. apply tab_ext. intros i _. cbn [vvalid]. rewrite !map_map. reflexivity.
      + split; [discriminate|]. split; [rewrite map_length; exact LN|]. cbn [co_children co_arrays]. split; [exact CR'|]. split; [|apply (fuel_within n (n - bs) cs' (co_children st)); auto; lia].
        apply Forall_forall. intros x Hx. apply in_map_iff in Hx. destruct Hx as (dr & <- & Hx). cbn [fst snd]. rewrite skipn_length. destruct (proj1 (Forall_forall _ _) HS dr Hx) as [-> Q]. auto.
    - exists (Some (ReadMore (m0 :: m))), (CO (co_names st) cs' l'). split; [reflexivity|]. split; [reflexivity|]. split; [|split; [exact Y2|split; [exact Y5|apply Y4; discriminate]]].
      split; [exact NE|]. split; [exact LN|]. split; [exact Y1|]. split; [exact HS|]. apply (fuel_within n n cs' (co_children st)); auto.
  Qed.

  (** ** The cache *)
  Lemma cache_get_app l ch p : cache_get (l ++ ch) p = match cache_get l p with Some b => Some b | None => cache_get ch p end.
  Proof. induction l as [|[q b] l IH]; [reflexivity|]. cbn [app cache_get]. destruct (natlist_eqb q p); [reflexivity|exact IH]. Qed.
  Lemma cache_get_in l p b : cache_get l p = Some b -> In (p, b) l.
  Proof.
    induction l as [|[q c] l IH]; cbn [cache_get]; [discriminate|]. destruct (natlist_eqb q p) eqn:E; [|intros H; right; auto]. apply natlist_eqb_eq in E. intros H. left. congruence.
  Qed.
  Lemma cache_get_some l p : In p (map fst l) -> cache_get l p <> None.
  Proof.
    induction l as [|[q c] l IH]; [intros []|]. cbn [map fst In cache_get]. intros H. destruct (natlist_eqb q p) eqn:E; [discriminate|]. destruct H as [->|H]; [|auto].
    exfalso. assert (natlist_eqb p p = true) by (apply natlist_eqb_eq; reflexivity). congruence.
  Qed.
  Definition grows (ch ch' : cache) : Prop := forall p, cache_get ch p <> None -> cache_get ch' p <> None.
  Lemma read_ranges_ok m : Forall (fun x => In x asg) m -> read_ranges e m = Ok (map (fun x => (fst x, extract (snd x))) m).
  Proof.
    induction 1 as [|[p [b n]] m H _ IH]; [reflexivity|]. unfold read_ranges in *. cbn [mapM fst snd]. unfold read_at at 1. pose proof (asg_file _ _ _ H). rewrite (proj2 (Nat.ltb_ge _ _)) by lia. cbn [bind]. rewrite IH. reflexivity.
  Qed.
  Lemma store_ok ch m : cache_ok ch -> Forall (fun x => In x asg) m ->
    let ch' := cache_set ch (map (fun x => (fst x, extract (snd x))) m) in
    cache_ok ch' /\ grows ch ch' /\ forall p, In p (map fst m) -> cache_get ch' p <> None.
  Proof.
    intros HC HM ch'. unfold ch', cache_set. split; [|split].
    - intros p b r. rewrite cache_get_app. destruct (cache_get (rev _) p) as [b'|] eqn:E; [|apply HC]. intros H I. assert (b' = b) as -> by congruence.
      apply cache_get_in, in_rev in E. apply in_map_iff in E. destruct E as ([q r'] & E1 & E2). cbn [fst snd] in E1. rewrite Forall_forall in HM. pose proof (HM _ E2) as HI. assert (q = p) as -> by congruence.
      rewrite (asg_fun _ _ _ I HI). congruence.
    - intros p H. rewrite cache_get_app. destruct (cache_get (rev _) p); [discriminate|exact H].
    - intros p H. rewrite cache_get_app. destruct (cache_get (rev _) p) eqn:E; [discriminate|]. exfalso. apply (cache_get_some (rev (map (fun x => (fst x, extract (snd x))) m)) p); [|exact E].
      rewrite map_rev. apply in_rev. rewrite rev_involutive, map_map. exact H.
  Qed.
  Lemma missing_grows ch ch' ps : grows ch ch' -> missing ch' ps <= missing ch ps.
  Proof.
    intros G. induction ps as [|p ps IH]; [apply le_n|]. unfold missing, count in *. cbn [filter]. specialize (G p). destruct (cache_get ch p), (cache_get ch' p); cbn [length]; try lia. exfalso. apply G; [discriminate|reflexivity].
  Qed.
  Lemma missing_app ch a b : missing ch (a ++ b) = missing ch a + missing ch b.
  Proof. unfold missing, count. rewrite filter_app, app_length. reflexivity. Qed.
  Lemma missing_within ch cs' cs : Forall2 within cs' cs -> missing ch (all_paths cs') <= missing ch (all_paths cs).
  Proof.
    induction 1 as [|c' c cs' cs [k H] _ IH]; [apply le_n|]. unfold all_paths in *. cbn [flat_map]. rewrite !missing_app, H. rewrite <- (firstn_skipn k (paths c)) at 2. rewrite missing_app. lia.
  Qed.
  Lemma missing_strict ch ch' ps p : grows ch ch' -> In p ps -> cache_get ch p = None -> cache_get ch' p <> None -> missing ch' ps < missing ch ps.
  Proof.
    intros G I H1 H2. apply in_split in I. destruct I as (a & b & ->). rewrite !missing_app. pose proof (missing_grows ch ch' a G). pose proof (missing_grows ch ch' b G).
    unfold missing, count in *. cbn [filter]. rewrite H1. destruct (cache_get ch' p); [|congruence]. cbn [length]. lia.
  Qed.
  Lemma within_all_trans a b c : Forall2 within a b -> Forall2 within b c -> Forall2 within a c.
  Proof. intros H. revert c. induction H as [|x y a b H _ IH]; intros c G; inversion G; subst; constructor; [eapply within_trans; eassumption|auto]. Qed.
  Lemma within_all_refl a : Forall2 within a a.
  Proof. induction a; constructor; [apply within_refl|assumption]. Qed.

  (** ** Polling *)
  Variable ev : array -> result (list bool).
  Definition data_step (k : nat) (a : array) (d : col_st) (flt : option col_st) (ch : cache) (mask : option (list bool)) : result (option array * scan_st) :=
    match mask with
    | Some m =>
        if count id m =? 0 then poll k F e bs ev (SS d flt ch None true)
        else do b <- filter_array a (mask_of m); Ok (Some b, SS d flt ch None (match flt with Some _ => false | None => true end))
    | None => Ok (Some a, SS d flt ch None (match flt with Some _ => false | None => true end))
    end.
  Lemma poll_data : forall u fuel ch d flt mask n spec, missing ch (all_paths (co_children d)) <= u -> u < fuel -> col_ok n spec d -> cache_ok ch ->
    (n = 0 /\ exists s', poll fuel F e bs ev (SS d flt ch mask true) = Ok (None, s')) \/
    (0 < n /\ exists k a d' ch', fuel <= S (k + u) /\ poll fuel F e bs ev (SS d flt ch mask true) = data_step k a d' flt ch' mask /\
       wf f a /\ adtype a = DStruct (co_names d) (map fst spec) false /\ logical a = firstn bs (zip_rows n (map snd spec)) /\
       col_ok (n - bs) (map (fun dr => (fst dr, skipn bs (snd dr))) spec) d' /\ co_names d' = co_names d /\ Forall2 within (co_children d') (co_children d) /\ cache_ok ch' /\ grows ch ch').
  Proof.
    induction u as [|u IH]; intros fuel ch d flt mask n spec HU HF HO HC; (destruct fuel as [|fuel]; [lia|]); cbn [poll sc_init sc_data sc_cache sc_filter sc_mask];
      destruct (col_read_ok n spec ch d HO HC) as (x & d' & -> & NM & X); cbn [bind]; (destruct x as [[m|a]|]; [| |left; split; [exact X|eauto]]).
    - exfalso. destruct X as (_ & _ & X2 & p & P1 & P2 & _). pose proof (missing_within ch _ _ X2). apply in_split in P1. destruct P1 as (q & r & P1). rewrite P1, missing_app in H.
      unfold missing, count in H, HU. cbn [filter] in H. rewrite P2 in H. cbn [length] in H. lia.
    - right. destruct X as (X1 & X2 & X3 & X4 & X5 & X6). split; [exact X1|]. exists fuel, a, d', ch. split; [lia|]. split; [reflexivity|]. split; [exact X2|]. split; [exact X3|]. split; [exact X4|]. split; [exact X6|]. split; [exact NM|]. split; [exact X5|]. split; [exact HC|]. intros p H; exact H.
    - destruct X as (X1 & X2 & X3 & p & P1 & P2 & P3). rewrite (read_ranges_ok m X2). cbn [bind]. destruct (store_ok ch m HC X2) as (S1 & S2 & S3). set (ch1 := cache_set ch (map (fun x => (fst x, extract (snd x))) m)) in *.
      assert (missing ch1 (all_paths (co_children d')) <= u) as MU. { pose proof (missing_strict ch ch1 _ p S2 P1 P2 (S3 p P3)). pose proof (missing_within ch _ _ X3). lia. }
      destruct (IH fuel ch1 d' flt mask n spec MU ltac:(lia) X1 S1) as [[Z (s' & E)]|(Z & k & a & d2 & ch' & K & E & Y1 & Y2 & Y3 & Y4 & Y5 & Y6 & Y7 & Y8)]; [left; eauto|right]. split; [exact Z|].
      exists k, a, d2, ch'. split; [lia|]. split; [exact E|]. rewrite <- NM. split; [exact Y1|]. split; [exact Y2|]. split; [exact Y3|]. split; [exact Y4|]. split; [exact Y5|]. split; [eapply within_all_trans; eassumption|]. split; [exact Y7|]. intros q H; apply Y8, S2, H.
    - right. destruct X as (X1 & X2 & X3 & X4 & X5 & X6). split; [exact X1|]. exists fuel, a, d', ch. split; [lia|]. split; [reflexivity|]. split; [exact X2|]. split; [exact X3|]. split; [exact X4|]. split; [exact X6|]. split; [exact NM|]. split; [exact X5|]. split; [exact HC|]. intros p H; exact H.
  Qed.
  Lemma poll_filter : forall u fuel ch d fl mask n spec, missing ch (all_paths (co_children fl)) <= u -> u < fuel -> col_ok n spec fl -> cache_ok ch ->
    (n = 0 /\ exists s', poll fuel F e bs ev (SS d (Some fl) ch mask false) = Ok (None, s')) \/
    (0 < n /\ exists k a fl' ch', fuel <= S (k + u) /\ poll fuel F e bs ev (SS d (Some fl) ch mask false) = (do m <- ev a; poll k F e bs ev (SS d (Some fl') ch' (Some m) true)) /\
       wf f a /\ adtype a = DStruct (co_names fl) (map fst spec) false /\ logical a = firstn bs (zip_rows n (map snd spec)) /\
       col_ok (n - bs) (map (fun dr => (fst dr, skipn bs (snd dr))) spec) fl' /\ co_names fl' = co_names fl /\ Forall2 within (co_children fl') (co_children fl) /\ cache_ok ch' /\ grows ch ch').
  Proof.
    induction u as [|u IH]; intros fuel ch d fl mask n spec HU HF HO HC; (destruct fuel as [|fuel]; [lia|]); cbn [poll sc_init sc_data sc_cache sc_filter sc_mask];
      destruct (col_read_ok n spec ch fl HO HC) as (x & fl' & -> & NM & X); cbn [bind]; (destruct x as [[m|a]|]; [| |left; split; [exact X|eauto]]).
    - exfalso. destruct X as (_ & _ & X2 & p & P1 & P2 & _). pose proof (missing_within ch _ _ X2). apply in_split in P1. destruct P1 as (q & r & P1). rewrite P1, missing_app in H.
      unfold missing, count in H, HU. cbn [filter] in H. rewrite P2 in H. cbn [length] in H. lia.
    - right. destruct X as (X1 & X2 & X3 & X4 & X5 & X6). split; [exact X1|]. exists fuel, a, fl', ch. split; [lia|]. split; [reflexivity|]. split; [exact X2|]. split; [exact X3|]. split; [exact X4|]. split; [exact X6|]. split; [exact NM|]. split; [exact X5|]. split; [exact HC|]. intros p H; exact H.
    - destruct X as (X1 & X2 & X3 & p & P1 & P2 & P3). rewrite (read_ranges_ok m X2). cbn [bind]. destruct (store_ok ch m HC X2) as (S1 & S2 & S3). set (ch1 := cache_set ch (map (fun x => (fst x, extract (snd x))) m)) in *.
      assert (missing ch1 (all_paths (co_children fl')) <= u) as MU. { pose proof (missing_strict ch ch1 _ p S2 P1 P2 (S3 p P3)). pose proof (missing_within ch _ _ X3). lia. }
      destruct (IH fuel ch1 d fl' mask n spec MU ltac:(lia) X1 S1) as [[Z (s' & E)]|(Z & k & a & d2 & ch' & K & E & Y1 & Y2 & Y3 & Y4 & Y5 & Y6 & Y7 & Y8)]; [left; eauto|right]. split; [exact Z|].
      exists k, a, d2, ch'. split; [lia|]. split; [exact E|]. rewrite <- NM. split; [exact Y1|]. split; [exact Y2|]. split; [exact Y3|]. split; [exact Y4|]. split; [exact Y5|]. split; [eapply within_all_trans; eassumption|]. split; [exact Y7|]. intros q H; apply Y8, S2, H.
    - right. destruct X as (X1 & X2 & X3 & X4 & X5 & X6). split; [exact X1|]. exists fuel, a, fl', ch. split; [lia|]. split; [reflexivity|]. split; [exact X2|]. split; [exact X3|]. split; [exact X4|]. split; [exact X6|]. split; [exact NM|]. split; [exact X5|]. split; [exact HC|]. intros p H; exact H.
  Qed.
  (** ** Collecting *)
  Lemma missing_len ch ps : missing ch ps <= length ps.
  Proof. unfold missing, count. induction ps as [|p ps IH]; [apply le_n|]. cbn [filter]. destruct (cache_get ch p); cbn [length]; lia. Qed.
  Lemma within_paths cs' cs : Forall2 within cs' cs -> length (all_paths cs') <= length (all_paths cs).
  Proof.
    induction 1 as [|c' c cs' cs [k H] _ IH]; [apply le_n|]. unfold all_paths in *. cbn [flat_map]. rewrite !app_length, H, skipn_length. lia.
  Qed.
  Definition drop (spec : list (dtype * list value)) := map (fun dr => (fst dr, skipn bs (snd dr))) spec.
  Lemma drop_fst spec : map fst (drop spec) = map fst spec.
  Proof. unfold drop. rewrite map_map. reflexivity. Qed.
  Lemma drop_rows n spec : zip_rows (n - bs) (map snd (drop spec)) = skipn bs (zip_rows n (map snd spec)).
  Proof. rewrite zip_skipn. unfold drop. rewrite !map_map. reflexivity. Qed.
  Lemma zip_length n cols : length (zip_rows n cols) = n.
  Proof. apply tab_length. Qed.

  Lemma collect_all : forall k fuel n spec d ch, n < k -> col_ok n spec d -> cache_ok ch -> length (all_paths (co_children d)) < fuel ->
    exists l, collect k fuel F e bs ev (SS d None ch None true) = Ok l /\ rows_of l = zip_rows n (map snd spec) /\
      Forall (fun b => wf f b /\ adtype b = DStruct (co_names d) (map fst spec) false) l /\
      (forall i b, nth_error l i = Some b -> logical b = firstn bs (skipn (i * bs) (zip_rows n (map snd spec))) /\ logical b <> []).
  Proof.
    induction k as [|k IH]; intros fuel n spec d ch HK HO HC HF; [lia|]. cbn [collect].
    destruct (poll_data (missing ch (all_paths (co_children d))) fuel ch d None None n spec (le_n _) ltac:(pose proof (missing_len ch (all_paths (co_children d))); lia) HO HC)
      as [[-> (s' & ->)]|(Z & j & a & d' & ch' & _ & -> & Y1 & Y2 & Y3 & Y4 & Y5 & Y6 & Y7 & Y8)]; cbn [bind data_step].
    - exists []. split; [reflexivity|]. split; [reflexivity|]. split; [constructor|]. intros [|i] b H; discriminate H.
    - fold (drop spec) in Y4. destruct (IH fuel (n - bs) (drop spec) d' ch' ltac:(lia) Y4 Y7 ltac:(pose proof (within_paths _ _ Y6); lia)) as (l & -> & L1 & L2 & L3). cbn [bind].
      rewrite drop_rows in L1, L3. rewrite drop_fst, Y5 in L2. exists (a :: l). split; [reflexivity|]. split; [|split].
      + unfold rows_of in *. cbn [map concat]. rewrite L1, Y3. apply firstn_skipn.
      + constructor; [auto|exact L2].
      + intros [|i] b Hi.
        * cbn in Hi. assert (b = a) as -> by congruence. cbn [Nat.mul skipn]. split; [exact Y3|]. rewrite Y3. intros E. apply (f_equal (@length _)) in E. rewrite firstn_length, zip_length in E. cbn in E. lia.
        * cbn [nth_error] in Hi. destruct (L3 i b Hi) as [E1 E2]. split; [|exact E2]. rewrite E1, skipn_plus. reflexivity.
  Qed.

  Lemma spec_filter_app {A} (a b : list A) ma mb : length a = length ma -> spec_filter (a ++ b) (ma ++ mb) = spec_filter a ma ++ spec_filter b mb.
  Proof. revert ma; induction a as [|x a IH]; intros [|[|] ma] H; try discriminate H; cbn [app spec_filter]; [reflexivity| |]; rewrite IH by (cbn in H; lia); reflexivity. Qed.
  Lemma spec_filter_none {A} (a : list A) m : count id m = 0 -> spec_filter a m = [].
  Proof. revert a; induction m as [|[|] m IH]; intros [|x a] H; try reflexivity; [discriminate H|]. cbn [spec_filter]. apply IH. exact H. Qed.
  Lemma count_exists m : (exists i, i < length m /\ nth i m false = true) -> count id m <> 0.
  Proof.
    intros (i & H1 & H2). unfold count. intros Z. apply length_zero_iff_nil in Z. pose proof (nth_In m false H1) as I. rewrite H2 in I.
    assert (In true (filter id m)) as J by (apply filter_In; split; [exact I|reflexivity]). rewrite Z in J. exact J.
  Qed.

  Lemma collect_filtered (q : value -> bool) (fc_ : fc f = true) (ft_ : ft f = true) : forall k fuel n spec fspec d fl ch, n < k -> col_ok n spec d -> col_ok n fspec fl -> cache_ok ch ->
    2 * length (all_paths (co_children d)) + length (all_paths (co_children fl)) + 4 <= fuel ->
    (forall a, wf f a -> adtype a = DStruct (co_names fl) (map fst fspec) false -> ev a = Ok (map q (logical a))) ->
    (forall j, (j + 1) * bs < n -> exists i, j * bs <= i < (j + 1) * bs /\ q (nth i (zip_rows n (map snd fspec)) VNull) = true) ->
    match collect k fuel F e bs ev (SS d (Some fl) ch None false) with
    | Ok l => rows_of l = spec_filter (zip_rows n (map snd spec)) (map q (zip_rows n (map snd fspec)))
    | _ => fF f = false
    end.
  Proof.
    induction k as [|k IH]; intros fuel n spec fspec d fl ch HK HO HP HC HF HE HB; [lia|]. cbn [collect].
    pose proof (missing_len ch (all_paths (co_children fl))).
    destruct (poll_filter (missing ch (all_paths (co_children fl))) fuel ch d fl None n fspec (le_n _) ltac:(lia) HP HC)
      as [[-> (s' & ->)]|(Z & j & a & fl' & ch1 & J & -> & Y1 & Y2 & Y3 & Y4 & Y5 & Y6 & Y7 & Y8)]; cbn [bind]; [reflexivity|].
    rewrite (HE a Y1 Y2). cbn [bind]. set (m := map q (logical a)).
    pose proof (missing_len ch1 (all_paths (co_children d))).
    destruct (poll_data (missing ch1 (all_paths (co_children d))) j ch1 d (Some fl') (Some m) n spec (le_n _) ltac:(lia) HO Y7)
      as [[-> _]|(_ & j2 & b & d' & ch2 & J2 & -> & X1 & X2 & X3 & X4 & X5 & X6 & X7 & X8)]; [lia|]. cbn [data_step].
    assert (m = firstn bs (map q (zip_rows n (map snd fspec)))) as Em by (unfold m; rewrite Y3, firstn_map; reflexivity).
    assert (spec_filter (zip_rows n (map snd spec)) (map q (zip_rows n (map snd fspec))) =
      spec_filter (logical b) m ++ spec_filter (zip_rows (n - bs) (map snd (drop spec))) (map q (zip_rows (n - bs) (map snd (drop fspec))))) as SPL.
    { rewrite !drop_rows, Em, X3. rewrite <- skipn_map. rewrite <- spec_filter_app; [rewrite !firstn_skipn; reflexivity|]. rewrite !firstn_length, map_length, !zip_length. reflexivity. }
    rewrite SPL. clear SPL. destruct (Nat.eqb_spec (count id m) 0) as [C0|C0].
    - assert (n <= bs) as NB.
      { destruct (Nat.le_gt_cases n bs) as [|N]; [assumption|]. exfalso. destruct (HB 0 ltac:(lia)) as (i & I1 & I2). apply (count_exists m); [|exact C0]. exists i. rewrite Em, firstn_length, map_length, zip_length. split; [lia|].
        rewrite nth_firstn by lia. rewrite (map_nth_lt q _ VNull false) by (rewrite zip_length; lia). exact I2. }
      replace (n - bs) with 0 in * by lia. pose proof (missing_len ch2 (all_paths (co_children d'))). pose proof (within_paths _ _ X6).
      destruct (poll_data (missing ch2 (all_paths (co_children d'))) j2 ch2 d' (Some fl') None 0 (drop spec) (le_n _) ltac:(lia) X4 X7) as [[_ (s' & ->)]|(Z0 & _)]; [|lia]. cbn [bind].
      rewrite spec_filter_none by exact C0. reflexivity.
    - assert (length m = length (logical b)) as LM by (rewrite Em, X3, !firstn_length, map_length, !zip_length; reflexivity).
      assert (Z.of_nat (length m) <= pmax U64)%Z as LB. { eapply Z.le_trans; [|exact bs_max]. apply inj_le. rewrite Em, firstn_length. lia. }
      destruct (filter_commutes_with_decoding f b m X1 fc_ ft_ LB LM) as [FA FB]. destruct (filter_array b (mask_of m)) as [b'| |] eqn:EF; cbn [bind].
      2,3: destruct (fF f) eqn:EF'; [destruct (FB eq_refl) as (? & ?); discriminate|reflexivity].
      destruct (FA b' eq_refl) as (LF & _ & _ & _).
      assert (forall a0, wf f a0 -> adtype a0 = DStruct (co_names fl') (map fst (drop fspec)) false -> ev a0 = Ok (map q (logical a0))) as HE' by (rewrite drop_fst, Y5; exact HE).
      pose proof (within_paths _ _ X6). pose proof (within_paths _ _ Y6).
      assert (forall j0, (j0 + 1) * bs < n - bs -> exists i, j0 * bs <= i < (j0 + 1) * bs /\ q (nth i (zip_rows (n - bs) (map snd (drop fspec))) VNull) = true) as HB'.
      { intros j0 Hj. destruct (HB (S j0) ltac:(cbn [Nat.mul Nat.add] in *; lia)) as (i & I1 & I2). exists (i - bs). split; [cbn [Nat.mul Nat.add] in *; lia|]. rewrite drop_rows, nth_skipn. replace (bs + (i - bs)) with i by (cbn [Nat.mul Nat.add] in *; lia). exact I2. }
      pose proof (IH fuel (n - bs) (drop spec) (drop fspec) d' fl' ch2 ltac:(lia) X4 Y4 X7 ltac:(lia) HE' HB') as IHk.
      destruct (collect k fuel F e bs ev (SS d' (Some fl') ch2 None false)) as [l| |]; cbn [bind]; [|exact IHk|exact IHk]. unfold rows_of in *. cbn [map concat]. rewrite LF, IHk. reflexivity.
  Qed.
End Readers.
