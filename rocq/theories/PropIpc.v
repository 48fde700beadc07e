(** C34, C36 (streams): what is written is read back; what happens when the stream is cut. *)
From Verif Require Import Base Spec Arr ArrRead Ipc.

(** * Specification *)

(** The bytes of an item: its message, framed, and its buffers, each padded to 64 bytes. *)
Definition padded (b : list Z) : list Z := b ++ zeros (aligned (length b) - length b).
Definition msg_of (i : item) : msg := match i with IDType d => MSchema d | IBatch n t => batch_msg n t | IPage b => page_msg b end.
Definition header (c : codec) (i : item) : list Z :=
  let al := aligned (4 + length (enc c (msg_of i))) in
  u32_le (as_u32 (al - 4)) ++ enc c (msg_of i) ++ zeros (al - (4 + length (enc c (msg_of i)))).
Definition body (i : item) : list Z := match i with IDType _ => [] | IBatch _ t => flat_map padded (all_buffers t) | IPage b => padded b end.
Definition item_bytes (c : codec) (i : item) : list Z := header c i ++ body i.
Definition stream_bytes (c : codec) (l : list item) : list Z := flat_map (item_bytes c) l.

(** The flatbuffers library reads the item's message back, and its sizes fit the 32-bit length fields (flatbuffers are limited to
    2 GiB anyway). *)
Definition item_fits (c : codec) (i : item) : Prop :=
  decodes c (msg_of i) /\
  (Z.of_nat (length (enc c (msg_of i))) + 68 <= 4294967296)%Z /\
  match i with IPage b => (Z.of_nat (length b) < 4294967296)%Z | _ => True end.
(** The reader must know the encoding of each batch's root. *)
Definition item_known (known : nat -> bool) (i : item) : Prop :=
  match i with IBatch _ (Node e _ _ _ _) => known e = true | _ => True end.

(** * Alignment *)
Lemma aligned_facts n : n <= aligned n /\ aligned n < n + 64 /\ aligned n mod 64 = 0.
Proof.
  unfold aligned. pose proof (Nat.div_mod (n + 63) 64 ltac:(lia)) as E. pose proof (Nat.mod_upper_bound (n + 63) 64 ltac:(lia)).
  split; [|split]; [lia|lia|]. apply Nat.mod_mul. lia.
Qed.
Lemma zeros_length n : length (zeros n) = n.
Proof. apply repeat_length. Qed.
Lemma zeros_r_ok n : n <= 64 -> zeros_r n = Ok (zeros n).
Proof. intros H. unfold zeros_r. rewrite (proj2 (Nat.leb_le _ _)) by lia. reflexivity. Qed.
Lemma padded_length b : length (padded b) = aligned (length b).
Proof. unfold padded. rewrite app_length, zeros_length. destruct (aligned_facts (length b)). lia. Qed.
Lemma header_length c i : length (header c i) = aligned (4 + length (enc c (msg_of i))).
Proof.
  unfold header. rewrite !app_length, zeros_length. destruct (aligned_facts (4 + length (enc c (msg_of i)))).
  change (length (u32_le _)) with 4. lia.
Qed.
Lemma mod_add64 a b : a mod 64 = 0 -> b mod 64 = 0 -> (a + b) mod 64 = 0.
Proof. intros A B. rewrite Nat.add_mod, A, B by lia. reflexivity. Qed.
Lemma padded_all_mod bs : length (flat_map padded bs) mod 64 = 0.
Proof. induction bs as [|b r IH]; [reflexivity|]. cbn [flat_map]. rewrite app_length. apply mod_add64; [|exact IH]. rewrite padded_length. apply aligned_facts. Qed.
Lemma item_mod c i : length (item_bytes c i) mod 64 = 0.
Proof.
  unfold item_bytes. rewrite app_length. apply mod_add64; [rewrite header_length; apply aligned_facts|].
  destruct i; cbn [body]; [reflexivity|apply padded_all_mod|rewrite padded_length; apply aligned_facts].
Qed.
Lemma stream_mod c l : length (stream_bytes c l) mod 64 = 0.
Proof. induction l as [|i r IH]; [reflexivity|]. unfold stream_bytes. cbn [flat_map]. rewrite app_length. apply mod_add64; [apply item_mod|exact IH]. Qed.

(** * The writer writes these bytes *)
Lemma put_put w a b : put (put w a) b = put w (a ++ b).
Proof. unfold put. cbn. rewrite app_assoc, app_length. f_equal. lia. Qed.
Lemma write_message_ok c w i : w_pos w mod 64 = 0 -> write_message c w (msg_of i) = Ok (put w (header c i)).
Proof.
  intros A. unfold write_message. set (un := 4 + length (enc c (msg_of i))). destruct (aligned_facts un) as (H1 & H2 & H3). rewrite zeros_r_ok by lia. cbn [bind].
  rewrite !put_put. fold un. change (u32_le (as_u32 (aligned un - 4)) ++ enc c (msg_of i) ++ zeros (aligned un - un)) with (header c i).
  unfold put at 1. cbn [w_pos]. rewrite header_length. fold un. rewrite mod_add64 by auto. reflexivity.
Qed.
Lemma write_buffers_ok : forall bs w cur, write_buffers w cur bs (skipn 1 (buffer_offsets cur bs)) = Ok (put w (flat_map padded bs)).
Proof.
  induction bs as [|b r IH]; intros w cur.
  - cbn. unfold put. rewrite app_nil_r, Nat.add_0_r. destruct w; reflexivity.
  - cbn [buffer_offsets skipn]. assert (forall l, buffer_offsets (cur + aligned (length b)) l = (cur + aligned (length b)) :: skipn 1 (buffer_offsets (cur + aligned (length b)) l)) as E by (intros [|? ?]; reflexivity).
    rewrite E. cbn [write_buffers]. destruct (aligned_facts (length b)) as (H1 & H2 & _). rewrite (proj2 (Nat.ltb_ge _ _)) by lia.
    rewrite zeros_r_ok by lia. cbn [bind]. rewrite IH, !put_put. do 2 f_equal. cbn [flat_map]. unfold padded at 2. rewrite <- app_assoc. do 3 f_equal. lia.
Qed.
Lemma write_item_ok c w i : w_pos w mod 64 = 0 -> write_item c w i = Ok (put w (item_bytes c i)).
Proof.
  intros A. destruct i as [d|n t|b]; cbn [write_item].
  - change (MSchema d) with (msg_of (IDType d)). rewrite write_message_ok by exact A. unfold item_bytes. cbn [body]. rewrite app_nil_r. reflexivity.
  - unfold write_batch. change (batch_msg n t) with (msg_of (IBatch n t)). rewrite write_message_ok by exact A. cbn [bind]. rewrite write_buffers_ok, put_put. reflexivity.
  - unfold write_page. change (page_msg b) with (msg_of (IPage b)). rewrite write_message_ok by exact A. cbn [bind]. destruct (aligned_facts (length b)) as (H1 & H2 & _).
    rewrite zeros_r_ok by lia. cbn [bind]. rewrite !put_put. reflexivity.
Qed.

(** C34: writing never fails; it puts the items one after the other, and every message and every buffer starts at a multiple of 64. *)
Theorem writer_output :
  forall (c : codec) (l : list item), exists w, write_items c (W [] 0) l = Ok w /\ w_out w = stream_bytes c l /\ w_pos w = length (w_out w).
Proof.
  intros c l. assert (forall w, w_pos w = length (w_out w) -> length (w_out w) mod 64 = 0 -> exists w', write_items c w l = Ok w' /\ w_out w' = w_out w ++ stream_bytes c l /\ w_pos w' = length (w_out w')) as H.
  { induction l as [|i r IH]; intros w P A; cbn [write_items].
    - exists w. rewrite app_nil_r. auto.
    - rewrite write_item_ok by congruence. cbn [bind]. destruct (IH (put w (item_bytes c i))) as (w' & E1 & E2 & E3).
      + unfold put. cbn [w_pos w_out]. rewrite app_length. lia.
      + unfold put. cbn [w_out]. rewrite app_length. apply mod_add64; [exact A|apply item_mod].
      + exists w'. split; [exact E1|]. split; [|exact E3]. rewrite E2. unfold put, stream_bytes. cbn [w_out flat_map]. rewrite app_assoc. reflexivity. }
  destruct (H (W [] 0) eq_refl eq_refl) as (w & E1 & E2 & E3). exists w. auto.
Qed.
Print Assumptions writer_output.

Theorem everything_starts_aligned :
  forall (c : codec) (l : list item) (k : nat) (i : item), nth_error l k = Some i ->
  (exists pre post, stream_bytes c l = pre ++ item_bytes c i ++ post /\ length pre mod 64 = 0) /\
  (forall n b, match i with IDType _ => None | IBatch _ t => nth_error (all_buffers t) n | IPage b => nth_error [b] n end = Some b ->
     exists pre post, stream_bytes c l = pre ++ b ++ post /\ length pre mod 64 = 0).
Proof.
  intros c l k i H. apply nth_error_split in H. destruct H as (l1 & l2 & -> & _). unfold stream_bytes. rewrite flat_map_app. cbn [flat_map]. split.
  - exists (flat_map (item_bytes c) l1), (flat_map (item_bytes c) l2). split; [reflexivity|]. apply (stream_mod c l1).
  - intros n b Hb.
    assert (exists pre post, body i = pre ++ b ++ post /\ length pre mod 64 = 0) as (pre & post & E & A).
    { destruct i as [d|m t|b']; cbn [body]; [discriminate| |].
      - apply nth_error_split in Hb. destruct Hb as (b1 & b2 & -> & _). exists (flat_map padded b1), (zeros (aligned (length b) - length b) ++ flat_map padded b2).
        split; [|apply padded_all_mod]. rewrite flat_map_app. cbn [flat_map]. unfold padded at 2. rewrite <- !app_assoc. reflexivity.
      - destruct n as [|[|n]]; [|discriminate Hb|discriminate Hb]. cbn in Hb. assert (b' = b) as -> by congruence. exists [], (zeros (aligned (length b) - length b)). split; reflexivity. }
    exists (flat_map (item_bytes c) l1 ++ header c i ++ pre), (post ++ flat_map (item_bytes c) l2). split.
    + unfold item_bytes at 2. rewrite E, <- !app_assoc. reflexivity.
    + rewrite !app_length. apply mod_add64; [apply (stream_mod c l1)|]. apply mod_add64; [rewrite header_length; apply aligned_facts|exact A].
Qed.
Print Assumptions everything_starts_aligned.

(** * Reading *)
Lemma u32_round z : (0 <= z < 4294967296)%Z -> le_u32 (u32_le z) = z.
Proof. intros H. unfold le_u32, u32_le. cbn [nth]. Z.div_mod_to_equations. lia. Qed.
Lemma as_u32_small n : (Z.of_nat n < 4294967296)%Z -> as_u32 n = Z.of_nat n.
Proof. intros H. unfold as_u32. apply Z.mod_small. lia. Qed.

Lemma read_into_cut {b rest : list Z} {k} : (k < length b -> read_into (firstn k (b ++ rest)) (length b) = None) /\
  (length b <= k -> read_into (firstn k (b ++ rest)) (length b) = Some (b, firstn (k - length b) rest)).
Proof.
  unfold read_into. rewrite firstn_length, app_length. split; intros H.
  - rewrite (proj2 (Nat.ltb_lt _ _)) by lia. reflexivity.
  - rewrite (proj2 (Nat.ltb_ge _ _)) by lia. rewrite firstn_app. rewrite (firstn_all2 b) by exact H.
    rewrite firstn_app, skipn_app, firstn_all, skipn_all, Nat.sub_diag. cbn [firstn skipn app]. rewrite app_nil_r. reflexivity.
Qed.

Definition loaded_msg (c : codec) (i : item) : list Z := enc c (msg_of i) ++ zeros (aligned (4 + length (enc c (msg_of i))) - (4 + length (enc c (msg_of i)))).
Lemma header_split c i : header c i = u32_le (as_u32 (aligned (4 + length (enc c (msg_of i))) - 4)) ++ loaded_msg c i.
Proof. reflexivity. Qed.

Lemma load_cut c i rest k old fin : item_fits c i ->
  load_next c (R (firstn k (header c i ++ rest)) old fin) =
    if k <? 4 then Ok (false, R (firstn k (header c i ++ rest)) [] fin)
    else if k <? length (header c i) then Err
    else Ok (true, R (firstn (k - length (header c i)) rest) (loaded_msg c i) fin).
Proof.
  intros (C & F & _). unfold load_next. cbn [r_in r_fin]. set (un := 4 + length (enc c (msg_of i))) in *. destruct (aligned_facts un) as (H1 & H2 & _).
  set (lb := u32_le (as_u32 (aligned un - 4))). assert (length lb = 4) as Hlb by reflexivity. assert (length (loaded_msg c i) = aligned un - 4) as Hm.
  { unfold loaded_msg. fold un. rewrite app_length, zeros_length. unfold un in *. lia. }
  assert (length (header c i) = aligned un) as Hh by (rewrite header_length; reflexivity). rewrite Hh.
  assert (header c i ++ rest = lb ++ loaded_msg c i ++ rest) as E by (rewrite header_split; fold un lb; rewrite <- app_assoc; reflexivity).
  destruct (Nat.ltb_spec k 4) as [Hk|Hk].
  - assert (read_into (firstn k (header c i ++ rest)) 4 = None) as ->; [|reflexivity]. rewrite E. rewrite <- Hlb. apply read_into_cut. lia.
  - assert (read_into (firstn k (header c i ++ rest)) 4 = Some (lb, firstn (k - 4) (loaded_msg c i ++ rest))) as ->.
    { rewrite E. rewrite <- Hlb. apply (proj2 read_into_cut). lia. }
    assert (un = 4 + length (enc c (msg_of i))) as Hun by reflexivity.
    assert (le_u32 lb = Z.of_nat (aligned un - 4)) as ->. { unfold lb. rewrite as_u32_small by lia. apply u32_round. lia. }
    assert (aligned un <> 4) as N4. { intros Q. pose proof (proj2 (proj2 (aligned_facts un))) as X. rewrite Q in X. discriminate X. }
    rewrite (proj2 (Z.eqb_neq _ _)) by lia. rewrite (proj2 (Z.eqb_neq _ _)) by lia. rewrite Nat2Z.id, <- Hm.
    destruct (Nat.ltb_spec k (aligned un)) as [Hk2|Hk2].
    + rewrite (proj1 read_into_cut) by lia. reflexivity.
    + rewrite (proj2 read_into_cut) by lia. assert (dec c (loaded_msg c i) = Some (msg_of i)) as -> by apply C. do 3 f_equal. f_equal. lia.
Qed.

Definition Rd (c : codec) (i : item) (r : list item) (k : nat) : reader := R (firstn k (body i ++ stream_bytes c r)) (loaded_msg c i) false.

Lemma split_ok : forall bs off rest, let (bt, size) := buffer_table off bs in split_buffers bt size (flat_map padded bs ++ rest) = Ok bs /\ size = off + length (flat_map padded bs).
Proof.
  induction bs as [|b r IH]; intros off rest; cbn [buffer_table]; [split; [reflexivity|cbn; lia]|].
  specialize (IH (off + aligned (length b)) rest). destruct (buffer_table (off + aligned (length b)) r) as [bt size] eqn:E. destruct IH as [IH1 IH2].
  cbn [flat_map]. destruct (aligned_facts (length b)) as (H1 & H2 & _). split; [|rewrite app_length, padded_length; lia].
  cbn [split_buffers].
  assert ((match bt with [] => size | (o, _) :: _ => o end) = off + aligned (length b)) as ->.
  { destruct r as [|b' r']; cbn [buffer_table] in E; [injection E as <- <-; reflexivity|]. destruct (buffer_table _ r'). injection E as <- <-. reflexivity. }
  rewrite (proj2 (Nat.ltb_ge _ _)) by lia. replace (off + aligned (length b) - off - (aligned (length b) - length b)) with (length b) by lia.
  replace (length b + (aligned (length b) - length b)) with (length (padded b)) by (rewrite padded_length; lia).
  rewrite <- app_assoc. rewrite (proj2 (Nat.ltb_ge _ _)) by (rewrite app_length; lia). rewrite skipn_app, skipn_all, Nat.sub_diag. cbn [app skipn]. rewrite IH1. cbn [bind].
  unfold padded. rewrite <- app_assoc, firstn_app, firstn_all, Nat.sub_diag. cbn [firstn]. rewrite app_nil_r. reflexivity.
Qed.

Definition fin_of (x : bool * reader) : reader := if fst x then snd x else R (r_in (snd x)) (r_msg (snd x)) true.

Lemma next_eq c r : r_fin r = false -> next c r = do x <- load_next c (R (r_in r) [] false); Ok (r_msg r, fin_of x).
Proof. intros F. unfold next. rewrite F. destruct (load_next _ _) as [[more r']| |]; reflexivity. Qed.

Lemma read_loaded c known i r k : item_fits c i -> item_known known i ->
  read_item c known (Rd c i r k) =
    if k <? length (body i) then Err
    else do x <- load_next c (R (firstn (k - length (body i)) (stream_bytes c r)) [] false); Ok (Some i, fin_of x).
Proof.
  intros F K. assert (dec c (loaded_msg c i) = Some (msg_of i)) as D by apply F.
  assert (peek c (Rd c i r k) = Ok (Some (msg_of i))) as P by (unfold peek, Rd; cbn [r_fin r_msg]; rewrite D; reflexivity).
  unfold read_item, maybe_read_chunk. rewrite P. cbn [bind].
  destruct i as [d|n t|b]; cbn [msg_of body] in *.
  - cbn [bind]. unfold maybe_read_page. rewrite !P. cbn [bind]. rewrite ?P. cbn [bind]. unfold read_dtype. rewrite !P. cbn [bind]. rewrite next_eq by reflexivity.
    unfold Rd at 1 2. cbn [r_in r_msg body app]. cbn [length Nat.ltb Nat.leb]. rewrite Nat.sub_0_r.
    destruct (load_next c _) as [x| |]; cbn [bind]; try reflexivity. rewrite D. reflexivity.
  - unfold batch_msg in *. pose proof (split_ok (all_buffers t) 0 []) as S. destruct (buffer_table 0 (all_buffers t)) as [bt size] eqn:E. destruct S as [S1 S2]. rewrite app_nil_r in S1. cbn [plus] in S2.
    rewrite S2. unfold Rd at 1. cbn [r_in body].
    destruct (Nat.ltb_spec k (length (flat_map padded (all_buffers t)))) as [H|H].
    + rewrite (proj1 read_into_cut) by lia. reflexivity.
    + rewrite (proj2 read_into_cut) by lia. rewrite <- S2, S1. cbn [bind]. unfold Rd. cbn [r_msg r_fin body]. rewrite next_eq by reflexivity. cbn [r_in r_msg]. rewrite S2.
      destruct (load_next c _) as [x| |]; cbn [bind]; try reflexivity.
      unfold into_array. assert (known (fb_enc (to_fb t 0)) = true) as -> by (destruct t; exact K). rewrite array_tree_round_trip. reflexivity.
  - unfold page_msg in *. cbn [bind]. unfold maybe_read_page. rewrite P. destruct F as (_ & _ & F). rewrite as_u32_small in * by exact F. rewrite Nat2Z.id in *. cbn [bind].
    destruct (aligned_facts (length b)) as (H1 & H2 & _). replace (length b + (aligned (length b) - length b)) with (length (padded b)) by (rewrite padded_length; lia).
    unfold Rd at 1. cbn [r_in body]. destruct (Nat.ltb_spec k (length (padded b))) as [H|H].
    + rewrite (proj1 read_into_cut) by lia. reflexivity.
    + rewrite (proj2 read_into_cut) by lia. unfold Rd. cbn [r_msg r_fin body]. rewrite next_eq by reflexivity. cbn [r_in r_msg].
      destruct (load_next c _) as [x| |]; cbn [bind]; try reflexivity. unfold padded. rewrite firstn_app, firstn_all, Nat.sub_diag. cbn [firstn]. rewrite app_nil_r. reflexivity.
Qed.

(** Where item [m] starts. *)
Definition start_of (c : codec) (l : list item) (m : nat) : nat := length (stream_bytes c (firstn m l)).

Lemma load_stream_cut c i r k old fin : item_fits c i ->
  load_next c (R (firstn k (stream_bytes c (i :: r))) old fin) =
    if k <? 4 then Ok (false, R (firstn k (stream_bytes c (i :: r))) [] fin)
    else if k <? length (header c i) then Err
    else Ok (true, R (firstn (k - length (header c i)) (body i ++ stream_bytes c r)) (loaded_msg c i) fin).
Proof.
  intros F. assert (stream_bytes c (i :: r) = header c i ++ body i ++ stream_bytes c r) as -> by (unfold stream_bytes; cbn [flat_map]; unfold item_bytes at 1; rewrite <- app_assoc; reflexivity).
  apply load_cut; assumption.
Qed.
Lemma load_nil c old fin : load_next c (R [] old fin) = Ok (false, R [] [] fin).
Proof. reflexivity. Qed.

(** The outcome of reading [l] when only its first [k] bytes are there: [n] items, and then the end or an error. *)
Definition cut_outcome (c : codec) (l : list item) (k n : nat) (e : fate) : Prop :=
  n <= length l /\ start_of c l n <= k /\
  ((e = FEnd /\ k <= start_of c l n + 3) \/
   (e = FErr /\ n < length l /\ start_of c l n + 3 < k /\ k < start_of c l (S (S n)) /\
      (k < start_of c l (S n) \/ (n + 1 < length l /\ start_of c l (S n) + 3 < k)))).

Lemma start_of_cons c i r m : start_of c (i :: r) (S m) = length (header c i) + length (body i) + start_of c r m.
Proof. unfold start_of, stream_bytes. cbn [firstn flat_map]. rewrite app_length. unfold item_bytes at 1. rewrite app_length. reflexivity. Qed.
Lemma start_of_0 c l : start_of c l 0 = 0.
Proof. reflexivity. Qed.
Lemma header_big c i : 64 <= length (header c i).
Proof. rewrite header_length. set (un := 4 + length (enc c (msg_of i))). destruct (aligned_facts un) as (A & _ & B). assert (4 <= un) by (unfold un; lia). clearbody un.
  destruct (Nat.le_gt_cases 64 (aligned un)) as [|H']; [assumption|]. rewrite Nat.mod_small in B by exact H'. lia. Qed.

Lemma start_step c l : forall m, m < length l -> start_of c l m + 64 <= start_of c l (S m).
Proof.
  induction l as [|i r IH]; intros [|m] H; cbn [length] in H; try lia; rewrite ?start_of_cons, ?start_of_0; pose proof (header_big c i); [lia|]. specialize (IH m ltac:(lia)). lia.
Qed.
Lemma drain_fin c known fuel r : 0 < fuel -> r_fin r = true -> drain c known fuel r = ([], FEnd).
Proof.
  intros Hf F. destruct fuel as [|n]; [lia|]. cbn [drain]. unfold read_item, maybe_read_chunk, maybe_read_page, peek. rewrite F. cbn [bind]. rewrite F. cbn [bind]. rewrite F. reflexivity.
Qed.

Lemma drain_cut c known : forall r i k fuel, Forall (item_fits c) (i :: r) -> Forall (item_known known) (i :: r) -> S (length r) < fuel -> 
  k <= length (body i ++ stream_bytes c r) ->
  exists n e, drain c known fuel (Rd c i r k) = (firstn n (i :: r), e) /\ cut_outcome c (i :: r) (length (header c i) + k) n e.
Proof.
  induction r as [|j r IH]; intros i k fuel F K Hf Hk; inversion F as [|? ? F1 F2]; inversion K as [|? ? K1 K2]; subst; destruct fuel as [|fuel]; try lia; cbn [drain]; rewrite read_loaded by assumption; pose proof (header_big c i) as HB.
  - change (stream_bytes c []) with (@nil Z) in *. rewrite app_nil_r in Hk. destruct (Nat.ltb_spec k (length (body i))) as [H|H].
    + exists 0, FErr. split; [reflexivity|]. split; [cbn; lia|]. split; [cbn; lia|]. right. split; [reflexivity|]. split; [cbn; lia|]. rewrite !start_of_cons, !start_of_0. assert (start_of c [] 1 = 0) as -> by reflexivity. lia.
    + rewrite firstn_nil, load_nil. cbn [bind]. unfold fin_of. cbn [fst snd r_in r_msg]. rewrite drain_fin by (cbn in *; lia || reflexivity). exists 1, FEnd. split; [reflexivity|].
      split; [cbn; lia|]. rewrite start_of_cons. unfold start_of. cbn [firstn stream_bytes flat_map length]. split; [lia|]. left. split; [reflexivity|lia].
  - destruct (Nat.ltb_spec k (length (body i))) as [H|H].
    + exists 0, FErr. split; [reflexivity|]. split; [cbn; lia|]. split; [cbn; lia|]. right. split; [reflexivity|]. split; [cbn; lia|]. rewrite !start_of_cons, !start_of_0. lia.
    + set (k' := k - length (body i)). inversion F2 as [|? ? F3 F4]; subst. rewrite load_stream_cut by assumption. pose proof (header_big c j) as HB2. destruct (Nat.ltb_spec k' 4) as [H4|H4].
      * cbn [bind]. unfold fin_of. cbn [fst snd r_in r_msg]. rewrite drain_fin by (cbn in *; lia || reflexivity). exists 1, FEnd. split; [reflexivity|].
        split; [cbn; lia|]. rewrite start_of_cons. unfold start_of. cbn [firstn stream_bytes flat_map length]. split; [lia|]. left. split; [reflexivity|lia].
      * destruct (Nat.ltb_spec k' (length (header c j))) as [Hh|Hh].
        -- cbn [bind]. exists 0, FErr. split; [reflexivity|]. split; [cbn; lia|]. split; [cbn; lia|]. right. split; [reflexivity|]. split; [cbn; lia|].
           rewrite !start_of_cons, !start_of_0. cbn [length]. lia.
        -- cbn [bind]. unfold fin_of. cbn [fst snd].
           assert (length (stream_bytes c (j :: r)) = length (header c j) + length (body j ++ stream_bytes c r)) as LS by (unfold stream_bytes; cbn [flat_map]; unfold item_bytes at 1; rewrite !app_length; lia).
           destruct (IH j (k' - length (header c j)) fuel F2 K2) as (n & e & E & O1 & O2 & O3); [cbn in *; lia|rewrite app_length, LS in Hk; unfold k'; lia|].
           unfold Rd in E. rewrite E. exists (S n), e. split; [reflexivity|]. split; [cbn in *; lia|]. rewrite !start_of_cons. split; [unfold k' in *; lia|].
           unfold k' in *. destruct O3 as [[-> O3]|(-> & O3 & O4 & O5 & O6)]; [left; split; [reflexivity|lia]|right]. split; [reflexivity|]. cbn [length] in *. rewrite ?start_of_cons in *. lia.
Qed.

(** C34: reading the whole stream gives back exactly the items, and then the end of the stream. *)
Theorem stream_round_trip :
  forall (c : codec) (known : nat -> bool) (l : list item) (fuel : nat), l <> [] -> Forall (item_fits c) l -> Forall (item_known known) l ->
  length l < fuel ->
  exists w, write_items c (W [] 0) l = Ok w /\ read_stream c known fuel (w_out w) = (l, FEnd).
Proof.
  intros c known l fuel NE F K Hf. destruct (writer_output c l) as (w & E1 & E2 & _). exists w. split; [exact E1|]. rewrite E2.
  destruct l as [|i r]; [congruence|]. unfold read_stream, try_reader. pose proof (header_big c i) as HB.
  assert (length (stream_bytes c (i :: r)) = length (header c i) + length (body i ++ stream_bytes c r)) as LS by (unfold stream_bytes; cbn [flat_map]; unfold item_bytes at 1; rewrite !app_length; lia).
  rewrite <- (firstn_all (stream_bytes c (i :: r))). rewrite load_stream_cut by (auto; inversion F; assumption). rewrite LS.
  rewrite (proj2 (Nat.ltb_ge _ _)) by lia. rewrite (proj2 (Nat.ltb_ge _ _)) by lia. cbn [bind].
  destruct (drain_cut c known r i (length (header c i) + length (body i ++ stream_bytes c r) - length (header c i)) fuel F K) as (n & e & E & O1 & O2 & O3); [cbn in *; lia|lia|].
  unfold Rd in E. rewrite E. replace (length (header c i) + (length (header c i) + length (body i ++ stream_bytes c r) - length (header c i))) with (start_of c (i :: r) (length (i :: r))) in O2, O3 by (unfold start_of; rewrite firstn_all, LS; lia).
  pose proof (start_step c (i :: r)) as ST.
  assert (forall a b, a <= b -> b <= length (i :: r) -> start_of c (i :: r) a <= start_of c (i :: r) b) as SM.
  { intros a b H. induction H as [|b H IHb]; intros Hb; [lia|]. specialize (IHb ltac:(lia)). specialize (ST b ltac:(lia)). lia. }
  destruct O3 as [[-> O3]|(-> & O3 & O4 & O5 & O6)].
  - destruct (Nat.eq_dec n (length (i :: r))) as [->|N]; [rewrite firstn_all; reflexivity|]. pose proof (ST n ltac:(lia)). pose proof (SM (S n) (length (i :: r)) ltac:(lia) ltac:(lia)). lia.
  - exfalso. destruct O6 as [O6|[O6 O7]].
    + pose proof (SM (S n) (length (i :: r)) ltac:(lia) ltac:(lia)). lia.
    + pose proof (SM (S (S n)) (length (i :: r)) ltac:(lia) ltac:(lia)). lia.
Qed.
Print Assumptions stream_round_trip.

(** C36: a stream cut anywhere after its first four bytes gives the first [n] items unchanged, then either the end (exactly when the
    cut is at an item boundary or inside the four length bytes of the next item) or an error. *)
Theorem stream_truncation :
  forall (c : codec) (known : nat -> bool) (l : list item) (fuel k : nat), l <> [] -> Forall (item_fits c) l -> Forall (item_known known) l ->
  length l < fuel -> 4 <= k -> k <= length (stream_bytes c l) ->
  exists n e, read_stream c known fuel (firstn k (stream_bytes c l)) = (firstn n l, e) /\ n <= length l /\ start_of c l n <= k /\
    (e = FEnd \/ e = FErr) /\
    (e = FEnd -> start_of c l n <= k <= start_of c l n + 3) /\
    (e = FErr -> k < start_of c l (S (S n)) /\ forall m, m <= length l -> ~ start_of c l m <= k <= start_of c l m + 3).
Proof.
  intros c known l fuel k NE F K Hf H4 Hk. destruct l as [|i r]; [congruence|]. unfold read_stream, try_reader.
  rewrite load_stream_cut by (auto; inversion F; assumption). rewrite (proj2 (Nat.ltb_ge _ _)) by lia. pose proof (header_big c i) as HB.
  assert (length (stream_bytes c (i :: r)) = length (header c i) + length (body i ++ stream_bytes c r)) as LS by (unfold stream_bytes; cbn [flat_map]; unfold item_bytes at 1; rewrite !app_length; lia).
  pose proof (start_step c (i :: r)) as ST.
  assert (forall a b, a <= b -> b <= length (i :: r) -> start_of c (i :: r) a <= start_of c (i :: r) b) as SM.
  { intros a b H. induction H as [|b H IHb]; intros Hb; [lia|]. specialize (IHb ltac:(lia)). specialize (ST b ltac:(lia)). lia. }
  destruct (Nat.ltb_spec k (length (header c i))) as [Hh|Hh].
  - cbn [bind]. exists 0, FErr. split; [reflexivity|]. split; [lia|]. split; [unfold start_of; cbn; lia|]. split; [auto|]. split; [discriminate|]. intros _. split.
    + rewrite start_of_cons. lia.
    + intros [|m] Hm; [unfold start_of; cbn; lia|]. rewrite start_of_cons. lia.
  - cbn [bind]. destruct (drain_cut c known r i (k - length (header c i)) fuel F K) as (n & e & E & O1 & O2 & O3); [cbn in *; lia|lia|].
    replace (length (header c i) + (k - length (header c i))) with k in * by lia. unfold Rd in E. rewrite E. exists n, e. split; [reflexivity|]. split; [exact O1|]. split; [exact O2|].
    destruct O3 as [[-> O3]|(-> & O3 & O4 & O5 & O6)].
    + split; [auto|]. split; [lia|discriminate].
    + split; [auto|]. split; [discriminate|]. intros _. split; [exact O5|]. intros m Hm.
      destruct (Nat.le_gt_cases m n) as [L|L]; [pose proof (SM m n L O1); lia|]. destruct O6 as [O6|[O6 O7]].
      * pose proof (SM (S n) m ltac:(lia) Hm). lia.
      * destruct (Nat.eq_dec m (S n)) as [->|N]; [lia|]. pose proof (SM (S (S n)) m ltac:(lia) Hm). lia.
Qed.
Print Assumptions stream_truncation.

(** ** The calls of the API one by one *)
Lemma chunk_loaded c known n t r : item_fits c (IBatch n t) -> item_known known (IBatch n t) ->
  maybe_read_chunk c known (Rd c (IBatch n t) r (length (body (IBatch n t) ++ stream_bytes c r))) =
    do x <- load_next c (R (stream_bytes c r) [] false); Ok (Some (n, t), fin_of x).
Proof.
  intros F K. set (i := IBatch n t) in *. assert (dec c (loaded_msg c i) = Some (msg_of i)) as D by apply F. set (k := length (body i ++ stream_bytes c r)).
  assert (peek c (Rd c i r k) = Ok (Some (msg_of i))) as P by (unfold peek, Rd; cbn [r_fin r_msg]; rewrite D; reflexivity).
  unfold maybe_read_chunk. rewrite P. cbn [bind]. unfold i in *. cbn [msg_of] in *.
  unfold batch_msg in *. pose proof (split_ok (all_buffers t) 0 []) as S. destruct (buffer_table 0 (all_buffers t)) as [bt size] eqn:E. destruct S as [S1 S2]. rewrite app_nil_r in S1. cbn [plus] in S2.
  rewrite S2. unfold Rd at 1. cbn [r_in body]. assert (length (flat_map padded (all_buffers t)) <= k) as Hk by (unfold k; rewrite app_length; cbn [body]; lia).
  rewrite (proj2 read_into_cut) by exact Hk. rewrite <- S2, S1. cbn [bind]. unfold Rd. cbn [r_msg r_fin body]. rewrite next_eq by reflexivity. cbn [r_in r_msg].
  rewrite firstn_all2 by (unfold k; rewrite app_length; cbn [body]; lia).
  destruct (load_next c _) as [x| |]; cbn [bind]; try reflexivity.
  unfold into_array. assert (known (fb_enc (to_fb t 0)) = true) as -> by (destruct t; exact K). rewrite array_tree_round_trip. reflexivity.
Qed.
Lemma dtype_loaded c d r : item_fits c (IDType d) ->
  read_dtype c (Rd c (IDType d) r (length (body (IDType d) ++ stream_bytes c r))) = do x <- load_next c (R (stream_bytes c r) [] false); Ok (d, fin_of x).
Proof.
  intros F. assert (dec c (loaded_msg c (IDType d)) = Some (MSchema d)) as D by apply F. unfold read_dtype, peek. unfold Rd. cbn [r_fin r_msg]. rewrite D. cbn [bind].
  rewrite next_eq by reflexivity. cbn [r_in r_msg body app]. rewrite firstn_all. destruct (load_next c _) as [x| |]; cbn [bind]; try reflexivity. rewrite D. reflexivity.
Qed.
Definition at_items (c : codec) (r : reader) (l : list item) : Prop :=
  match l with [] => r_fin r = true | i :: l' => r = Rd c i l' (length (body i ++ stream_bytes c l')) end.
Lemma load_at c l : Forall (item_fits c) l -> exists x, load_next c (R (stream_bytes c l) [] false) = Ok x /\ at_items c (fin_of x) l.
Proof.
  intros F. destruct l as [|i r]; [eexists; split; reflexivity|]. rewrite <- (firstn_all (stream_bytes c (i :: r))). rewrite load_stream_cut by (inversion F; assumption).
  assert (length (stream_bytes c (i :: r)) = length (header c i) + length (body i ++ stream_bytes c r)) as LS by (unfold stream_bytes; cbn [flat_map]; unfold item_bytes at 1; rewrite !app_length; lia).
  pose proof (header_big c i). rewrite LS. rewrite !(proj2 (Nat.ltb_ge _ _)) by lia. eexists. split; [reflexivity|]. unfold fin_of. cbn [fst snd at_items]. unfold Rd. do 2 f_equal. lia.
Qed.

Definition is_batch (i : item) : bool := match i with IBatch _ _ => true | _ => false end.
Lemma array_stream_run c known : forall bs rest r fuel, Forall (item_fits c) (map (fun x => IBatch (fst x) (snd x)) bs ++ rest) -> Forall (item_known known) (map (fun x => IBatch (fst x) (snd x)) bs ++ rest) ->
  match rest with [] => True | i :: _ => is_batch i = false end -> length bs < fuel -> at_items c r (map (fun x => IBatch (fst x) (snd x)) bs ++ rest) ->
  exists r', array_stream c known fuel r = (bs, Ok (Some r')) /\ at_items c r' rest.
Proof.
  induction bs as [|[n t] bs IH]; intros rest r fuel F K NB Hf A; (destruct fuel as [|fuel]; [lia|]); cbn [map app fst snd array_stream] in *.
  - exists r. split; [|exact A]. unfold maybe_read_chunk. destruct rest as [|i rest]; cbn [at_items] in A.
    + unfold peek. rewrite A. reflexivity.
    + subst r. unfold peek, Rd. cbn [r_fin r_msg]. inversion F as [|? ? F1 F2]; subst. assert (dec c (loaded_msg c i) = Some (msg_of i)) as -> by apply F1. destruct i; try discriminate NB; reflexivity.
  - inversion F as [|? ? F1 F2]; inversion K as [|? ? K1 K2]; subst. cbn [at_items] in A. subst r. rewrite chunk_loaded by assumption.
    destruct (load_at c _ F2) as (x & -> & A2). cbn [bind]. destruct (IH rest (fin_of x) fuel F2 K2 NB) as (r' & E & A3); [cbn in Hf; lia|exact A2|]. rewrite E. exists r'. auto.
Qed.

(** C34, as the stream reader is used: open, read the data type, then the stream of its batches; the reader is then at the message
    after the last of them (or at the end, where asking for more batches or pages gives nothing). *)
Theorem array_stream_round_trip :
  forall (c : codec) (known : nat -> bool) (d : dtype) (bs : list (nat * atree)) (rest : list item) (fuel : nat),
  let l := IDType d :: map (fun x => IBatch (fst x) (snd x)) bs ++ rest in
  Forall (item_fits c) l -> Forall (item_known known) l -> match rest with [] => True | i :: _ => is_batch i = false end -> length l < fuel ->
  exists w r0 r1 r2, write_items c (W [] 0) l = Ok w /\ try_reader c (w_out w) = Ok r0 /\ read_dtype c r0 = Ok (d, r1) /\
    array_stream c known fuel r1 = (bs, Ok (Some r2)) /\ drain c known fuel r2 = (rest, FEnd).
Proof.
  intros c known d bs rest fuel l F K NB Hf. destruct (writer_output c l) as (w & E1 & E2 & _). exists w.
  destruct (load_at c l F) as (x & L1 & A1). unfold try_reader. rewrite E2, L1. unfold l in A1. cbn [at_items] in A1.
  destruct x as [more r0]. cbn [bind]. exists r0.
  assert (more = true /\ fin_of (more, r0) = r0) as [-> _]. { unfold fin_of in *. destruct more; [auto|]. cbn [fst snd] in A1. discriminate A1. }
  unfold fin_of in A1. cbn [fst snd] in A1. subst r0. inversion F as [|? ? F1 F2]; inversion K as [|? ? K1 K2]; subst.
  destruct (load_at c _ F2) as (x & L2 & A2). exists (fin_of x).
  destruct (array_stream_run c known bs rest (fin_of x) fuel F2 K2 NB) as (r2 & E & A3); [unfold l in Hf; cbn [length] in Hf; rewrite app_length, map_length in Hf; lia|exact A2|].
  exists r2. split; [exact E1|]. split; [reflexivity|]. split; [rewrite dtype_loaded by exact F1; rewrite L2; reflexivity|]. split; [exact E|].
  assert (length rest < fuel) as Hr by (unfold l in Hf; cbn [length] in Hf; rewrite app_length in Hf; lia).
  apply Forall_app in F2. destruct F2 as [_ F2]. apply Forall_app in K2. destruct K2 as [_ K2].
  destruct rest as [|i rest]; cbn [at_items] in A3; [apply drain_fin; [lia|exact A3]|]. subst r2.
  destruct (drain_cut c known rest i _ fuel F2 K2 Hr (le_n _)) as (n & e & Ed & O1 & O2 & O3). rewrite Ed.
  assert (length (stream_bytes c (i :: rest)) = length (header c i) + length (body i ++ stream_bytes c rest)) as LS by (unfold stream_bytes; cbn [flat_map]; unfold item_bytes at 1; rewrite !app_length; lia).
  rewrite <- LS in O2, O3. replace (length (stream_bytes c (i :: rest))) with (start_of c (i :: rest) (length (i :: rest))) in O2, O3 by (unfold start_of; rewrite firstn_all; reflexivity).
  pose proof (start_step c (i :: rest)) as ST.
  assert (forall a b, a <= b -> b <= length (i :: rest) -> start_of c (i :: rest) a <= start_of c (i :: rest) b) as SM.
  { intros a b H. induction H as [|b H IHb]; intros Hb; [lia|]. specialize (IHb ltac:(lia)). specialize (ST b ltac:(lia)). lia. }
  destruct O3 as [[-> O3]|(-> & O3 & O4 & O5 & O6)].
  - destruct (Nat.eq_dec n (length (i :: rest))) as [->|N]; [rewrite firstn_all; reflexivity|]. pose proof (ST n ltac:(lia)). pose proof (SM (S n) (length (i :: rest)) ltac:(lia) ltac:(lia)). lia.
  - exfalso. destruct O6 as [O6|[O6 O7]]; [pose proof (SM (S n) (length (i :: rest)) ltac:(lia) ltac:(lia))|pose proof (SM (S (S n)) (length (i :: rest)) ltac:(lia) ltac:(lia))]; lia.
Qed.
Print Assumptions array_stream_round_trip.

(** ** Chunk offsets: StreamArrayWriter::write_array_chunks, stream_writer/mod.rs:50-68 *)
Fixpoint write_chunks (c : codec) (w : writer) (rows : nat) (bs : list (nat * atree)) : result (writer * list nat * list nat) :=
  match bs with
  | [] => Ok (w, [], [])
  | (n, t) :: r => do w <- write_batch c w n t; do (w', bo, ro) <- write_chunks c w (rows + n) r; Ok (w', w_pos w :: bo, (rows + n) :: ro)
  end.
Definition write_array_chunks (c : codec) (w : writer) (bs : list (nat * atree)) : result (writer * list nat * list nat) :=
  do (w', bo, ro) <- write_chunks c w 0 bs; Ok (w', w_pos w :: bo, 0 :: ro).

(** The recorded byte range of chunk [k] holds exactly the bytes of chunk [k], and its recorded row range its rows; the ranges follow
    one another without gap or overlap. *)
Theorem chunk_offsets_tile :
  forall (c : codec) (w : writer) (bs : list (nat * atree)), w_pos w = length (w_out w) -> length (w_out w) mod 64 = 0 ->
  exists w' bo ro, write_array_chunks c w bs = Ok (w', bo, ro) /\ length bo = S (length bs) /\ length ro = S (length bs) /\
    nth 0 bo 0 = length (w_out w) /\ nth (length bs) bo 0 = length (w_out w') /\ nth 0 ro 0 = 0 /\ firstn (length (w_out w)) (w_out w') = w_out w /\
    forall k n t, nth_error bs k = Some (n, t) ->
      nth (S k) ro 0 = nth k ro 0 + n /\ nth k bo 0 < nth (S k) bo 0 /\
      firstn (nth (S k) bo 0 - nth k bo 0) (skipn (nth k bo 0) (w_out w')) = item_bytes c (IBatch n t).
Proof.
  intros c w bs P A. unfold write_array_chunks.
  assert (forall bs w rows, w_pos w = length (w_out w) -> length (w_out w) mod 64 = 0 ->
    exists w' bo ro, write_chunks c w rows bs = Ok (w', bo, ro) /\ length bo = length bs /\ length ro = length bs /\
    w_out w' = w_out w ++ stream_bytes c (map (fun x => IBatch (fst x) (snd x)) bs) /\ w_pos w' = length (w_out w') /\ nth (length bs) (w_pos w :: bo) 0 = length (w_out w') /\
    forall k n t, nth_error bs k = Some (n, t) -> nth (S k) (rows :: ro) 0 = nth k (rows :: ro) 0 + n /\ 
      nth k (w_pos w :: bo) 0 = length (w_out w ++ stream_bytes c (firstn k (map (fun x => IBatch (fst x) (snd x)) bs))) /\
      nth (S k) (w_pos w :: bo) 0 = nth k (w_pos w :: bo) 0 + length (item_bytes c (IBatch n t))) as H.
  { clear. induction bs as [|[n t] bs IH]; intros w rows P A; cbn [write_chunks].
    - exists w, [], []. cbn. rewrite app_nil_r. do 6 (split; [auto|]). intros [|k] n t H; discriminate H.
    - change (write_batch c w n t) with (write_item c w (IBatch n t)). rewrite write_item_ok by congruence. cbn [bind]. set (w1 := put w (item_bytes c (IBatch n t))).
      assert (w_pos w1 = length (w_out w1)) as P1 by (unfold w1, put; cbn [w_pos w_out]; rewrite app_length; lia).
      destruct (IH w1 (rows + n) P1) as (w' & bo & ro & E & L1 & L2 & O & PP & LL & H). { unfold w1, put. cbn [w_out]. rewrite app_length. apply mod_add64; [exact A|apply item_mod]. }
      rewrite E. cbn [bind]. exists w', (w_pos w1 :: bo), ((rows + n) :: ro). split; [reflexivity|]. cbn [length map fst snd]. split; [lia|]. split; [lia|].
      split. { rewrite O. unfold w1, put, stream_bytes. cbn [w_out flat_map]. rewrite <- app_assoc. reflexivity. } split; [exact PP|]. split; [cbn [nth]; exact LL|].
      intros [|k] n' t' Hk.
      + cbn in Hk. assert (n' = n /\ t' = t) as [-> ->] by (split; congruence). cbn [nth firstn]. unfold stream_bytes. cbn [flat_map]. rewrite app_nil_r. split; [reflexivity|]. split; [exact P|]. reflexivity.
      + cbn [nth_error] in Hk. destruct (H k n' t' Hk) as (H1 & H2 & H3). split; [exact H1|]. cbn [firstn]. split; [|exact H3]. change (nth (S k) (w_pos w :: w_pos w1 :: bo) 0) with (nth k (w_pos w1 :: bo) 0). rewrite H2.
        unfold w1, put, stream_bytes. cbn [w_out flat_map]. rewrite <- app_assoc. reflexivity. }
  destruct (H bs w 0 P A) as (w' & bo & ro & E & L1 & L2 & O & PP & LL & HH). rewrite E. cbn [bind]. exists w', (w_pos w :: bo), (0 :: ro). split; [reflexivity|].
  cbn [length]. split; [lia|]. split; [lia|]. split; [exact P|]. split; [exact LL|]. split; [reflexivity|]. split. { rewrite O, firstn_app, firstn_all, Nat.sub_diag. cbn [firstn]. apply app_nil_r. }
  intros k n t Hk. destruct (HH k n t Hk) as (H1 & H2 & H3). split; [exact H1|]. assert (0 < length (item_bytes c (IBatch n t))) as IP by (unfold item_bytes; rewrite app_length; pose proof (header_big c (IBatch n t)); lia). split; [lia|].
  rewrite H3, H2. set (l := map (fun x => IBatch (fst x) (snd x)) bs) in *. assert (nth_error l k = Some (IBatch n t)) as Hl by (unfold l; rewrite nth_error_map, Hk; reflexivity).
  apply nth_error_split in Hl. destruct Hl as (l1 & l2 & El & Lk). rewrite O, El. rewrite firstn_app, <- Lk, firstn_all, Nat.sub_diag. cbn [firstn]. rewrite app_nil_r.
  unfold stream_bytes. rewrite flat_map_app. cbn [flat_map]. rewrite app_assoc. rewrite skipn_app, skipn_all, Nat.sub_diag. cbn [app skipn].
  match goal with |- firstn (?a + ?b - ?a) _ = _ => replace (a + b - a) with b by lia end. rewrite firstn_app, firstn_all, Nat.sub_diag. cbn [firstn]. apply app_nil_r.
Qed.
Print Assumptions chunk_offsets_tile.

(** * Example and defects *)

(** A stream of a schema, a batch of two nested arrays with buffers of 3 and 0 bytes, and a page of 65 bytes, for a codec that can tell
    these messages apart. *)
Definition ex_tree := Node 1 [] [] None [Node 2 [7]%Z [] (Some [1; 2; 3]%Z) []; Node 2 [8]%Z [] (Some []) []].
Definition ex_items := [IDType (DPrim I32 false); IBatch 3 ex_tree; IPage (repeat 5%Z 65)].
Definition ex_codec : codec :=
  Codec (fun m => match m with MSchema _ => [1]%Z | MBatch _ _ _ _ => [2]%Z | MPage _ _ => repeat 3%Z 70 end)
        (fun l => match l with 1%Z :: _ => Some (MSchema (DPrim I32 false)) | 2%Z :: _ => Some (batch_msg 3 ex_tree) | 3%Z :: _ => Some (MPage 65 63) | _ => None end).
Example stream_example :
  Forall (item_fits ex_codec) ex_items /\ Forall (item_known (fun e => e =? 1)) ex_items /\ length (stream_bytes ex_codec ex_items) = 64 + (64 + 64 + 0) + (128 + 128) /\
  read_stream ex_codec (fun e => e =? 1) 4 (stream_bytes ex_codec ex_items) = (ex_items, FEnd).
Proof.
  split; [|split; [|split]].
  - repeat constructor; try (intros k; reflexivity); cbn; lia.
  - repeat constructor.
  - reflexivity.
  - vm_compute. reflexivity.
Qed.

(** Opening an empty stream, or one cut within its first four bytes, succeeds, and the first read is then an unchecked access to a message
    that was never loaded (modelled as a panic). *)
Theorem empty_stream_panics_refuted : forall (c : codec) (known : nat -> bool) (fuel : nat) (inp : list Z), dec c [] = None -> length inp < 4 ->
  read_stream c known (S fuel) inp = ([], FPanic).
Proof.
  intros c known fuel inp D H. unfold read_stream, try_reader, load_next. cbn [r_in r_fin]. unfold read_into. rewrite (proj2 (Nat.ltb_lt _ _)) by exact H. cbn [bind drain].
  unfold read_item, maybe_read_chunk, peek. cbn [r_fin r_msg]. rewrite D. reflexivity.
Qed.
Print Assumptions empty_stream_panics_refuted.

(** The end of the stream is also reported when the stream was cut inside the length bytes of a message: not every truncation is noticed. *)
Theorem truncation_always_noticed_refuted :
  ~ (forall (c : codec) (known : nat -> bool) (l : list item) (fuel k : nat), Forall (item_fits c) l -> Forall (item_known known) l -> length l < fuel -> 4 <= k ->
     (forall m, m <= length l -> k <> start_of c l m) -> k < length (stream_bytes c l) ->
     snd (read_stream c known fuel (firstn k (stream_bytes c l))) = FErr).
Proof.
  intros H. destruct stream_example as (A & B & _ & _). specialize (H ex_codec (fun e => e =? 1) ex_items 4 67 A B ltac:(cbn; lia) ltac:(lia)).
  assert (forall m, m <= length ex_items -> 67 <> start_of ex_codec ex_items m) as N. { intros m Hm. destruct m as [|[|[|[|m]]]]; [vm_compute; discriminate..|]. cbn in Hm. lia. }
  specialize (H N ltac:(vm_compute; lia)). vm_compute in H. discriminate H.
Qed.
Print Assumptions truncation_always_noticed_refuted.

(** A page of 2^32 bytes or more is written with its size cut to 32 bits: it is the limit in [item_fits]. *)
Theorem big_page_size_refuted : forall b, Z.of_nat (length b) = 4294967296%Z -> msg_of (IPage b) = MPage 0 (aligned (length b) - length b).
Proof. intros b H. cbn [msg_of]. unfold page_msg, as_u32. rewrite H. reflexivity. Qed.
Print Assumptions big_page_size_refuted.

(** A message length of zero is an error, wherever it comes in the stream, and so are bytes that are not a message. *)
Theorem zero_length_message_is_an_error :
  forall (c : codec) (rest msg : list Z) (fin : bool), load_next c (R ([0; 0; 0; 0]%Z ++ rest) msg fin) = Err.
Proof. reflexivity. Qed.
Theorem undecodable_message_is_an_error :
  forall (c : codec) (lb m rest msg : list Z) (fin : bool), length lb = 4 -> le_u32 lb = Z.of_nat (length m) -> (Z.of_nat (length m) < 4294967295)%Z -> dec c m = None ->
  load_next c (R (lb ++ m ++ rest) msg fin) = Err.
Proof.
  intros c lb m rest msg fin L E B D. unfold load_next, read_into. cbn [r_in]. rewrite app_length, (proj2 (Nat.ltb_ge _ _)) by lia. rewrite firstn_app, skipn_app, L, Nat.sub_diag, (firstn_all2 lb), (skipn_all2 lb) by lia. cbn [firstn skipn]. rewrite app_nil_r. cbn [app].
  rewrite E, (proj2 (Z.eqb_neq _ _)) by lia. destruct (Z.of_nat (length m) =? 0)%Z; [reflexivity|]. rewrite Nat2Z.id, app_length, (proj2 (Nat.ltb_ge _ _)) by lia. rewrite firstn_app, Nat.sub_diag, firstn_all. cbn [firstn]. rewrite app_nil_r, D. reflexivity.
Qed.
